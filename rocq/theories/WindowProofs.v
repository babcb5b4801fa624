(** Proofs about the window of the sample program. *)
From Coq Require Import Qround Lqa.
From Verif Require Import Base BaseFacts UiModel UiSpec UiProofs WindowModel WindowSpec.
Set Implicit Arguments.
Open Scope nat_scope.
Open Scope list_scope.

Lemma last_index_snoc A (f : A -> bool) l a : last_index f (l ++ [a]) = if f a then Some (List.length l) else last_index f l.
Proof.
  unfold last_index. rewrite rev_unit, app_length. cbn [first_index List.length]. destruct (f a); cbn [option_map]; [f_equal; lia|].
  destruct (first_index f (rev l)) as [i|] eqn:E; cbn [option_map]; [f_equal; lia|reflexivity].
Qed.
Lemma last_index_char A (f : A -> bool) l i a : nth_error l i = Some a -> f a = true ->
  (forall k b, i < k -> nth_error l k = Some b -> f b = false) -> last_index f l = Some i.
Proof.
  revert i a. induction l as [|z l IH] using rev_ind; intros i a H Fa K; [destruct i; discriminate|]. rewrite last_index_snoc.
  assert (Li : i < List.length (l ++ [z])) by (apply nth_error_Some; congruence). rewrite app_length in Li. cbn in Li.
  destruct (Nat.eq_dec i (List.length l)) as [->|N].
  - rewrite nth_error_app2, Nat.sub_diag in H by lia. cbn in H. injection H as ->. rewrite Fa. reflexivity.
  - rewrite (K (List.length l) z) by (try lia; rewrite nth_error_app2, Nat.sub_diag by lia; reflexivity).
    rewrite nth_error_app1 in H by lia. apply (IH _ _ H Fa). intros k b Hk Hb. apply (K k b Hk). rewrite nth_error_app1; [exact Hb|].
    apply nth_error_Some. congruence.
Qed.
Lemma last_index_none A (f : A -> bool) l : (forall k a, nth_error l k = Some a -> f a = false) -> last_index f l = None.
Proof. intros H. pose proof (last_index_spec f l) as P. destruct (last_index f l) as [i|]; [|reflexivity]. destruct P as (a & P1 & P2). rewrite (H i a P1) in P2. discriminate. Qed.

Fixpoint lastn {A} (f : A -> bool) (l : list A) (n : nat) : option nat :=
  match n with
  | O => None
  | S n => match nth_error l n with Some a => if f a then Some n else lastn f l n | None => lastn f l n end
  end.
Lemma lastn_app A (f : A -> bool) l l' n : n <= List.length l -> lastn f (l ++ l') n = lastn f l n.
Proof. induction n as [|n IH]; intros H; [reflexivity|]. cbn [lastn]. rewrite nth_error_app1 by lia. rewrite IH by lia. reflexivity. Qed.
Lemma lastn_all A (f : A -> bool) l : lastn f l (List.length l) = last_index f l.
Proof.
  induction l as [|a l IH] using rev_ind; [reflexivity|]. rewrite last_index_snoc, app_length. cbn [List.length]. rewrite Nat.add_1_r. cbn [lastn].
  rewrite nth_error_app2, Nat.sub_diag by lia. cbn [nth_error]. rewrite lastn_app by lia. rewrite IH. reflexivity.
Qed.

(** * Trays *)
Definition rows (t : tray) (n : nat) : Prop :=
  List.length (t_items t) = n /\ forall j it, nth_error (t_items t) j = Some it -> (i_y it == 3 + 22 * inject_Z (Z.of_nat j))%Q /\ i_setting it = i_selected it.
Definition shape (ts : list tray) (counts : list nat) : Prop :=
  List.length ts = List.length counts /\ forall i t, nth_error ts i = Some t -> rows t (nth i counts 0).

Lemma inj_S n : (inject_Z (Z.of_nat (S n)) == inject_Z (Z.of_nat n) + 1)%Q.
Proof. rewrite Nat2Z.inj_succ, <- Z.add_1_r, inject_Z_plus. reflexivity. Qed.
Lemma inj_le a b : a <= b -> (inject_Z (Z.of_nat a) <= inject_Z (Z.of_nat b))%Q.
Proof. intros H. rewrite <- Zle_Qle. lia. Qed.
Lemma inj_nonneg a : (0 <= inject_Z (Z.of_nat a))%Q.
Proof. change 0%Q with (inject_Z 0). rewrite <- Zle_Qle. lia. Qed.

Lemma make_tray_rows n : rows (make_tray n) n /\ (t_height (make_tray n) == 5 + 22 * inject_Z (Z.of_nat n))%Q.
Proof.
  induction n as [|n [[L R] H]]; [split; [split; [reflexivity|intros [|j] it E; discriminate]|reflexivity]|]. cbn [make_tray add_item t_items t_height]. split; [split|].
  - cbn. rewrite app_length, L. cbn. lia.
  - intros j it E. cbn [add_item t_items] in E. destruct (Nat.ltb_spec j n) as [Lt|Ge].
    + rewrite nth_error_app1 in E by lia. apply (R j it E).
    + rewrite nth_error_app2 in E by lia. destruct (j - List.length (t_items (make_tray n))) as [|k] eqn:D; [|destruct k; discriminate]. injection E as <-.
      cbn [i_y i_setting i_selected]. assert (j = n) as -> by lia. split; [rewrite H; ring|reflexivity].
  - rewrite H. rewrite inj_S. ring.
Qed.
Lemma make_shape (menus : list (nat * nat)) : shape (map (fun m => make_tray (snd m)) menus) (map snd menus).
Proof.
  split; [rewrite !map_length; reflexivity|]. intros i t E. rewrite nth_error_map in E. destruct (nth_error menus i) as [[a c]|] eqn:N; [|discriminate]. injection E as <-.
  rewrite (nth_error_nth _ _ 0 (map_nth_error snd i menus N)). apply make_tray_rows.
Qed.

Lemma nth_error_list_set A (l : list A) i a k : i < List.length l -> nth_error (list_set l i a) k = if k =? i then Some a else nth_error l k.
Proof. apply nth_error_set. Qed.
Lemma list_set_length A (l : list A) i a : List.length (list_set l i a) = List.length l.
Proof. revert i. induction l as [|b l IH]; intros [|i]; cbn; auto. Qed.

Lemma click_shape ts counts i j : shape ts counts -> shape (click_item ts i j) counts.
Proof.
  intros [L R]. unfold click_item. destruct (nth_error ts i) as [t|] eqn:E; [|split; assumption].
  destruct (nth_error (t_items t) j) as [it|] eqn:F; [|split; assumption]. split; [rewrite list_set_length; exact L|]. intros k t' K.
  rewrite nth_error_list_set in K by (apply nth_error_Some; congruence). destruct (Nat.eqb_spec k i) as [->|N]; [|apply (R k t' K)]. injection K as <-.
  destruct (R i t E) as [R1 R2]. split; cbn [t_items]; [rewrite list_set_length; exact R1|]. intros j' it' J.
  rewrite nth_error_list_set in J by (apply nth_error_Some; congruence). destruct (Nat.eqb_spec j' j) as [->|N]; [|apply (R2 j' it' J)]. injection J as <-.
  cbn [clicked i_y i_setting i_selected]. split; [apply (R2 j it F)|reflexivity].
Qed.

Lemma in_item_iff left_ x y it : in_item left_ x y it = true <-> (left_ + 3 <= x /\ x <= left_ + 169 /\ 20 + i_y it <= y /\ y <= 42 + i_y it)%Q.
Proof. unfold in_item, within. rewrite !andb_true_iff, !Qle_bool_iff. split; intros H; repeat split; lra. Qed.
Lemma in_item_below left_ x y t n : rows t n -> (y < 23)%Q -> last_index (in_item left_ x y) (t_items t) = None.
Proof.
  intros [_ R] Y. apply last_index_none. intros k it K. apply not_true_iff_false. intros H. apply in_item_iff in H. destruct (R k it K) as [E _].
  pose proof (inj_nonneg k). lra.
Qed.

Lemma rows_at left_ x y t n : rows t n -> last_index (in_item left_ x y) (t_items t) = item_at left_ n x y.
Proof.
  intros [L R]. unfold item_at. destruct ((0 <? n) && _ && _ && _ && _) eqn:B.
  - rewrite !andb_true_iff, !Qle_bool_iff, Nat.ltb_lt in B. destruct B as ((((N & X1) & X2) & Y1) & Y2).
    set (q := ((y - 23) / 22)%Q). assert (Q22 : (y == 23 + 22 * q)%Q) by (unfold q; field).
    assert (Q0 : (0 <= q)%Q) by lra. assert (F0 : (0 <= Qfloor q)%Z) by (change 0%Z with (Qfloor 0); apply Qfloor_resp_le; exact Q0).
    pose proof (Qfloor_le q) as Fl. pose proof (Qlt_floor q) as Fu. rewrite inject_Z_plus in Fu. change (inject_Z 1) with 1%Q in Fu.
    set (j := Nat.min (Z.to_nat (Qfloor q)) (n - 1)). assert (Jn : j < n) by (unfold j; lia).
    destruct (nth_error (t_items t) j) as [it|] eqn:J; [|apply nth_error_None in J; lia].
    assert (Jf : (inject_Z (Z.of_nat j) <= inject_Z (Qfloor q))%Q) by (rewrite <- Zle_Qle; unfold j; lia).
    apply last_index_char with (a := it); [exact J| |].
    + apply in_item_iff. destruct (R j it J) as [E _]. repeat split; try assumption; try lra.
      destruct (Nat.le_gt_cases (Z.to_nat (Qfloor q)) (n - 1)) as [Le|Gt].
      * assert (EJ : (inject_Z (Z.of_nat j) == inject_Z (Qfloor q))%Q) by (apply inject_Z_injective; unfold j; lia). lra.
      * assert (EJ : S j = n) by (unfold j; lia). assert (IJ : (inject_Z (Z.of_nat n) == inject_Z (Z.of_nat j) + 1)%Q) by (rewrite <- EJ; apply inj_S). lra.
    + intros k b K Kb. apply not_true_iff_false. intros H. apply in_item_iff in H. destruct (R k b Kb) as [E _].
      assert (Kn : k < n) by (rewrite <- L; apply nth_error_Some; congruence).
      assert (Jq : j = Z.to_nat (Qfloor q)) by (unfold j in *; lia).
      assert (IK : (inject_Z (Z.of_nat j) + 1 <= inject_Z (Z.of_nat k))%Q) by (rewrite <- inj_S; apply inj_le; lia).
      assert (EJ : (inject_Z (Z.of_nat j) == inject_Z (Qfloor q))%Q) by (apply inject_Z_injective; lia). lra.
  - apply last_index_none. intros k it K. apply not_true_iff_false. intros H. rewrite <- not_true_iff_false in B. apply B. apply in_item_iff in H. destruct (R k it K) as [E _].
    assert (Kn : k < n) by (rewrite <- L; apply nth_error_Some; congruence). pose proof (inj_nonneg k).
    assert (IK : (inject_Z (Z.of_nat k) + 1 <= inject_Z (Z.of_nat n))%Q) by (rewrite <- inj_S; apply inj_le; lia).
    rewrite !andb_true_iff, !Qle_bool_iff, Nat.ltb_lt. repeat split; try lia; lra.
Qed.

(** * Who takes an event *)
Lemma taker_low ms ts counts b x y n : shape ts counts -> List.length ms = List.length ts -> n <= List.length ms -> (y < 23)%Q ->
  taker b ms ts x y n = match b with First => option_map OnMenu (lastn (in_menu x y) ms n) | Other => None end.
Proof.
  intros [L R] Len N Y. induction n as [|n IH]; [destruct b; reflexivity|]. cbn [taker lastn]. rewrite IH by lia.
  destruct (nth_error ms n) as [m|] eqn:M; [|apply nth_error_None in M; lia]. destruct (nth_error ts n) as [t|] eqn:T; [|apply nth_error_None in T; lia].
  rewrite (in_item_below (m_left m) x (R n t T) Y). destruct (m_open m), b; try reflexivity; destruct (in_menu x y m); reflexivity.
Qed.
Lemma in_menu_high x y m : (19 < y)%Q -> in_menu x y m = false.
Proof. intros Y. apply not_true_iff_false. intros H. apply in_menu_iff in H. lra. Qed.
Definition items_of (ms : list menu) (ts : list tray) (x y : Q) (k : nat) : option target :=
  match nth_error ms k, nth_error ts k with
  | Some m, Some t => option_map (OnItem k) (last_index (in_item (m_left m) x y) (t_items t))
  | _, _ => None
  end.
Lemma taker_closed ms ts b x y n : (19 < y)%Q -> Forall (fun m => m_open m = false) ms -> taker b ms ts x y n = None.
Proof.
  intros Y C. induction n as [|n IH]; [reflexivity|]. cbn [taker]. rewrite IH. destruct (nth_error ms n) as [m|] eqn:M; [|reflexivity]. destruct (nth_error ts n) as [t|]; [|reflexivity].
  rewrite Forall_forall in C. rewrite (C m (nth_error_In _ _ M)), in_menu_high by exact Y. destruct b; reflexivity.
Qed.
Lemma taker_open ms ts b x y k n : (19 < y)%Q -> only k ms -> n <= List.length ms -> List.length ms = List.length ts ->
  taker b ms ts x y n = if k <? n then items_of ms ts x y k else None.
Proof.
  intros Y [K O] N Len. induction n as [|n IH]; [reflexivity|]. cbn [taker]. rewrite IH by lia.
  destruct (nth_error ms n) as [m|] eqn:M; [|apply nth_error_None in M; lia]. destruct (nth_error ts n) as [t|] eqn:T; [|apply nth_error_None in T; lia].
  rewrite (O n m M), in_menu_high by exact Y. destruct (Nat.eqb_spec n k) as [->|Ne].
  - rewrite Nat.ltb_irrefl. destruct (Nat.ltb_spec k (S k)); [|lia]. unfold items_of. rewrite M, T. destruct (last_index _ _), b; reflexivity.
  - destruct (Nat.ltb_spec k n), (Nat.ltb_spec k (S n)); try lia; destruct b; reflexivity.
Qed.
Lemma taker_high_menu ms ts b x y n i : (19 < y)%Q -> taker b ms ts x y n <> Some (OnMenu i).
Proof.
  intros Y. induction n as [|n IH]; [discriminate|]. cbn [taker]. destruct (nth_error ms n) as [m|]; [|exact IH]. destruct (nth_error ts n) as [t|]; [|exact IH].
  rewrite in_menu_high by exact Y. destruct (if m_open m then _ else _); [discriminate|]. destruct b; exact IH.
Qed.
Lemma taker_item ms ts b x y n i j : taker b ms ts x y n = Some (OnItem i j) ->
  exists t it, nth_error ts i = Some t /\ nth_error (t_items t) j = Some it.
Proof.
  induction n as [|n IH]; [discriminate|]. cbn [taker]. destruct (nth_error ms n) as [m|]; [|exact IH]. destruct (nth_error ts n) as [t|] eqn:T; [|exact IH].
  destruct (m_open m).
  - pose proof (last_index_spec (in_item (m_left m) x y) (t_items t)) as P. destruct (last_index _ _) as [k|].
    + intros E. injection E as <- <-. destruct P as (it & P & _). exists t, it. auto.
    + destruct b; [destruct (in_menu x y m); [discriminate|]|]; exact IH.
  - destruct b; [destruct (in_menu x y m); [discriminate|]|]; exact IH.
Qed.

Lemma left_laid names : forall a ms i m, laid a names ms -> nth_error ms i = Some m -> m_left m = nth i (lefts a names) 0%Q.
Proof.
  induction names as [|n names IH]; intros a [|h ms] i m L E; cbn in L; try contradiction; [destruct i; discriminate|]. destruct L as (L1 & L2 & L3).
  destruct i as [|i]; cbn in E |- *; [injection E as <-; exact L1|apply (IH _ _ _ _ L3 E)].
Qed.

Section Run.
  Variables (menus : list (nat * nat)) (width : Q) (box : Q * Q * Q * Q).
  Let names := map fst menus.
  Let counts := map snd menus.
  Hypothesis Fit : Forall (fun e => e <= width)%Q (edges 0 names).

  Definition wshape (w : window) : Prop :=
    shape (w_trays w) counts /\ List.length (b_menus (w_bar w)) = List.length (w_trays w) /\ w_box w = box.
  Definition winv (w : window) (now : option nat) (x y : Q) : Prop :=
    bar_inv names width (w_bar w) x y /\ shows (w_bar w) now /\ off_edges names x /\ wshape w.

  Lemma low_or_high (y : Q) : (y < 23 \/ 19 < y)%Q.
  Proof. destruct (Qlt_le_dec y 23); [left; assumption|right; lra]. Qed.

  Lemma bar_taker_over w now b x y : winv w now x y -> bar_taker b w x y = over menus now b x y.
  Proof.
    intros ((W & L & C & O) & S & E & (Sh & Len & _)). unfold bar_taker, over. fold names counts. rewrite (@menu_at_first x y _ _ _ L).
    assert (It : (match now with Some i => option_map (OnItem i) (item_at (left_of names i) (nth i counts 0) x y) | None => None end) =
                 match now with Some i => items_of (b_menus (w_bar w)) (w_trays w) x y i | None => None end).
    { destruct now as [i|]; [|reflexivity]. cbn in S. destruct S as [_ [Li _]]. unfold items_of. destruct (nth_error (b_menus (w_bar w)) i) as [m|] eqn:M; [|apply nth_error_None in M; lia].
      destruct (nth_error (w_trays w) i) as [t|] eqn:T; [|apply nth_error_None in T; lia]. destruct Sh as [_ Sh]. rewrite (rows_at (m_left m) x y (Sh i t T)).
      unfold left_of. rewrite <- (left_laid _ _ _ _ L M). reflexivity. }
    rewrite It. clear It. destruct (low_or_high y) as [Lo|Hi].
    - rewrite (@taker_low _ _ _ b x y _ Sh Len (le_n _) Lo), lastn_all, <- (@last_first x y _ _ L E).
      replace (match now with Some i => items_of (b_menus (w_bar w)) (w_trays w) x y i | None => None end) with (@None target); [reflexivity|].
      destruct now as [i|]; [|reflexivity]. unfold items_of. destruct (nth_error (b_menus (w_bar w)) i) as [m|]; [|reflexivity]. destruct (nth_error (w_trays w) i) as [t|] eqn:T; [|reflexivity].
      destruct Sh as [_ Sh]. rewrite (in_item_below (m_left m) x (Sh i t T) Lo). reflexivity.
    - pose proof (first_index_spec (in_menu x y) (b_menus (w_bar w))) as FI. destruct (first_index _ _) as [f|].
      { destruct FI as (m & _ & FI). rewrite in_menu_high in FI by exact Hi. discriminate. } clear FI.
      destruct now as [k|]; cbn [shows] in S.
      + destruct S as [_ K]. rewrite (@taker_open _ _ b x y _ _ Hi K (le_n _) Len). destruct K as [K _]. destruct (Nat.ltb_spec k (List.length (b_menus (w_bar w)))); [|lia].
        destruct (items_of _ _ _ _ _); [reflexivity|destruct b; reflexivity].
      + rewrite taker_closed; [destruct b; reflexivity|exact Hi|apply C, S].
  Qed.

  Lemma press_bar w x y : wshape w -> w_bar (fst (press w x y First)) = bar_press (w_bar w) x y.
  Proof.
    intros (Sh & Len & _). unfold press, bar_press, bar_taker. destruct (low_or_high y) as [Lo|Hi].
    - rewrite (@taker_low _ _ _ First x y _ Sh Len (le_n _) Lo), lastn_all. destruct (last_index (in_menu x y) (b_menus (w_bar w))) as [i|]; cbn [option_map]; [reflexivity|].
      destruct (in_box w x y); reflexivity.
    - rewrite last_index_none by (intros; apply in_menu_high, Hi).
      pose proof (fun i Y => @taker_high_menu (b_menus (w_bar w)) (w_trays w) First x y (List.length (b_menus (w_bar w))) i Y) as TH.
      destruct (taker First _ _ _ _ _) as [[i j|i| |]|]; [reflexivity|exfalso; apply (TH i Hi eq_refl)|destruct (in_box w x y); reflexivity..].
  Qed.
  Lemma bar_press_length b x y : List.length (b_menus (bar_press b x y)) = List.length (b_menus b).
  Proof. unfold bar_press. destruct (last_index _ _) as [i|]; [|reflexivity]. cbn. destruct (nth_error _ _); [apply list_set_length|reflexivity]. Qed.
  Lemma bar_move_length b x y : List.length (b_menus (bar_move b x y)) = List.length (b_menus b).
  Proof.
    unfold bar_move. destruct (_ && _); [|reflexivity]. destruct (first_index _ _); [|reflexivity]. cbn.
    rewrite map_length, combine_length, seq_length. lia.
  Qed.
  Lemma press_trays w x y b : w_trays (fst (press w x y b)) =
    match bar_taker b w x y with Some (OnItem i j) => match b with First => click_item (w_trays w) i j | Other => w_trays w end | _ => w_trays w end.
  Proof. unfold press. destruct b; [|cbn; destruct (bar_taker Other w x y) as [[]|]; reflexivity]. destruct (bar_taker First w x y) as [[i j|i| |]|]; try reflexivity; destruct (in_box w x y); reflexivity. Qed.
  Lemma press_box w x y b : w_box (fst (press w x y b)) = w_box w.
  Proof. unfold press. destruct b; [|reflexivity]. destruct (bar_taker First w x y) as [[i j|i| |]|]; try reflexivity; destruct (in_box w x y); reflexivity. Qed.
  Lemma press_other w x y : fst (press w x y Other) = w.
  Proof. reflexivity. Qed.

  Lemma press_wshape w x y b : wshape w -> wshape (fst (press w x y b)).
  Proof.
    intros W. pose proof W as (Sh & Len & Bx). destruct b; [|exact W]. assert (Sh' : shape (w_trays (fst (press w x y First))) counts).
    { rewrite press_trays. destruct (bar_taker First w x y) as [[i j|i| |]|]; try exact Sh. apply click_shape, Sh. }
    split; [exact Sh'|]. split; [|rewrite press_box; exact Bx]. rewrite press_bar by exact W. rewrite bar_press_length. destruct Sh as [Sh _], Sh' as [Sh' _]. congruence.
  Qed.
  Lemma release_same w x y b : w_bar (fst (release w x y b)) = w_bar w /\ w_trays (fst (release w x y b)) = w_trays w /\ w_box (fst (release w x y b)) = w_box w.
  Proof. unfold release. destruct (bar_taker b w x y), b; auto. Qed.

  Lemma window_bar es : forall w x y, wshape w -> w_bar (fst (window_run w x y es)) = bar_run (w_bar w) x y (bar_events es).
  Proof.
    induction es as [|e es IH]; intros w x y W; [reflexivity|]. destruct e as [x' y'|b|b|]; cbn [window_run bar_events flat_map bar_event].
    - cbn [app bar_run]. rewrite IH; [reflexivity|]. destruct W as (W1 & W2 & W3). split; [exact W1|]. split; [cbn; rewrite bar_move_length; exact W2|exact W3].
    - pose proof (press_wshape x y b W) as W'. pose proof (press_bar x y W) as B. destruct b.
      + destruct (press w x y First) as [w' t]. cbn [fst] in *. specialize (IH w' x y W'). destruct (window_run w' x y es) as [w'' l]. cbn [fst app bar_run] in *.
        rewrite IH, B. reflexivity.
      + cbn [press]. specialize (IH w x y W). destruct (window_run w x y es). exact IH.
    - destruct (release_same w x y b) as (R1 & R2 & R3). destruct (release w x y b) as [w' t]. cbn [fst] in *.
      assert (W' : wshape w') by (destruct W as (W1 & W2 & W3); split; [rewrite R2; exact W1|]; split; [rewrite R1, R2; exact W2|rewrite R3; exact W3]).
      specialize (IH w' x y W'). destruct (window_run w' x y es) as [w'' l]. cbn [fst] in *. destruct b; cbn [app]; rewrite IH, R1; reflexivity.
    - match goal with |- context [window_run ?w' x y es] => specialize (IH w' x y W); destruct (window_run w' x y es) end. exact IH.
  Qed.

  Lemma in_box_rect w x y : w_box w = box -> in_box w x y = in_rect box x y.
  Proof.
    intros <-. unfold in_box, in_rect, within. destruct (w_box w) as [[[l t] wd] h]. apply eq_true_iff_eq. rewrite !andb_true_iff, !Qle_bool_iff.
    split; intros H; repeat split; lra.
  Qed.
  Lemma over_not_box now b x y t : over menus now b x y = Some t -> t <> OnBox /\ t <> OnNothing.
  Proof.
    unfold over. destruct now as [i|].
    - destruct (item_at _ _ x y); cbn; [intros E; injection E as <-; split; discriminate|]. destruct b; [|discriminate]. destruct (menu_at _ _ _ _); cbn; [|discriminate]. intros E; injection E as <-; split; discriminate.
    - destruct b; [|discriminate]. destruct (menu_at _ _ _ _); cbn; [|discriminate]. intros E; injection E as <-; split; discriminate.
  Qed.
  Lemma press_target w now x y b : winv w now x y -> snd (press w x y b) = press_goes menus box now b x y.
  Proof.
    intros I. unfold press, press_goes. pose proof (bar_taker_over b I) as T. destruct b.
    - rewrite T. destruct I as (_ & _ & _ & _ & _ & Bx). rewrite (@in_box_rect w x y Bx). pose proof (@over_not_box now First x y) as NB. destruct (over menus now First x y) as [[i j|i| |]|]; try reflexivity.
      + exfalso. destruct (NB _ eq_refl). congruence.
      + exfalso. destruct (NB _ eq_refl). congruence.
      + destruct (in_rect box x y); reflexivity.
    - rewrite T. destruct (over menus now Other x y); reflexivity.
  Qed.
  Lemma release_target w now x y b : winv w now x y -> snd (release w x y b) = release_goes menus now b x y.
  Proof. intros I. unfold release, release_goes. rewrite (bar_taker_over b I). destruct (over menus now b x y); reflexivity. Qed.

  Lemma window_log es : forall w now x y, winv w now x y -> Forall (fun e => match e with WMove x _ => off_edges names x | _ => True end) es ->
    snd (window_run w x y es) = goes menus box now x y es.
  Proof.
    induction es as [|e es IH]; intros w now x y I F; [reflexivity|]. inversion F as [|? ? F1 F2]; subst. destruct e as [x' y'|b|b|]; cbn [window_run goes bar_event menu_open].
    - apply IH; [|exact F2]. destruct I as (I1 & I2 & I3 & W1 & W2 & W3). split; [eapply move_inv; eassumption|]. split; [exact (@move_shows names width _ x y x' y' now I1 F1 Fit I2)|]. split; [exact F1|].
      split; [exact W1|]. split; [cbn; rewrite bar_move_length; exact W2|exact W3].
    - pose proof (press_target b I) as T. pose proof I as (I1 & I2 & I3 & W). pose proof (press_wshape x y b W) as W'. pose proof (press_bar x y W) as B.
      assert (I' : winv (fst (press w x y b)) (menu_open names now x y (bar_event (WPress b))) x y).
      { destruct b; [|exact I]. split; [rewrite B; eapply press_inv; eassumption|]. split; [rewrite B; exact (@press_shows names width _ x y now I1 I3 I2)|]. split; [exact I3|exact W']. }
      destruct (press w x y b) as [w' t]. cbn [fst snd] in *. specialize (IH w' _ x y I' F2). destruct (window_run w' x y es) as [w'' l]. cbn [snd] in *. rewrite IH, T. reflexivity.
    - pose proof (release_target b I) as T. destruct (release_same w x y b) as (R1 & R2 & R3). destruct (release w x y b) as [w' t]. cbn [fst snd] in *.
      assert (I' : winv w' now x y).
      { destruct I as (I1 & I2 & I3 & W1 & W2 & W3). split; [rewrite R1; exact I1|]. split; [rewrite R1; exact I2|]. split; [exact I3|]. split; [rewrite R2; exact W1|]. split; [rewrite R1, R2; exact W2|rewrite R3; exact W3]. }
      specialize (IH w' now x y I' F2). destruct (window_run w' x y es) as [w'' l]. cbn [snd] in *. rewrite IH, T. reflexivity.
    - match goal with |- context [window_run ?w' x y es] => specialize (IH w' now x y I F2); destruct (window_run w' x y es) end. cbn [snd] in *. rewrite IH. reflexivity.
  Qed.

  (** * Settings *)
  Definition switch (w : window) (i j : nat) (b : bool) : Prop :=
    exists t it, nth_error (w_trays w) i = Some t /\ nth_error (t_items t) j = Some it /\ i_selected it = b /\ i_setting it = b.
  Lemma switch_same w w' i j b : w_trays w' = w_trays w -> switch w i j b -> switch w' i j b.
  Proof. intros E (t & it & H). exists t, it. rewrite E. exact H. Qed.
  Lemma click_switch ts i' j' i j b :
    (exists t it, nth_error ts i = Some t /\ nth_error (t_items t) j = Some it /\ i_selected it = b /\ i_setting it = b) ->
    exists t it, nth_error (click_item ts i' j') i = Some t /\ nth_error (t_items t) j = Some it /\
      i_selected it = xorb b ((i' =? i) && (j' =? j)) /\ i_setting it = xorb b ((i' =? i) && (j' =? j)).
  Proof.
    intros (t & it & Ht & Hit & Es & Eg). unfold click_item. destruct (Nat.eqb_spec i' i) as [->|Ni]; cbn [andb].
    - rewrite Ht. destruct (Nat.eqb_spec j' j) as [->|Nj].
      + rewrite Hit. exists {| t_height := t_height t; t_items := list_set (t_items t) j (clicked it) |}, (clicked it).
        rewrite nth_error_list_set, Nat.eqb_refl by (apply nth_error_Some; congruence). split; [reflexivity|]. cbn [t_items].
        rewrite nth_error_list_set, Nat.eqb_refl by (apply nth_error_Some; congruence). split; [reflexivity|]. cbn [clicked i_selected i_setting]. rewrite xorb_true_r, Es. auto.
      + rewrite xorb_false_r. destruct (nth_error (t_items t) j') as [it'|] eqn:J; [|exists t, it; auto].
        exists {| t_height := t_height t; t_items := list_set (t_items t) j' (clicked it') |}, it.
        rewrite nth_error_list_set, Nat.eqb_refl by (apply nth_error_Some; congruence). split; [reflexivity|]. cbn [t_items].
        rewrite nth_error_list_set by (apply nth_error_Some; congruence). destruct (Nat.eqb_spec j j'); [congruence|]. auto.
    - rewrite xorb_false_r. exists t, it. destruct (nth_error ts i') as [t'|] eqn:T; [|auto]. destruct (nth_error (t_items t') j') as [it'|]; [|auto].
      rewrite nth_error_list_set by (apply nth_error_Some; congruence). destruct (Nat.eqb_spec i i'); [congruence|]. auto.
  Qed.
  Lemma window_switch i j es : forall w x y b, switch w i j b ->
    switch (fst (window_run w x y es)) i j (xorb b (Nat.odd (pressed i j (snd (window_run w x y es))))).
  Proof.
    induction es as [|e es IH]; intros w x y b S; [cbn; rewrite xorb_false_r; exact S|]. destruct e as [x' y'|bt|bt|]; cbn [window_run].
    - apply IH. exact S.
    - pose proof (press_trays w x y bt) as T.
      assert (S' : switch (fst (press w x y bt)) i j (xorb b match bt, snd (press w x y bt) with First, OnItem i' j' => (i' =? i) && (j' =? j) | _, _ => false end)).
      { unfold switch. rewrite T. destruct bt; [|rewrite xorb_false_r; destruct (bar_taker Other w x y) as [[]|]; exact S].
        unfold press. destruct (bar_taker First w x y) as [[i' j'|i'| |]|]; cbn [snd]; [apply click_switch, S|..]; try destruct (in_box w x y); cbn [snd]; rewrite xorb_false_r; exact S. }
      destruct (press w x y bt) as [w' t]. cbn [fst snd] in *. specialize (IH w' x y _ S'). destruct (window_run w' x y es) as [w'' l]. cbn [fst snd] in *.
      unfold pressed in *. cbn [filter]. destruct bt; [destruct t as [i' j'|i'| |]|]; try (rewrite xorb_false_r in IH; exact IH).
      destruct ((i' =? i) && (j' =? j)); [|rewrite xorb_false_r in IH; exact IH]. cbn [List.length]. rewrite Nat.odd_succ, <- Nat.negb_odd. rewrite xorb_true_r in IH.
      destruct b, (Nat.odd _); exact IH.
    - destruct (release_same w x y bt) as (_ & R2 & _). destruct (release w x y bt) as [w' t]. cbn [fst] in R2. specialize (IH w' x y b (@switch_same w w' i j b R2 S)).
      destruct (window_run w' x y es) as [w'' l]. exact IH.
    - match goal with |- context [window_run ?w' x y es] => specialize (IH w' x y b S); destruct (window_run w' x y es) end. exact IH.
  Qed.
End Run.

(** * Selecting with the mouse *)
Lemma drag_run es : forall w x y, (w_drag w = true -> w_focused w = true) ->
  Forall (fun et => fst et = WRelease First -> snd et = OnNothing) (snd (window_run w x y es)) ->
  w_drag (fst (window_run w x y es)) = fold_left holds (snd (window_run w x y es)) (w_drag w).
Proof.
  induction es as [|e es IH]; intros w x y D F; [reflexivity|].
  assert (Dz : (if w_focused w then false else w_drag w) = false) by (destruct (w_focused w), (w_drag w); auto; discriminate (D eq_refl)).
  destruct e as [x' y'|b|b|]; cbn [window_run] in *.
  - rewrite IH; [reflexivity|exact D|exact F].
  - assert (P : (w_drag (fst (press w x y b)) = true -> w_focused (fst (press w x y b)) = true) /\ w_drag (fst (press w x y b)) = holds (w_drag w) (WPress b, snd (press w x y b))).
    { unfold press. destruct b; [|cbn; auto]. destruct (bar_taker First w x y) as [[i j|i| |]|]; try destruct (in_box w x y); cbn; rewrite ?Dz; auto. }
    destruct P as [P1 P2]. destruct (press w x y b) as [w' t]. cbn [fst snd] in *. specialize (IH w' x y P1). destruct (window_run w' x y es) as [w'' l]. cbn [fst snd fold_left] in *.
    inversion F; subst. rewrite IH by assumption. rewrite P2. reflexivity.
  - destruct (release w x y b) as [w' t] eqn:E. specialize (IH w' x y). destruct (window_run w' x y es) as [w'' l]. cbn [fst snd fold_left] in *. inversion F as [|? ? F1 F2]; subst.
    assert (P : (w_drag w' = true -> w_focused w' = true) /\ w_drag w' = holds (w_drag w) (WRelease b, t)).
    { unfold release in E. destruct (bar_taker b w x y) as [t'|] eqn:T; [|destruct b; injection E as <- <-; cbn; rewrite ?Dz; [split; [discriminate|reflexivity]|split; [exact D|reflexivity]]].
      injection E as <- <-. destruct b; [|cbn; auto]. cbn [fst snd] in F1. specialize (F1 eq_refl). subst t'. exfalso. unfold bar_taker in T.
      clear - T. induction (List.length (b_menus (w_bar w))) as [|n IH]; [discriminate|]. cbn [taker] in T. destruct (nth_error _ _) as [m|]; [|auto]. destruct (nth_error (w_trays w) n) as [t|]; [|auto].
      destruct (if m_open m then _ else _); [discriminate|]. destruct (in_menu x y m); [discriminate|auto]. }
    destruct P as [P1 P2]. rewrite IH by assumption. rewrite P2. reflexivity.
  - match type of F with context [window_run ?w' x y es] => specialize (IH w' x y); destruct (window_run w' x y es) end. cbn [fst snd fold_left w_drag w_focused] in *. inversion F; subst.
    rewrite IH; [rewrite Dz; reflexivity|rewrite Dz; discriminate|assumption].
Qed.

(** * Layout *)
Lemma layout_children sizes : let '(w, h) := last sizes (640, 480)%Z in
  layout_after sizes =
  {| la_w := inject_Z w; la_h := inject_Z h; la_view := (w, h);
     la_children := [ ("TextBox"%string, {| r_x := 10; r_y := 20; r_w := inject_Z w - 2 * 10; r_h := inject_Z h - 10 |});
                      ("ToolBar"%string, {| r_x := 0; r_y := 0; r_w := inject_Z w; r_h := 20 |}) ] |}.
Proof.
  induction sizes as [|[w h] sizes IH] using rev_ind; [reflexivity|]. rewrite last_last. unfold layout_after in *. rewrite fold_left_app. cbn [fold_left].
  destruct (last sizes (640, 480)%Z) as [w0 h0]. rewrite IH. reflexivity.
Qed.
