(** Line geometry. *)
From Coq Require Import Lqa.
From Verif Require Import Base BaseFacts BinarySearchModel BinarySearchProofs LayoutModel LayoutSpec LayoutProofs.
Open Scope Z_scope.
Set Implicit Arguments.

Lemma qltb_lt a b : qltb a b = true <-> (a < b)%Q.
Proof.
  unfold qltb. rewrite negb_true_iff. split; intros H.
  - apply Qnot_le_lt. intros H'. apply Qle_bool_iff in H'. congruence.
  - apply not_true_iff_false. intros H'. apply Qle_bool_iff in H'. lra.
Qed.
Lemma qltb_ge a b : qltb a b = false <-> (b <= a)%Q.
Proof. unfold qltb. rewrite negb_false_iff. apply Qle_bool_iff. Qed.

Lemma descent_heights y d : (descent_after y d == y + heights d)%Q.
Proof.
  revert y. induction d as [|s d IH]; intros y; cbn [heights].
  - unfold descent_after. cbn [fold_left]. ring.
  - change (descent_after y (s :: d)) with (descent_after (y + sl_height s) d). rewrite IH. ring.
Qed.
Lemma heights_app a b : (heights (a ++ b) == heights a + heights b)%Q.
Proof. induction a; cbn [app heights]; [ring|]. rewrite IHa. ring. Qed.

Lemma line_height_of y d1 s d2 :
  exists h, get_line_height (layout_of (d1 ++ s :: d2) y) (length d1) = Ok h /\ (h == sl_height s)%Q.
Proof.
  unfold get_line_height.
  destruct (@doc_line_view (d1 ++ s :: d2) y d1 s d2 eq_refl) as (_ & _ & V). rewrite V. cbn [obind].
  destruct d1 as [|s0 d0].
  - cbn [length]. eexists. split; [reflexivity|]. cbn [li_descent]. unfold descent_after. cbn [fold_left]. ring.
  - destruct (@exists_last _ (s0 :: d0)) as (d' & t & E); [discriminate|]. rewrite E in *.
    rewrite app_length. cbn [length]. replace (length d' + 1)%nat with (S (length d')) by lia.
    destruct (@doc_line_view ((d' ++ [t]) ++ s :: d2) y d' t (s :: d2)) as (_ & _ & V').
    { rewrite <- app_assoc. reflexivity. }
    rewrite V'. cbn [obind li_descent]. eexists. split; [reflexivity|].
    rewrite !descent_heights, heights_app. cbn [heights]. ring.
Qed.

Lemma text_height_of d y : (get_text_height (layout_of d y) == heights d)%Q.
Proof.
  unfold get_text_height, layout_of, doc_lines. cbn [lo_lines]. destruct d as [|s d].
  - reflexivity.
  - destruct (rev_lines_of 0 0 (d := s :: d)) as (li & rest & -> & -> & _); [discriminate|].
    rewrite descent_heights. ring.
Qed.

Lemma line_x_start_of y d1 s d2 w a :
  get_line_x_start (layout_of (d1 ++ s :: d2) y) (length d1) w a =
  Ok (match a with XLeft => 0 | XRight => w - line_width s | XCenter => (1 # 2) * (w - line_width s) end)%Q.
Proof.
  unfold get_line_x_start, get_line_width.
  destruct (@doc_line_view (d1 ++ s :: d2) y d1 s d2 eq_refl) as (_ & _ & V). rewrite V. reflexivity.
Qed.

Lemma for_each_line_loop_of y w a d2 : forall d1 y1 y2, (y1 == y2)%Q ->
  exists calls, for_each_line_loop (length d2) (layout_of (d1 ++ d2) y) w a (length d1) y1 = Ok calls /\
    Forall2 call_eq calls (expected_calls w a (length d1) y2 d2).
Proof.
  induction d2 as [|s d2 IH]; intros d1 y1 y2 Hy; cbn [length for_each_line_loop expected_calls].
  - exists []. split; [reflexivity|constructor].
  - rewrite line_x_start_of. cbn [obind].
    destruct (@doc_line_view (d1 ++ s :: d2) y d1 s d2 eq_refl) as (_ & _ & V). rewrite V. cbn [obind].
    destruct (line_height_of y d1 s d2) as (h & -> & Hh). cbn [obind].
    destruct (IH (d1 ++ [s]) (y1 + h)%Q (y2 + sl_height s)%Q) as (calls & E & F).
    { rewrite Hy, Hh. reflexivity. }
    rewrite <- app_assoc in E. cbn [app] in E. rewrite app_length in E, F. cbn [length] in E, F.
    replace (length d1 + 1)%nat with (S (length d1)) in E, F by lia. rewrite E. cbn [obind].
    eexists. split; [reflexivity|]. constructor; [|exact F].
    split; [reflexivity|]. cbn [fst snd li_ascent align_x]. split; [|rewrite Hy; reflexivity].
    destruct a; try reflexivity. unfold align_x, Qdiv. change (/ 2)%Q with (1 # 2)%Q. ring.
Qed.

Lemma for_each_line_of d y w a :
  exists calls, for_each_line (layout_of d y) w a = Ok calls /\ Forall2 call_eq calls (expected_calls w a 0 y d).
Proof.
  unfold for_each_line. replace (length (lo_lines (layout_of d y))) with (length d)
    by (unfold layout_of, doc_lines; cbn [lo_lines]; now rewrite length_lines_of).
  apply (for_each_line_loop_of y w a d []). reflexivity.
Qed.

Lemma text_width_of d y : let w := get_text_width (layout_of d y) in
  (0 <= w)%Q /\ (forall s, In s d -> (line_width s <= w)%Q) /\ ((w == 0)%Q \/ exists s, In s d /\ w = line_width s).
Proof.
  unfold get_text_width, layout_of, doc_lines. cbn [lo_lines].
  assert (G : forall d k q w0, let w := fold_left (fun w li => if qltb w (li_width li) then li_width li else w) (lines_of k q d) w0 in
    (w0 <= w)%Q /\ (forall s, In s d -> (line_width s <= w)%Q) /\ (w = w0 \/ exists s, In s d /\ w = line_width s)).
  { clear. induction d as [|s d IH]; intros k q w0; cbn [lines_of fold_left].
    - split; [apply Qle_refl|]. split; [intros s []|now left].
    - cbn [li_width]. destruct (qltb w0 (line_width s)) eqn:E.
      + apply qltb_lt in E. destruct (IH (k + length (sl_runs s))%nat (q + sl_height s)%Q (line_width s)) as (A & B & C).
        split; [lra|]. split.
        * intros t [<-|Ht]; auto.
        * destruct C as [C|(t & Ht & C)]; right; [exists s|exists t]; cbn [In]; auto.
      + apply qltb_ge in E. destruct (IH (k + length (sl_runs s))%nat (q + sl_height s)%Q w0) as (A & B & C).
        split; [assumption|]. split.
        * intros t [<-|Ht]; [|auto]. eapply Qle_trans; [exact E|exact A].
        * destruct C as [C|(t & Ht & C)]; [left; assumption|right; exists t; cbn [In]; auto]. }
  destruct (G d 0%nat 0%Q 0%Q) as (A & B & C). split; [exact A|]. split; [exact B|].
  destruct C as [C|C]; [left; rewrite C; reflexivity|right; exact C].
Qed.

Lemma split_nth {A} (l : list A) i x : nth_error l i = Some x -> l = firstn i l ++ x :: skipn (S i) l /\ length (firstn i l) = i.
Proof.
  revert i. induction l as [|a l IH]; intros [|i] H; cbn [nth_error firstn skipn app length] in *; try discriminate.
  - inversion H; subst. auto.
  - destruct (IH i H) as [E L]. split; [f_equal; exact E|congruence].
Qed.

Lemma line_bottom d y i : (i < length d)%nat ->
  exists li, vget (lo_lines (layout_of d y)) i = Ok li /\ (li_descent li == bottom d i)%Q.
Proof.
  intros H. destruct (nth_error d i) as [s|] eqn:E; [|apply nth_error_None in E; lia].
  destruct (split_nth _ _ E) as [Ed L].
  destruct (@doc_line_view d y (firstn i d) s (skipn (S i) d) Ed) as (_ & _ & V). cbv zeta in V. rewrite L in V.
  eexists. split; [exact V|]. cbn [li_descent]. rewrite descent_heights. unfold bottom.
  assert (F : firstn (S i) d = firstn i d ++ [s]).
  { clear - E. revert i E. induction d as [|a d IH]; intros [|i] E; cbn [nth_error] in E; try discriminate.
    - inversion E; subst. reflexivity.
    - cbn [firstn app]. f_equal. apply IH. exact E. }
  rewrite F, heights_app. cbn [heights]. ring.
Qed.

Lemma bottom_mono d i j : Forall (fun s => 0 <= sl_height s)%Q d -> (i <= j)%nat -> (bottom d i <= bottom d j)%Q.
Proof.
  unfold bottom. intros F H. assert (H' : (S i <= S j)%nat) by lia. clear H. revert H'. generalize (S i) (S j). clear i j.
  induction F as [|s d Hs F IH]; intros i j H.
  - rewrite !firstn_nil. apply Qle_refl.
  - destruct i as [|i], j as [|j]; cbn [firstn heights]; try lia; try apply Qle_refl.
    + assert (P : (heights (firstn 0 d) <= heights (firstn j d))%Q) by (apply IH; lia). cbn [firstn heights] in P. lra.
    + assert (P : (heights (firstn i d) <= heights (firstn j d))%Q) by (apply IH; lia). lra.
Qed.

Lemma closest_line_of d y q : Forall (fun s => 0 <= sl_height s)%Q d ->
  exists r, get_closest_line_to_height (layout_of d y) q = Ok r /\ (r <= length d)%nat /\
    (forall i, (i < r)%nat -> (bottom d i < q)%Q) /\ (forall i, (r <= i < length d)%nat -> (q <= bottom d i)%Q).
Proof.
  intros F. unfold get_closest_line_to_height.
  replace (length (lo_lines (layout_of d y))) with (length d)
    by (unfold layout_of, doc_lines; cbn [lo_lines]; now rewrite length_lines_of).
  destruct (@binary_search_partition 0 (length d) (fun i => qltb (bottom d i) q)) with
    (cond := fun i => do li <- vget (lo_lines (layout_of d y)) i; Ok (qltb (li_descent li) q)) as (r & E & R & A & B).
  - intros i j _ Hij _ Hj. apply qltb_lt. apply qltb_lt in Hj. pose proof (bottom_mono F Hij). lra.
  - intros i Hi. destruct (line_bottom d y (i := i)) as (li & -> & Hb); [lia|]. cbn [obind]. f_equal.
    destruct (qltb (bottom d i) q) eqn:Eq; [apply qltb_lt in Eq; apply qltb_lt|apply qltb_ge in Eq; apply qltb_ge]; rewrite Hb; exact Eq.
  - exists r. split; [exact E|]. split; [lia|]. split.
    + intros i Hi. apply qltb_lt, A. lia.
    + intros i Hi. apply qltb_ge, B. lia.
Qed.
