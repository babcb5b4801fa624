(** Proofs about the distance-field atlas. *)
From Coq Require Import QArith Qfield Lqa.
From Verif Require Import Base BaseFacts FloatModel ColorModel ColorProofs BuilderModel BitmapModel BitmapSpec BitmapProofs AtlasSpec AtlasModel AtlasProofs MsdfSpec MsdfModel.
Open Scope Z_scope.

(** ** Shapes *)
Lemma list_set_last {A} (l : list A) x y : list_set (l ++ [x]) (List.length l) y = l ++ [y].
Proof. induction l as [|a l IH]; cbn; [reflexivity|]. now rewrite IH. Qed.
Lemma vget_last {A} (l : list A) x : vget (l ++ [x]) (List.length l) = Ok x.
Proof. apply vget_ok. rewrite nth_error_app2, Nat.sub_diag by lia. reflexivity. Qed.
Lemma add_edge_last p pre es e q : add_edge {| cx_position := p; cx_shape := pre ++ [es]; cx_contour := Some (List.length pre) |} e q =
  Ok {| cx_position := q; cx_shape := pre ++ [es ++ [e]]; cx_contour := Some (List.length pre) |}.
Proof. unfold add_edge. cbn [cx_contour cx_shape]. rewrite vget_last. cbn [obind]. now rewrite list_set_last. Qed.
Lemma point_eqb_ok a b : point_eqb a b = true <-> a = b.
Proof. destruct a, b. unfold point_eqb. cbn. rewrite andb_true_iff, !Z.eqb_eq. split; [intros []; congruence|intros E; inversion E; auto]. Qed.
Definition ctx (p : point) (pre : shape) (es : list edge) : context := {| cx_position := p; cx_shape := pre ++ [es]; cx_contour := Some (List.length pre) |}.
Definition final (a : point) (qs : list piece) : point := last (map piece_to qs) a.
Lemma on_calls_app c ks ks' : on_calls c (ks ++ ks') = (do c1 <- on_calls c ks; on_calls c1 ks').
Proof. revert c. induction ks as [|k ks IH]; intros c; cbn; [reflexivity|]. destruct (on_call c k); cbn; auto. Qed.
Lemma last_default {A} (l : list A) x y z : last (x :: l) y = last (x :: l) z.
Proof. revert x. induction l as [|w l IH]; intros x; [reflexivity|]. cbn [last]. apply (IH w). Qed.
Lemma final_cons a q qs : final a (q :: qs) = final (piece_to q) qs.
Proof. unfold final. cbn [map]. destruct qs as [|q' qs]; [reflexivity|]. cbn [map]. cbn [last]. apply last_default. Qed.
Lemma pieces_ok qs : forall p pre es, on_calls (ctx p pre es) (map call_of qs) = Ok (ctx (final p qs) pre (es ++ filter visible (trail p qs))).
Proof.
  induction qs as [|q qs IH]; intros p pre es; cbn [map on_calls trail filter].
  - now rewrite app_nil_r.
  - rewrite final_cons. destruct q as [b|c b|c1 c2 b]; cbn [call_of on_call edge_of visible piece_to]; change (cx_position (ctx p pre es)) with p.
    + destruct (point_eqb b p) eqn:E.
      * apply point_eqb_ok in E. subst b. cbn [obind]. rewrite IH.
        assert (V : negb ((fst p =? fst p) && (snd p =? snd p)) = false) by (rewrite !Z.eqb_refl; reflexivity). now rewrite V.
      * unfold ctx at 1. rewrite add_edge_last. cbn [obind]. fold (ctx b pre (es ++ [Linear p b])). rewrite IH. cbn [cx_position ctx] in E.
        assert (V : negb ((fst p =? fst b) && (snd p =? snd b)) = true).
        { unfold point_eqb in E. rewrite (Z.eqb_sym (fst p)), (Z.eqb_sym (snd p)). now rewrite E. }
        rewrite V. now rewrite <- app_assoc.
    + unfold ctx at 1. rewrite add_edge_last. cbn [obind]. fold (ctx b pre (es ++ [Quadratic p c b])). rewrite IH. now rewrite <- app_assoc.
    + unfold ctx at 1. rewrite add_edge_last. cbn [obind]. fold (ctx b pre (es ++ [Cubical p c1 c2 b])). rewrite IH. now rewrite <- app_assoc.
Qed.
Lemma rings_ok o : forall p k es, exists q k', on_calls (ctx p (repeat [] k) es) (decompose o) =
  Ok (ctx q (repeat [] k') (es ++ concat (map ring_edges o))).
Proof.
  induction o as [|r o IH]; intros p k es; cbn [decompose flat_map map concat].
  - exists p, k. cbn. now rewrite app_nil_r.
  - cbn [app on_calls on_call]. unfold move_to. cbn [cx_contour cx_shape ctx]. rewrite vget_last. cbn [obind].
    destruct es as [|e es].
    + cbn [obind]. fold (decompose o). rewrite on_calls_app.
      assert (C : {| cx_position := rg_start r; cx_shape := (repeat [] k ++ [[]]) ++ [[]]; cx_contour := Some (List.length (repeat (@nil edge) k ++ [[]])) |} = ctx (rg_start r) (repeat [] (S k)) []).
      { unfold ctx. change (repeat (@nil edge) (S k)) with ([] :: repeat (@nil edge) k). rewrite repeat_cons. reflexivity. }
      rewrite C, pieces_ok. cbn [obind app]. apply IH.
    + cbn [obind]. fold (decompose o). rewrite on_calls_app.
      change {| cx_position := rg_start r; cx_shape := repeat [] k ++ [e :: es]; cx_contour := Some (List.length (repeat (@nil edge) k)) |} with (ctx (rg_start r) (repeat [] k) (e :: es)).
      rewrite pieces_ok. cbn [obind]. rewrite app_assoc. apply IH.
Qed.
Lemma shape_ok o : exists k, outline_shape o = Ok (repeat [] k ++ match concat (map ring_edges o) with [] => [] | es => [es] end).
Proof.
  unfold outline_shape. destruct o as [|r o].
  - exists O. reflexivity.
  - cbn [decompose flat_map]. fold (decompose o). cbn [app on_calls on_call]. unfold move_to. cbn [context0 cx_contour cx_shape obind app List.length].
    change {| cx_position := rg_start r; cx_shape := [[]]; cx_contour := Some O |} with (ctx (rg_start r) (repeat [] 0) []).
    rewrite on_calls_app, pieces_ok. cbn [obind app].
    destruct (rings_ok o (final (rg_start r) (rg_pieces r)) 0 (filter visible (trail (rg_start r) (rg_pieces r)))) as (q & k & E). rewrite E. cbn [obind ctx cx_shape].
    exists k. unfold drop_last. rewrite rev_app_distr. cbn [rev app map concat]. fold (ring_edges r).
    destruct (ring_edges r ++ concat (map ring_edges o)) as [|e es] eqn:Ee.
    + now rewrite rev_involutive, app_nil_r.
    + reflexivity.
Qed.
Lemma concat_repeat_nil {A} k (l : list (list A)) : concat (repeat [] k ++ l) = concat l.
Proof. induction k; cbn; auto. Qed.

Definition empty {A} (l : list A) : bool := match l with [] => true | _ => false end.
Lemma all_edges o : exists s, outline_shape o = Ok s /\ concat s = concat (map ring_edges o).
Proof.
  destruct (shape_ok o) as (k & E). eexists. split; [exact E|]. rewrite concat_repeat_nil. destruct (concat (map ring_edges o)); [reflexivity|]. cbn. now rewrite app_nil_r.
Qed.
Lemma filter_repeat {A} k (l : list (list A)) : filter (fun c => negb (empty c)) (repeat [] k ++ l) = filter (fun c => negb (empty c)) l.
Proof. induction k; cbn; auto. Qed.
Lemma concat_filter {A} (l : list (list A)) : concat (filter (fun c => negb (empty c)) l) = concat l.
Proof. induction l as [|[|x c] l IH]; cbn; [reflexivity|exact IH|]. now rewrite IH. Qed.
Lemma one_ring o s : outline_shape o = Ok s -> (List.length (filter (fun c => negb (empty c)) (map ring_edges o)) <= 1)%nat ->
  filter (fun c => negb (empty c)) s = filter (fun c => negb (empty c)) (map ring_edges o).
Proof.
  intros E L. destruct (shape_ok o) as (k & E2). rewrite E2 in E. inversion E. subst s. rewrite filter_repeat.
  rewrite <- (concat_filter (map ring_edges o)).
  assert (NE : forall c, In c (filter (fun c => negb (empty c)) (map ring_edges o)) -> c <> []).
  { intros c Hc ->. apply filter_In in Hc. destruct Hc as [_ Hc]. discriminate Hc. }
  destruct (filter (fun c => negb (empty c)) (map ring_edges o)) as [|c [|c' l]]; cbn in L; [reflexivity| |lia].
  cbn [concat]. rewrite app_nil_r. specialize (NE c (or_introl eq_refl)). destruct c; [congruence|]. reflexivity.
Qed.

Fixpoint chain (a : point) (es : list edge) (b : point) : Prop :=
  match es with [] => a = b | e :: es' => edge_from e = a /\ chain (edge_to e) es' b end.
Lemma trail_chain qs : forall a, chain a (filter visible (trail a qs)) (final a qs).
Proof.
  induction qs as [|q qs IH]; intros a; cbn [trail filter]; [reflexivity|]. rewrite final_cons.
  destruct (visible (edge_of a q)) eqn:V.
  - cbn [chain]. split; [destruct q; reflexivity|]. replace (edge_to (edge_of a q)) with (piece_to q) by (destruct q; reflexivity). apply IH.
  - replace a with (piece_to q) at 1; [apply IH|]. destruct q as [b|c b|c1 c2 b]; try discriminate V. cbn in V |- *. destruct a, b. cbn in V. f_equal; lia.
Qed.
Lemma chain_next es : forall a b i e, chain a es b -> nth_error es i = Some e ->
  match nth_error es (S i) with Some e' => edge_from e' = edge_to e | None => edge_to e = b end.
Proof.
  induction es as [|e0 es IH]; intros a b i e C N; [destruct i; discriminate|]. destruct C as [C1 C2]. destruct i as [|i].
  - cbn in N. inversion N. subst e0. cbn [nth_error]. destruct es as [|e' es]; cbn in *; [exact C2|tauto].
  - cbn [nth_error] in N |- *. exact (IH _ _ _ _ C2 N).
Qed.
Lemma chain_joined a es : chain a es a -> well_joined es.
Proof.
  intros C i e N. pose proof (chain_next es a a i e C N) as X. assert (Li : (i < List.length es)%nat) by (apply nth_error_Some; congruence).
  destruct (nth_error es (S i)) as [e'|] eqn:E.
  - assert (S i < List.length es)%nat by (apply nth_error_Some; congruence). exists e'. rewrite Nat.mod_small by lia. auto.
  - apply nth_error_None in E. assert (S i = List.length es) as -> by lia. rewrite Nat.mod_same by lia.
    destruct es as [|e0 es]; [cbn in Li; lia|]. exists e0. split; [reflexivity|]. destruct C as [C _]. congruence.
Qed.
Lemma ring_joined r : closed r -> well_joined (ring_edges r).
Proof. intros C. apply (chain_joined (rg_start r)). unfold closed in C. fold (final (rg_start r) (rg_pieces r)) in C. pose proof (trail_chain (rg_pieces r) (rg_start r)) as T. rewrite C in T. exact T. Qed.
Lemma joined_contours o s : outline_shape o = Ok s -> Forall closed o -> (List.length (filter (fun c => negb (empty c)) (map ring_edges o)) <= 1)%nat ->
  Forall well_joined s.
Proof.
  intros E Hc L. pose proof (one_ring o s E L) as F. apply Forall_forall. intros c Ic. destruct (empty c) eqn:Em.
  - destruct c; [|discriminate]. intros i e N. destruct i; discriminate.
  - assert (In c (filter (fun c => negb (empty c)) s)) as I by (apply filter_In; rewrite Em; auto). rewrite F in I. apply filter_In in I. destruct I as [I _].
    apply in_map_iff in I. destruct I as (r & <- & Ir). apply ring_joined. rewrite Forall_forall in Hc. auto.
Qed.

(** ** The frame *)
Lemma to_int_bound q n : to_int q = Ok n -> (0 <= q)%Q -> (inject_Z n <= q)%Q /\ (q < inject_Z n + 1)%Q.
Proof.
  unfold to_int. destruct ((- 2 ^ 31 <=? Z.quot (Qnum q) (Zpos (Qden q))) && (Z.quot (Qnum q) (Zpos (Qden q)) <? 2 ^ 31)); [|discriminate].
  intros E Hq. injection E as <-. destruct q as [a d]. unfold Qle in Hq. cbn in Hq. cbn [Qnum Qden].
  rewrite Z.quot_div_nonneg by lia. pose proof (Z.div_mod a (Zpos d) ltac:(lia)). pose proof (Z.mod_pos_bound a (Zpos d) ltac:(lia)).
  unfold Qle, Qlt, inject_Z, Qplus. cbn. nia.
Qed.
Lemma to_int_ok q : (0 <= q)%Q -> (q < inject_Z (2 ^ 31))%Q -> exists n, to_int q = Ok n.
Proof.
  intros H1 H2. unfold to_int. destruct q as [a d]. unfold Qle, Qlt, inject_Z in *. cbn [Qnum Qden] in *.
  rewrite Z.quot_div_nonneg by lia. assert (0 <= a / Zpos d) by (apply Z.div_pos; lia). assert (a / Zpos d < 2 ^ 31) by (apply Z.div_lt_upper_bound; lia).
  destruct ((- 2 ^ 31 <=? a / Zpos d) && (a / Zpos d <? 2 ^ 31)) eqn:C; [eauto|lia].
Qed.
Section framing.
  Variables (upem : Z) (l b r t : Q).
  Hypothesis U : 0 < upem.
  Let u := inject_Z upem.
  Lemma u_pos : (0 < u)%Q. Proof. unfold u, Qlt, inject_Z. cbn. lia. Qed.
  Lemma u_nz : ~ (u == 0)%Q. Proof. pose proof u_pos. lra. Qed.
  Lemma margin_width p q : (PIXELS_PER_EM / u * (q + (1 # 2) * (2 * u / PIXELS_PER_EM) - (p - (1 # 2) * (2 * u / PIXELS_PER_EM))) == (q - p) * 32 / u + 2)%Q.
  Proof. unfold PIXELS_PER_EM. field. apply u_nz. Qed.
  Lemma scaled_le p q : (p <= q)%Q -> (p * 32 / u <= q * 32 / u)%Q.
  Proof. intros H. apply Qle_shift_div_l; [apply u_pos|]. setoid_replace (p * 32 / u * u)%Q with (p * 32)%Q by (field; apply u_nz). lra. Qed.
  Lemma scaled_sub p q : ((q - p) * 32 / u == q * 32 / u - p * 32 / u)%Q.
  Proof. field. apply u_nz. Qed.
  Lemma frame_ok fr : (l <= r)%Q -> (b <= t)%Q -> frame_of upem l b r t = Ok fr ->
    ((r - l) * 32 / u + 3 < inject_Z (fr_width fr) /\ inject_Z (fr_width fr) <= (r - l) * 32 / u + 4 /\
     (t - b) * 32 / u + 3 < inject_Z (fr_height fr) /\ inject_Z (fr_height fr) <= (t - b) * 32 / u + 4 /\
     forall x y,
       fr_left fr + fr_x fr x == x * 32 / u /\ fr_top fr + fr_y fr y == - (y * 32 / u) /\
       (l <= x -> x <= r -> 3 # 2 < fr_x fr x /\ fr_x fr x < inject_Z (fr_width fr) - (3 # 2)) /\
       (b <= y -> y <= t -> 3 # 2 < fr_y fr y /\ fr_y fr y < inject_Z (fr_height fr) - (3 # 2)))%Q.
  Proof.
    intros LR BT. unfold frame_of. destruct (Z.eqb_spec upem 0); [lia|]. fold u. cbv zeta.
    destruct (to_int _) as [w| |] eqn:Ew; try discriminate. cbn [obind]. destruct (to_int _) as [h| |] eqn:Eh in |- *; try discriminate. cbn [obind].
    intros E. injection E as <-. cbn [fr_width fr_height fr_left fr_top fr_x fr_y].
    assert (Pw := margin_width l r). assert (Ph := margin_width b t). assert (Sw := scaled_le _ _ LR). assert (Sh := scaled_le _ _ BT).
    assert (Dw := scaled_sub l r). assert (Dh := scaled_sub b t).
    apply to_int_bound in Ew; [|rewrite Pw; lra]. apply to_int_bound in Eh; [|rewrite Ph; lra]. rewrite Pw in Ew. rewrite Ph in Eh.
    rewrite !inject_Z_plus. change (inject_Z 1) with 1%Q.
    split; [lra|]. split; [lra|]. split; [lra|]. split; [lra|]. intros x y.
    assert (X : (PIXELS_PER_EM / u * (x + (- (l - (1 # 2) * (2 * u / PIXELS_PER_EM)) + (1 # 2) * (inject_Z w + 1 - PIXELS_PER_EM / u * (r + (1 # 2) * (2 * u / PIXELS_PER_EM) - (l - (1 # 2) * (2 * u / PIXELS_PER_EM)))) / (PIXELS_PER_EM / u)))
      == x * 32 / u - l * 32 / u + 1 + (1 # 2) * (inject_Z w + 1 - ((r - l) * 32 / u + 2)))%Q).
    { unfold PIXELS_PER_EM. field. repeat split; try apply u_nz; try (intros C; discriminate C). }
    assert (Y : (PIXELS_PER_EM / u * (y + (- (b - (1 # 2) * (2 * u / PIXELS_PER_EM)) + (1 # 2) * (inject_Z h + 1 - PIXELS_PER_EM / u * (t + (1 # 2) * (2 * u / PIXELS_PER_EM) - (b - (1 # 2) * (2 * u / PIXELS_PER_EM)))) / (PIXELS_PER_EM / u)))
      == y * 32 / u - b * 32 / u + 1 + (1 # 2) * (inject_Z h + 1 - ((t - b) * 32 / u + 2)))%Q).
    { unfold PIXELS_PER_EM. field. repeat split; try apply u_nz; try (intros C; discriminate C). }
    assert (Lx : ((l - (1 # 2) * (2 * u / PIXELS_PER_EM)) * (PIXELS_PER_EM / u) - (1 # 2) * (inject_Z w + 1 - PIXELS_PER_EM / u * (r + (1 # 2) * (2 * u / PIXELS_PER_EM) - (l - (1 # 2) * (2 * u / PIXELS_PER_EM))))
      == l * 32 / u - 1 - (1 # 2) * (inject_Z w + 1 - ((r - l) * 32 / u + 2)))%Q).
    { unfold PIXELS_PER_EM. field. repeat split; try apply u_nz; try (intros C; discriminate C). }
    assert (Ly : (- (t + (1 # 2) * (2 * u / PIXELS_PER_EM)) * (PIXELS_PER_EM / u) - (1 # 2) * (inject_Z h + 1 - PIXELS_PER_EM / u * (t + (1 # 2) * (2 * u / PIXELS_PER_EM) - (b - (1 # 2) * (2 * u / PIXELS_PER_EM))))
      == - (t * 32 / u) - 1 - (1 # 2) * (inject_Z h + 1 - ((t - b) * 32 / u + 2)))%Q).
    { unfold PIXELS_PER_EM. field. repeat split; try apply u_nz; try (intros C; discriminate C). }
    rewrite X, Y, Lx, Ly.
    split; [lra|]. split; [lra|]. split; intros H1 H2; apply scaled_le in H1; apply scaled_le in H2; lra.
  Qed.
  Lemma frame_exists : (l <= r)%Q -> (b <= t)%Q -> ((r - l) * 32 / u + 4 < inject_Z (2 ^ 31))%Q -> ((t - b) * 32 / u + 4 < inject_Z (2 ^ 31))%Q ->
    exists fr, frame_of upem l b r t = Ok fr.
  Proof.
    intros LR BT Hw Hh. unfold frame_of. destruct (Z.eqb_spec upem 0); [lia|]. fold u. cbv zeta.
    assert (Pw := margin_width l r). assert (Ph := margin_width b t). assert (Sw := scaled_le _ _ LR). assert (Sh := scaled_le _ _ BT).
    assert (Dw := scaled_sub l r). assert (Dh := scaled_sub b t).
    destruct (to_int_ok (PIXELS_PER_EM / u * (r + (1 # 2) * (2 * u / PIXELS_PER_EM) - (l - (1 # 2) * (2 * u / PIXELS_PER_EM))) + 1)%Q) as [w Ew]; [rewrite Pw; lra|rewrite Pw; lra|]. rewrite Ew. cbn [obind].
    destruct (to_int_ok (PIXELS_PER_EM / u * (t + (1 # 2) * (2 * u / PIXELS_PER_EM) - (b - (1 # 2) * (2 * u / PIXELS_PER_EM))) + 1)%Q) as [h Eh]; [rewrite Ph; lra|rewrite Ph; lra|]. rewrite Eh. cbn [obind]. eauto.
  Qed.
End framing.
