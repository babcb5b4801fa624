From Coq Require Import Qminmax Lqa Lia.
From Verif Require Import Base ClipModel GlModel ShaderModel ShaderSpec.
Set Implicit Arguments.
Open Scope Q_scope.

(** ** A rule OpenGL may follow *)
(** Centres on an edge are moved by an infinitely small step to the right and a still smaller
    one up. *)
Definition sgn (q : Q) : Z := Z.sgn (Qnum q).
Definition moved_side (a b p : pt) : Z :=
  if (sgn (area a b p) =? 0)%Z then
    (if (sgn (snd a - snd b) =? 0)%Z then sgn (fst b - fst a) else sgn (snd a - snd b))
  else sgn (area a b p).
Definition moved_covers (t : tri) (p : pt) : bool :=
  let '(a, b, c) := t in
  let s := sgn (area a b c) in
  negb (s =? 0)%Z && (moved_side a b p =? s)%Z && (moved_side b c p =? s)%Z && (moved_side c a p =? s)%Z.

Lemma sgn_pos q : 0 < q <-> sgn q = 1%Z.
Proof. unfold Qlt, sgn. cbn. destruct (Qnum q); cbn; lia. Qed.
Lemma sgn_neg q : q < 0 <-> sgn q = (-1)%Z.
Proof. unfold Qlt, sgn. cbn. destruct (Qnum q); cbn; lia. Qed.
Lemma sgn_zero q : q == 0 <-> sgn q = 0%Z.
Proof. unfold Qeq, sgn. cbn. destruct (Qnum q); cbn; lia. Qed.
Lemma sgn_cases q : (0 < q /\ sgn q = 1%Z) \/ (q < 0 /\ sgn q = (-1)%Z) \/ (q == 0 /\ sgn q = 0%Z).
Proof. rewrite sgn_pos, sgn_neg, sgn_zero. unfold sgn. destruct (Qnum q); cbn; lia. Qed.
Lemma sgn_same a b : a == b -> sgn a = sgn b.
Proof.
  intros E. destruct (sgn_cases a) as [[A ->]|[[A ->]|[A ->]]]; symmetry; rewrite E in A.
  - now apply sgn_pos. - now apply sgn_neg. - now apply sgn_zero.
Qed.

Lemma area_same a b c a' b' c' : same_pt a a' -> same_pt b b' -> same_pt c c' -> area a b c == area a' b' c'.
Proof. intros [A1 A2] [B1 B2] [C1 C2]. unfold area. rewrite A1, A2, B1, B2, C1, C2. reflexivity. Qed.
Lemma moved_side_same a b p a' b' p' : same_pt a a' -> same_pt b b' -> same_pt p p' -> moved_side a b p = moved_side a' b' p'.
Proof.
  intros A B P. unfold moved_side. rewrite (sgn_same (area_same A B P)). destruct A as [A1 A2], B as [B1 B2].
  assert (E : snd a - snd b == snd a' - snd b') by (rewrite A2, B2; reflexivity).
  assert (F : fst b - fst a == fst b' - fst a') by (rewrite A1, B1; reflexivity).
  rewrite (sgn_same E), (sgn_same F). reflexivity.
Qed.
Lemma moved_side_swap a b p : moved_side b a p = (- moved_side a b p)%Z.
Proof.
  unfold moved_side.
  assert (E : forall x y, x == - y -> sgn x = (- sgn y)%Z).
  { intros x y E. destruct (sgn_cases y) as [[A ->]|[[A ->]|[A ->]]].
    - apply sgn_neg. lra. - apply sgn_pos. lra. - apply sgn_zero. lra. }
  rewrite (E (area b a p) (area a b p)), (E (snd b - snd a) (snd a - snd b)), (E (fst a - fst b) (fst b - fst a)); try ring.
  2: unfold area; ring.
  destruct (Z.eqb_spec (sgn (area a b p)) 0), (Z.eqb_spec (- sgn (area a b p)) 0); try lia.
  destruct (Z.eqb_spec (sgn (snd a - snd b)) 0), (Z.eqb_spec (- sgn (snd a - snd b)) 0); lia.
Qed.
Lemma moved_side_pos a b p : 0 < area a b p -> moved_side a b p = 1%Z.
Proof. intros H. unfold moved_side. apply sgn_pos in H. now rewrite H. Qed.
Lemma moved_side_neg a b p : area a b p < 0 -> moved_side a b p = (-1)%Z.
Proof. intros H. unfold moved_side. apply sgn_neg in H. now rewrite H. Qed.

Lemma moved_rasterizes : rasterizes moved_covers.
Proof.
  constructor.
  - intros a b c p a' b' c' p' A B C P. unfold moved_covers.
    rewrite (sgn_same (area_same A B C)), (moved_side_same A B P), (moved_side_same B C P), (moved_side_same C A P). reflexivity.
  - intros [[a b] c] p [[A [B C]]|[A [B C]]]; unfold moved_covers.
    + rewrite (moved_side_pos A), (moved_side_pos B), (moved_side_pos C).
      assert (D : 0 < area a b c). { unfold area in *. lra. }
      apply sgn_pos in D. now rewrite D.
    + rewrite (moved_side_neg A), (moved_side_neg B), (moved_side_neg C).
      assert (D : area a b c < 0). { unfold area in *. lra. }
      apply sgn_neg in D. now rewrite D.
  - assert (K : forall x y, x * y < 0 -> (x < 0 /\ 0 < y) \/ (0 < x /\ y < 0)).
    { intros x y H. destruct (Qlt_le_dec x 0), (Qlt_le_dec y 0); [|left; split; [easy|]|right; split; [|easy]|]; nra. }
    intros [[a b] c] p H. unfold moved_covers. cbv zeta.
    assert (E1 : area b c a == area a b c) by (unfold area; ring).
    assert (E2 : area c a b == area a b c) by (unfold area; ring).
    assert (G : forall u v, area u v p * area a b c < 0 -> (moved_side u v p =? sgn (area a b c))%Z = false).
    { intros u v L. destruct (K _ _ L) as [[X Y]|[X Y]].
      - rewrite (moved_side_neg X). apply sgn_pos in Y. now rewrite Y.
      - rewrite (moved_side_pos X). apply sgn_neg in Y. now rewrite Y. }
    destruct H as [H|[H|H]]; unfold beyond in H; rewrite ?E1, ?E2 in H; rewrite (G _ _ H); rewrite ?andb_false_r; reflexivity.
  - intros a b c p H. unfold moved_covers. apply sgn_zero in H. rewrite H. reflexivity.
  - intros a b c d p H (t & T0 & T1 & PX & PY). unfold moved_covers. cbv zeta.
    assert (Ec : area a c p == t * area a c b) by (unfold area; rewrite PX, PY; ring).
    assert (Ec' : area c b p == (1 - t) * area a c b) by (unfold area; rewrite PX, PY; ring).
    assert (Ed : area a d p == t * area a d b) by (unfold area; rewrite PX, PY; ring).
    assert (Ed' : area d b p == (1 - t) * area a d b) by (unfold area; rewrite PX, PY; ring).
    assert (Fc : area a b c == - area a c b) by (unfold area; ring).
    assert (Fd : area a b d == - area a d b) by (unfold area; ring).
    assert (Z0 : area b a p == 0) by (unfold area; rewrite PX, PY; ring).
    assert (S0 : moved_side b a p = 1%Z \/ moved_side b a p = (-1)%Z).
    { unfold moved_side. apply sgn_zero in Z0. rewrite Z0. cbn.
      assert (NE : ~ (snd b - snd a == 0 /\ fst a - fst b == 0)).
      { intros [X Y]. assert (area a b c == 0) by (unfold area; setoid_replace (fst b - fst a) with 0 by lra; rewrite X; ring).
        rewrite H0 in H. lra. }
      destruct (sgn_cases (snd b - snd a)) as [[A ->]|[[A ->]|[A ->]]]; cbn; auto.
      destruct (sgn_cases (fst a - fst b)) as [[B ->]|[[B ->]|[B ->]]]; auto. tauto. }
    assert (P : forall x s, (0 < x -> 0 < s -> 0 < s * x) /\ (x < 0 -> 0 < s -> s * x < 0)) by (intros; split; intros; nra).
    destruct (sgn_cases (area a c b)) as [[C ->]|[[C ->]|[C ->]]], (sgn_cases (area a d b)) as [[D ->]|[[D ->]|[D ->]]];
      try (exfalso; rewrite Fc, Fd in H; nra).
    + rewrite (@moved_side_pos a c p), (@moved_side_pos c b p), (@moved_side_neg a d p), (@moved_side_neg d b p).
      2: { rewrite Ed'. apply P; lra. } 2: { rewrite Ed. apply P; lra. } 2: { rewrite Ec'. apply P; lra. } 2: { rewrite Ec. apply P; lra. }
      destruct S0 as [->| ->]; reflexivity.
    + rewrite (@moved_side_neg a c p), (@moved_side_neg c b p), (@moved_side_pos a d p), (@moved_side_pos d b p).
      2: { rewrite Ed'. apply P; lra. } 2: { rewrite Ed. apply P; lra. } 2: { rewrite Ec'. apply P; lra. } 2: { rewrite Ec. apply P; lra. }
      destruct S0 as [->| ->]; reflexivity.
Qed.

(** ** The two triangles of a rectangle *)
Definition lower (H x0 y0 x1 y1 : Q) : tri := ((x1, H - y1), (x0, H - y1), (x0, H - y0)).
Definition upper (H x0 y0 x1 y1 : Q) : tri := ((x1, H - y1), (x1, H - y0), (x0, H - y0)).

Section Quad.
Variable covers : tri -> pt -> bool.
Hypothesis R : rasterizes covers.
Variables H x0 y0 x1 y1 : Q.

Lemma mul_neg a b : 0 < a -> 0 < b -> - a * b < 0. Proof. nra. Qed.
Lemma pos_pos a b : 0 < a -> 0 < b -> 0 < a * b. Proof. nra. Qed.
Lemma neg_pos a b : a < 0 -> 0 < b -> a * b < 0. Proof. nra. Qed.
Lemma pos_neg a b : 0 < a -> b < 0 -> a * b < 0. Proof. nra. Qed.
Lemma quad_inside p q : x0 < p -> p < x1 -> y0 < q -> q < y1 ->
  covers (lower H x0 y0 x1 y1) (p, H - q) = negb (covers (upper H x0 y0 x1 y1) (p, H - q)).
Proof.
  intros A B C D. unfold lower, upper.
  set (g := (p - x0) * (y1 - y0) - (q - y0) * (x1 - x0)).
  assert (W : 0 < x1 - x0) by lra. assert (V : 0 < y1 - y0) by lra.
  destruct (Qlt_le_dec g 0) as [G|G]; [|destruct (Qlt_le_dec 0 g) as [G'|G']].
  - rewrite (rz_in R), (rz_out R); [reflexivity| |].
    + cbn. right. right. unfold beyond, area; cbn.
      setoid_replace ((x1 - x0) * (H - q - (H - y0)) - (H - y1 - (H - y0)) * (p - x0)) with g by (unfold g; ring).
      setoid_replace ((x1 - x0) * (H - y0 - (H - y0)) - (H - y1 - (H - y0)) * (x1 - x0)) with ((x1 - x0) * (y1 - y0)) by ring. apply neg_pos; [exact G|apply pos_pos; assumption].
    + cbn. right. unfold area; cbn. repeat split.
      * setoid_replace ((x0 - x1) * (H - q - (H - y1)) - (H - y1 - (H - y1)) * (p - x1)) with (- (x1 - x0) * (y1 - q)) by ring. apply mul_neg; lra.
      * setoid_replace ((x0 - x0) * (H - q - (H - y1)) - (H - y0 - (H - y1)) * (p - x0)) with (- (y1 - y0) * (p - x0)) by ring. apply mul_neg; lra.
      * setoid_replace ((x1 - x0) * (H - q - (H - y0)) - (H - y1 - (H - y0)) * (p - x0)) with g by (unfold g; ring). exact G.
  - rewrite (rz_out R), (rz_in R); [reflexivity| |].
    + cbn. left. unfold area; cbn. repeat split.
      * setoid_replace ((x1 - x1) * (H - q - (H - y1)) - (H - y0 - (H - y1)) * (p - x1)) with ((y1 - y0) * (x1 - p)) by ring. apply pos_pos; lra.
      * setoid_replace ((x0 - x1) * (H - q - (H - y0)) - (H - y0 - (H - y0)) * (p - x1)) with ((x1 - x0) * (q - y0)) by ring. apply pos_pos; lra.
      * setoid_replace ((x1 - x0) * (H - q - (H - y0)) - (H - y1 - (H - y0)) * (p - x0)) with g by (unfold g; ring). exact G'.
    + cbn. right. right. unfold beyond, area; cbn.
      setoid_replace ((x1 - x0) * (H - q - (H - y0)) - (H - y1 - (H - y0)) * (p - x0)) with g by (unfold g; ring).
      setoid_replace ((x1 - x0) * (H - y1 - (H - y0)) - (H - y1 - (H - y0)) * (x0 - x0)) with (- (x1 - x0) * (y1 - y0)) by ring.
      apply pos_neg; [exact G'|apply mul_neg; assumption].
  - assert (G0 : g == 0) by lra. apply (rz_edge R).
    + unfold area; cbn.
      setoid_replace ((x0 - x1) * (H - y1 - (H - y1)) - (H - y0 - (H - y1)) * (x0 - x1)) with ((x1 - x0) * (y1 - y0)) by ring.
      setoid_replace ((x0 - x1) * (H - y0 - (H - y1)) - (H - y0 - (H - y1)) * (x1 - x1)) with (- ((x1 - x0) * (y1 - y0))) by ring. assert (K : 0 < (x1 - x0) * (y1 - y0)) by (apply pos_pos; assumption). apply pos_neg; [exact K|lra].
    + exists ((x1 - p) / (x1 - x0)).
      assert (E : (x1 - p) / (x1 - x0) * (x1 - x0) == x1 - p) by (field; lra).
      repeat split; cbn.
      * apply Qlt_shift_div_l; lra.
      * apply Qlt_shift_div_r; lra.
      * setoid_replace (x0 - x1) with (- (x1 - x0)) by ring. setoid_replace ((x1 - p) / (x1 - x0) * - (x1 - x0)) with (- ((x1 - p) / (x1 - x0) * (x1 - x0))) by ring.
        rewrite E. ring.
      * setoid_replace (H - y0 - (H - y1)) with (y1 - y0) by ring.
        assert (K : (x1 - p) / (x1 - x0) * (y1 - y0) == (y1 - q)).
        { apply Qmult_inj_r with (x1 - x0); [lra|].
          setoid_replace ((x1 - p) / (x1 - x0) * (y1 - y0) * (x1 - x0)) with ((x1 - p) / (x1 - x0) * (x1 - x0) * (y1 - y0)) by ring.
          rewrite E. unfold g in G0. lra. }
        rewrite K. ring.
Qed.

Lemma quad_outside p q : x0 <= x1 -> y0 <= y1 -> p < x0 \/ x1 < p \/ q < y0 \/ y1 < q ->
  covers (lower H x0 y0 x1 y1) (p, H - q) = false /\ covers (upper H x0 y0 x1 y1) (p, H - q) = false.
Proof.
  intros A B O. unfold lower, upper.
  destruct (Qlt_le_dec x0 x1) as [W|W]; [|split; apply (rz_flat R); unfold area; cbn; setoid_replace x1 with x0 by lra; ring].
  destruct (Qlt_le_dec y0 y1) as [V|V]; [|split; apply (rz_flat R); unfold area; cbn; setoid_replace y1 with y0 by lra; ring].
  assert (P : 0 < (x1 - x0) * (y1 - y0)) by (apply pos_pos; lra).
  assert (E1 : area (x1, H - y1) (x0, H - y1) (x0, H - y0) == - ((x1 - x0) * (y1 - y0))) by (unfold area; cbn; ring).
  assert (E2 : area (x1, H - y1) (x1, H - y0) (x0, H - y0) == (x1 - x0) * (y1 - y0)) by (unfold area; cbn; ring).
  (* signed distances from the four sides and the diagonal *)
  assert (L1 : area (x0, H - y1) (x0, H - y0) (p, H - q) == - ((p - x0) * (y1 - y0))) by (unfold area; cbn; ring).
  assert (L2 : area (x1, H - y1) (x0, H - y1) (p, H - q) == - ((x1 - x0) * (y1 - q))) by (unfold area; cbn; ring).
  assert (L3 : area (x0, H - y0) (x1, H - y1) (p, H - q) == (p - x0) * (y1 - y0) - (q - y0) * (x1 - x0)) by (unfold area; cbn; ring).
  assert (U1 : area (x1, H - y1) (x1, H - y0) (p, H - q) == (y1 - y0) * (x1 - p)) by (unfold area; cbn; ring).
  assert (U2 : area (x1, H - y0) (x0, H - y0) (p, H - q) == (x1 - x0) * (q - y0)) by (unfold area; cbn; ring).
  assert (D1 : area (x0, H - y1) (x0, H - y0) (x1, H - y1) == area (x1, H - y1) (x0, H - y1) (x0, H - y0)) by (unfold area; cbn; ring).
  assert (D2 : area (x0, H - y0) (x1, H - y1) (x0, H - y1) == area (x1, H - y1) (x0, H - y1) (x0, H - y0)) by (unfold area; cbn; ring).
  assert (D3 : area (x1, H - y0) (x0, H - y0) (x1, H - y1) == area (x1, H - y1) (x1, H - y0) (x0, H - y0)) by (unfold area; cbn; ring).
  assert (D4 : area (x0, H - y0) (x1, H - y1) (x1, H - y0) == area (x1, H - y1) (x1, H - y0) (x0, H - y0)) by (unfold area; cbn; ring).
  pose proof neg_pos as N.
  pose proof pos_pos as N2.
  pose proof pos_neg as N3.
  set (k := (x1 - x0) * (y1 - y0)) in *.
  set (g := (p - x0) * (y1 - y0) - (q - y0) * (x1 - x0)) in *.
  assert (OL : (x0 <= p /\ q <= y1 -> 0 < g) -> covers (x1, H - y1, (x0, H - y1), (x0, H - y0)) (p, H - q) = false).
  { intros Q0. apply (rz_out R). cbn. unfold beyond. rewrite D1, D2, E1, L1, L2, L3.
    destruct (Qlt_le_dec p x0) as [a|a].
    - right. left. apply N3; [|lra]. assert ((p - x0) * (y1 - y0) < 0) by (apply N; lra). lra.
    - destruct (Qlt_le_dec y1 q) as [b|b].
      + left. apply N3; [|lra]. assert ((x1 - x0) * (y1 - q) < 0) by (apply N3; lra). lra.
      + right. right. apply N3; [|lra]. apply Q0. split; lra. }
  assert (OU : (p <= x1 /\ y0 <= q -> g < 0) -> covers (x1, H - y1, (x1, H - y0), (x0, H - y0)) (p, H - q) = false).
  { intros Q0. apply (rz_out R). cbn. unfold beyond. rewrite D3, D4, E2, U1, U2, L3.
    destruct (Qlt_le_dec x1 p) as [a|a].
    - left. apply N; [|lra]. apply N3; lra.
    - destruct (Qlt_le_dec q y0) as [b|b].
      + right. left. apply N; [|lra]. apply N3; lra.
      + right. right. apply N; [|lra]. apply Q0. split; lra. }
  split.
  - apply OL. intros [a b]. unfold g.
    destruct O as [O|[O|[O|O]]]; try lra.
    + (* right of the rectangle *)
      assert (S1 : 0 < (p - x1) * (y1 - y0)) by (apply N2; lra).
      assert (S2 : 0 <= (x1 - x0) * (y1 - q)) by (apply Qmult_le_0_compat; lra).
      setoid_replace ((p - x0) * (y1 - y0) - (q - y0) * (x1 - x0)) with ((p - x1) * (y1 - y0) + (x1 - x0) * (y1 - q)) by ring. lra.
    + assert (S1 : 0 < (y0 - q) * (x1 - x0)) by (apply N2; lra).
      assert (S2 : 0 <= (p - x0) * (y1 - y0)) by (apply Qmult_le_0_compat; lra).
      setoid_replace ((p - x0) * (y1 - y0) - (q - y0) * (x1 - x0)) with ((p - x0) * (y1 - y0) + (y0 - q) * (x1 - x0)) by ring. lra.
  - apply OU. intros [a b]. unfold g.
    destruct O as [O|[O|[O|O]]]; try lra.
    + assert (S1 : 0 < (x0 - p) * (y1 - y0)) by (apply N2; lra).
      assert (S2 : 0 <= (q - y0) * (x1 - x0)) by (apply Qmult_le_0_compat; lra).
      setoid_replace ((p - x0) * (y1 - y0) - (q - y0) * (x1 - x0)) with (- ((x0 - p) * (y1 - y0)) - (q - y0) * (x1 - x0)) by ring. lra.
    + assert (S1 : 0 < (q - y1) * (x1 - x0)) by (apply N2; lra).
      assert (S2 : 0 <= (x1 - p) * (y1 - y0)) by (apply Qmult_le_0_compat; lra).
      setoid_replace ((p - x0) * (y1 - y0) - (q - y0) * (x1 - x0)) with (- ((x1 - p) * (y1 - y0)) - (q - y1) * (x1 - x0)) by ring. lra.
Qed.

Lemma quad_flat p : x0 == x1 \/ y0 == y1 ->
  covers (lower H x0 y0 x1 y1) p = false /\ covers (upper H x0 y0 x1 y1) p = false.
Proof. intros [E|E]; split; apply (rz_flat R); unfold area; cbn; rewrite E; ring. Qed.
End Quad.

(** ** From shaders to pixels *)
Lemma inject_pos w : (0 < w)%Z -> 0 < inject_Z w.
Proof. intros H. change 0 with (inject_Z 0). now rewrite <- Zlt_Qlt. Qed.
Lemma window_clip w h p : (0 < w)%Z -> (0 < h)%Z ->
  same_pt (to_window w h (to_clip (inv_screen w h) p)) (fst p, inject_Z h - snd p).
Proof.
  intros W H. apply inject_pos in W. apply inject_pos in H. unfold to_window, to_clip, inv_screen, fma, same_pt. cbn.
  split; field; lra.
Qed.

(** Corners of a rectangle whose vertices are placed by [f]. *)
Definition placed (f : Q -> Q) (w h : Z) (r : rect) (id : Z) : vertex :=
  {| v_pos := to_clip (inv_screen w h) (f (fma (has 25 id 6) (r_w r) (r_x r)), f (fma (has 11 id 6) (r_h r) (r_y r)));
     v_tex := (fma (has 25 id 6) (r_uw r) (r_u r), fma (has 11 id 6) (r_vh r) (r_v r)) |}.
Lemma rect_placed w h r id : rect_vertex (inv_screen w h) r id = placed floor w h r id. Proof. reflexivity. Qed.
Lemma msdf_placed w h r id : msdf_vertex (inv_screen w h) r id = placed (fun q => q) w h r id. Proof. reflexivity. Qed.

Section Placed.
Variable f : Q -> Q.
Hypothesis F : forall a b, a == b -> f a == f b.
Variable w h : Z.
Hypothesis W : (0 < w)%Z.
Hypothesis Hh : (0 < h)%Z.
Variable r : rect.
Let H := inject_Z h.
Let x0 := f (r_x r).
Let y0 := f (r_y r).
Let x1 := f (r_x r + r_w r).
Let y1 := f (r_y r + r_h r).
Let low := (placed f w h r 0, placed f w h r 1, placed f w h r 2)%Z.
Let up := (placed f w h r 3, placed f w h r 4, placed f w h r 5)%Z.

Lemma trans_pt a b c : same_pt a b -> same_pt b c -> same_pt a c.
Proof. intros [A B] [C D]. split; etransitivity; eassumption. Qed.
Lemma refl_pt a : same_pt a a. Proof. split; reflexivity. Qed.
Lemma one_corner a b : f (fma 1 b a) == f (a + b). Proof. apply F. unfold fma. ring. Qed.
Lemma zero_corner a b : f (fma 0 b a) == f a. Proof. apply F. unfold fma. ring. Qed.
Ltac corner := eapply trans_pt; [apply window_clip; assumption|]; split; cbn [fst snd];
  [first [apply one_corner|apply zero_corner]|first [rewrite one_corner|rewrite zero_corner]; reflexivity].
Lemma corner0 : same_pt (to_window w h (v_pos (placed f w h r 0))) (x1, H - y1).
Proof. cbn [v_pos placed]. change (has 25 0 6) with 1. change (has 11 0 6) with 1. corner. Qed.
Lemma corner1 : same_pt (to_window w h (v_pos (placed f w h r 1))) (x0, H - y1).
Proof. cbn [v_pos placed]. change (has 25 1 6) with 0. change (has 11 1 6) with 1. corner. Qed.
Lemma corner2 : same_pt (to_window w h (v_pos (placed f w h r 2))) (x0, H - y0).
Proof. cbn [v_pos placed]. change (has 25 2 6) with 0. change (has 11 2 6) with 0. corner. Qed.
Lemma corner3 : same_pt (to_window w h (v_pos (placed f w h r 3))) (x1, H - y1).
Proof. cbn [v_pos placed]. change (has 25 3 6) with 1. change (has 11 3 6) with 1. corner. Qed.
Lemma corner4 : same_pt (to_window w h (v_pos (placed f w h r 4))) (x1, H - y0).
Proof. cbn [v_pos placed]. change (has 25 4 6) with 1. change (has 11 4 6) with 0. corner. Qed.
Lemma corner5 : same_pt (to_window w h (v_pos (placed f w h r 5))) (x0, H - y0).
Proof. cbn [v_pos placed]. change (has 25 5 6) with 0. change (has 11 5 6) with 0. corner. Qed.
Lemma centre_pt i j : same_pt (centre h i j) (inject_Z i + (1 # 2), H - (inject_Z j + (1 # 2))).
Proof. unfold centre, same_pt, H. cbn. split; ring. Qed.

Lemma covers_low covers (R : rasterizes covers) i j :
  covers (on_screen w h low) (centre h i j) = covers (lower H x0 y0 x1 y1) (inject_Z i + (1 # 2), H - (inject_Z j + (1 # 2))).
Proof. unfold low, on_screen, lower. apply (rz_same R); [apply corner0|apply corner1|apply corner2|apply centre_pt]. Qed.
Lemma covers_up covers (R : rasterizes covers) i j :
  covers (on_screen w h up) (centre h i j) = covers (upper H x0 y0 x1 y1) (inject_Z i + (1 # 2), H - (inject_Z j + (1 # 2))).
Proof. unfold up, on_screen, upper. apply (rz_same R); [apply corner3|apply corner4|apply corner5|apply centre_pt]. Qed.

Lemma interpolate_same a b c a' b' c' ua ub uc p p' : same_pt a a' -> same_pt b b' -> same_pt c c' -> same_pt p p' ->
  interpolate (a, b, c) ua ub uc p == interpolate (a', b', c') ua ub uc p'.
Proof.
  intros A B C P. unfold interpolate.
  rewrite (area_same B C P), (area_same C A P), (area_same A B P), (area_same A B C). reflexivity.
Qed.

Lemma div_is n d v : ~ d == 0 -> n == v * d -> n / d == v.
Proof. intros D E. rewrite E. field. exact D. Qed.
Lemma area_low a0 a1 b0 b1 : a0 < a1 -> b0 < b1 -> ~ area (a1, H - b1) (a0, H - b1) (a0, H - b0) == 0.
Proof.
  intros A B. setoid_replace (area (a1, H - b1) (a0, H - b1) (a0, H - b0)) with (- ((a1 - a0) * (b1 - b0))) by (unfold area; cbn; ring).
  assert (0 < (a1 - a0) * (b1 - b0)) by (apply pos_pos; lra). lra.
Qed.
Lemma area_up a0 a1 b0 b1 : a0 < a1 -> b0 < b1 -> ~ area (a1, H - b1) (a1, H - b0) (a0, H - b0) == 0.
Proof.
  intros A B. setoid_replace (area (a1, H - b1) (a1, H - b0) (a0, H - b0)) with ((a1 - a0) * (b1 - b0)) by (unfold area; cbn; ring).
  assert (0 < (a1 - a0) * (b1 - b0)) by (apply pos_pos; lra). lra.
Qed.
Definition stretched (u uw a0 a1 p : Q) : Q := u + uw * (p - a0) / (a1 - a0).
Lemma tex_low i j : x0 < x1 -> y0 < y1 ->
  same_pt (tex_at w h low (centre h i j))
    (stretched (r_u r) (r_uw r) x0 x1 (inject_Z i + (1 # 2)), stretched (r_v r) (r_vh r) y0 y1 (inject_Z j + (1 # 2))).
Proof.
  intros X Y. unfold tex_at, low, on_screen. cbn [fst snd]. split; cbn [fst snd];
    rewrite (interpolate_same _ _ _ corner0 corner1 corner2 (centre_pt i j)); cbn [v_tex placed fst snd];
    change (has 25 0 6) with 1; change (has 25 1 6) with 0; change (has 25 2 6) with 0;
    change (has 11 0 6) with 1; change (has 11 1 6) with 1; change (has 11 2 6) with 0;
    unfold interpolate; apply div_is; try (apply area_low; assumption); unfold area, stretched, fma; cbn [fst snd]; field; lra.
Qed.
Lemma tex_up i j : x0 < x1 -> y0 < y1 ->
  same_pt (tex_at w h up (centre h i j))
    (stretched (r_u r) (r_uw r) x0 x1 (inject_Z i + (1 # 2)), stretched (r_v r) (r_vh r) y0 y1 (inject_Z j + (1 # 2))).
Proof.
  intros X Y. unfold tex_at, up, on_screen. cbn [fst snd]. split; cbn [fst snd];
    rewrite (interpolate_same _ _ _ corner3 corner4 corner5 (centre_pt i j)); cbn [v_tex placed fst snd];
    change (has 25 3 6) with 1; change (has 25 4 6) with 1; change (has 25 5 6) with 0;
    change (has 11 3 6) with 1; change (has 11 4 6) with 0; change (has 11 5 6) with 0;
    unfold interpolate; apply div_is; try (apply area_up; assumption); unfold area, stretched, fma; cbn [fst snd]; field; lra.
Qed.
End Placed.

Lemma half_above a i : (a <= i)%Z -> inject_Z a < inject_Z i + (1 # 2).
Proof. intros L. unfold Qlt. cbn. lia. Qed.
Lemma half_below a i : (i < a)%Z -> inject_Z i + (1 # 2) < inject_Z a.
Proof. intros L. unfold Qlt. cbn. lia. Qed.
Lemma floor_same a b : a == b -> floor a == floor b.
Proof. intros E. unfold floor. now rewrite (Qfloor_comp _ _ E). Qed.
Lemma floor_le a b : a <= b -> floor a <= floor b.
Proof. intros L. unfold floor. rewrite <- Zle_Qle. now apply Qfloor_resp_le. Qed.
Lemma add_le a b : 0 <= b -> a <= a + b. Proof. lra. Qed.

Section Pixels.
Variable covers : tri -> pt -> bool.
Hypothesis R : rasterizes covers.
Variable w h : Z.
Hypothesis W : (0 < w)%Z.
Hypothesis Hh : (0 < h)%Z.

(** What the two triangles of a snapped rectangle do with a pixel. *)
Lemma snapped r i j : 0 <= r_w r -> 0 <= r_h r ->
  let c1 := covers (on_screen w h (placed floor w h r 0, placed floor w h r 1, placed floor w h r 2)%Z) (centre h i j) in
  let c2 := covers (on_screen w h (placed floor w h r 3, placed floor w h r 4, placed floor w h r 5)%Z) (centre h i j) in
  if in_rect r i j then c1 = negb c2 else c1 = false /\ c2 = false.
Proof.
  intros RW RH c1 c2. unfold c1, c2. rewrite (covers_low floor floor_same W Hh r R i j), (covers_up floor floor_same W Hh r R i j).
  assert (LX := floor_le (add_le (r_x r) RW)). assert (LY := floor_le (add_le (r_y r) RH)).
  unfold in_rect.
  destruct (Z.leb_spec (Qfloor (r_x r)) i) as [A|A], (Z.ltb_spec i (Qfloor (r_x r + r_w r))) as [B|B],
    (Z.leb_spec (Qfloor (r_y r)) j) as [C|C], (Z.ltb_spec j (Qfloor (r_y r + r_h r))) as [D|D]; cbn [andb];
    try (apply (quad_outside R); [exact LX|exact LY|];
         first [left; apply half_below; assumption|right; left; apply half_above; assumption
               |right; right; left; apply half_below; assumption|right; right; right; apply half_above; assumption]).
  apply (quad_inside R); unfold floor; first [apply half_above; assumption|apply half_below; assumption].
Qed.
Lemma in_rect_sizes r i j : in_rect r i j = true ->
  floor (r_x r) < floor (r_x r + r_w r) /\ floor (r_y r) < floor (r_y r + r_h r).
Proof. unfold in_rect, floor. rewrite !andb_true_iff, !Z.leb_le, !Z.ltb_lt. intros [[[A B] C] D]. rewrite <- !Zlt_Qlt. lia. Qed.

Lemma hits_rect r i j : 0 <= r_w r -> 0 <= r_h r ->
  hits covers w h (rect_vertex (inv_screen w h) r) i j = if in_rect r i j then 1%nat else 0%nat.
Proof.
  intros RW RH. unfold hits, triangles. rewrite !rect_placed. cbn [filter].
  pose proof (snapped r i j RW RH) as Z0. cbv zeta in Z0. destruct (in_rect r i j).
  - rewrite Z0. match goal with |- context [negb ?x] => destruct x end; reflexivity.
  - destruct Z0 as [-> ->]. reflexivity.
Qed.

(** Sampling and blending respect equality of rationals. *)
Lemma map2_same f a b a' b' : (forall x y x' y', x == x' -> y == y' -> f x y == f x' y') ->
  same_rgba a a' -> same_rgba b b' -> same_rgba (map2 f a b) (map2 f a' b').
Proof. intros F (A1 & A2 & A3 & A4) (B1 & B2 & B3 & B4). repeat split; cbn; apply F; assumption. Qed.
Lemma map2_ext f g a b : (forall x y, f x y == g x y) -> same_rgba (map2 f a b) (map2 g a b).
Proof. intros F. repeat split; cbn; apply F. Qed.
Lemma refl_rgba a : same_rgba a a. Proof. repeat split; reflexivity. Qed.
Lemma trans_rgba a b c : same_rgba a b -> same_rgba b c -> same_rgba a c.
Proof. intros (A1 & A2 & A3 & A4) (B1 & B2 & B3 & B4). repeat split; etransitivity; eassumption. Qed.
Lemma sym_rgba a b : same_rgba a b -> same_rgba b a.
Proof. intros (A1 & A2 & A3 & A4). repeat split; symmetry; assumption. Qed.
Lemma mix_same f f' x y x' y' : f == f' -> x == x' -> y == y' -> mix f x y == mix f' x' y'.
Proof. intros A B C. unfold mix. rewrite A, B, C. reflexivity. Qed.
Lemma map2_mix f f' a b a' b' : f == f' -> same_rgba a a' -> same_rgba b b' -> same_rgba (map2 (mix f) a b) (map2 (mix f') a' b').
Proof. intros F (A1 & A2 & A3 & A4) (B1 & B2 & B3 & B4). repeat split; cbn; apply mix_same; assumption. Qed.
Lemma sample_same tx st st' : same_pt st st' -> same_rgba (sample tx st) (sample tx st').
Proof.
  intros [A B]. unfold sample.
  assert (EU : fst st * inject_Z (t_w tx) - (1 # 2) == fst st' * inject_Z (t_w tx) - (1 # 2)) by (rewrite A; reflexivity).
  assert (EV : snd st * inject_Z (t_h tx) - (1 # 2) == snd st' * inject_Z (t_h tx) - (1 # 2)) by (rewrite B; reflexivity).
  cbv zeta. rewrite (Qfloor_comp _ _ EU), (Qfloor_comp _ _ EV).
  apply map2_mix; [rewrite EV; reflexivity| |]; (apply map2_mix; [rewrite EU; reflexivity|apply refl_rgba|apply refl_rgba]).
Qed.
Lemma blend_same a b a' b' : same_rgba a a' -> same_rgba b b' -> same_rgba (blend a b) (blend a' b').
Proof.
  intros (A1 & A2 & A3 & A4) (B1 & B2 & B3 & B4). unfold blend.
  repeat split; cbn; rewrite ?A1, ?A2, ?A3, ?A4, ?B1, ?B2, ?B3, ?B4; reflexivity.
Qed.
Lemma fragment_same tx c st st' : same_pt st st' -> same_rgba (rect_fragment tx c st) (rect_fragment tx c st').
Proof.
  intros E. unfold rect_fragment. apply map2_same; [intros x y x' y' -> ->; reflexivity|now apply sample_same|apply refl_rgba].
Qed.

(** One rectangle on the frame buffer. *)
Definition tex_pixel (r : rect) (i j : Z) : pt :=
  (stretched (r_u r) (r_uw r) (floor (r_x r)) (floor (r_x r + r_w r)) (inject_Z i + (1 # 2)),
   stretched (r_v r) (r_vh r) (floor (r_y r)) (floor (r_y r + r_h r)) (inject_Z j + (1 # 2))).
Lemma draw_rect_frame tx c fb r : 0 <= r_w r -> 0 <= r_h r ->
  laid_over (in_rect r) (fun i j => rect_fragment tx c (tex_pixel r i j)) fb (draw_rect_pixels covers w h tx c fb r).
Proof.
  intros RW RH i j. unfold draw_rect_pixels, triangles. rewrite !rect_placed. cbn [fold_left]. unfold draw_triangle. cbv zeta.
  pose proof (snapped r i j RW RH) as Z0. cbv zeta in Z0.
  destruct (in_rect r i j) eqn:I.
  - destruct (in_rect_sizes _ _ _ I) as [SX SY]. rewrite Z0.
    match goal with |- context [negb ?x] => destruct x end; cbn [negb];
      (apply blend_same; [|apply refl_rgba]); apply fragment_same; [apply (tex_up floor floor_same W Hh)|apply (tex_low floor floor_same W Hh)]; assumption.
  - destruct Z0 as [-> ->]. apply refl_rgba.
Qed.
End Pixels.

(** ** Distance field rectangles are not snapped *)
Lemma hits_msdf covers (R : rasterizes covers) w h r i j : (0 < w)%Z -> (0 < h)%Z -> 0 <= r_w r -> 0 <= r_h r ->
  (centre_inside r i j -> hits covers w h (msdf_vertex (inv_screen w h) r) i j = 1%nat) /\
  (centre_outside r i j -> hits covers w h (msdf_vertex (inv_screen w h) r) i j = 0%nat).
Proof.
  intros W Hh RW RH. unfold hits, triangles. rewrite !msdf_placed. cbn [filter].
  assert (F : forall a b, a == b -> (fun q : Q => q) a == (fun q : Q => q) b) by (intros a b E; exact E).
  rewrite (covers_low (fun q : Q => q) F W Hh r R i j), (covers_up (fun q : Q => q) F W Hh r R i j). split.
  - intros (A & B & C & D). rewrite (quad_inside R) by assumption.
    match goal with |- context [negb ?x] => destruct x end; reflexivity.
  - intros O. assert (LX := add_le (r_x r) RW). assert (LY := add_le (r_y r) RH).
    destruct (quad_outside R (inject_Z h) LX LY O) as [-> ->]. reflexivity.
Qed.

(** ** Plain rectangles *)
Lemma const_sample w h c st : same_rgba (sample {| t_w := w; t_h := h; t_texel := fun _ _ => c |} st) c.
Proof. unfold sample, map2, mix. repeat split; cbn; ring. Qed.
Lemma plain_fragment c st : same_rgba (rect_fragment default_texture c st) c.
Proof.
  unfold rect_fragment. eapply trans_rgba.
  - apply map2_same; [intros x y x' y' E1 E2; rewrite E1, E2; reflexivity|apply const_sample|apply refl_rgba].
  - repeat split; cbn; ring.
Qed.

Section Plain.
Variable covers : tri -> pt -> bool.
Hypothesis R : rasterizes covers.
Variable w h : Z.
Hypothesis W : (0 < w)%Z.
Hypothesis Hh : (0 < h)%Z.
Lemma draw_plain_frame c fb r : 0 <= r_w r -> 0 <= r_h r ->
  laid_over (in_rect r) (fun _ _ => c) fb (draw_rect_pixels covers w h default_texture c fb r).
Proof.
  intros RW RH i j. eapply trans_rgba; [apply (draw_rect_frame R W Hh); assumption|].
  destruct (in_rect r i j); [|apply refl_rgba]. apply blend_same; [apply plain_fragment|apply refl_rgba].
Qed.
End Plain.

(** ** Parts of a rectangle *)
Definition column (a b : Q) (i : Z) : bool := ((Qfloor a <=? i) && (i <? Qfloor b))%Z.
Definition row_in (r : rect) (j : Z) : bool := ((Qfloor (r_y r) <=? j) && (j <? Qfloor (r_y r + r_h r)))%Z.
Lemma in_rect_split r i j : in_rect r i j = column (r_x r) (r_x r + r_w r) i && row_in r j.
Proof. unfold in_rect, column, row_in. now rewrite !andb_assoc. Qed.
Lemma column_same a b a' b' i : a == a' -> b == b' -> column a b i = column a' b' i.
Proof. intros A B. unfold column. now rewrite (Qfloor_comp _ _ A), (Qfloor_comp _ _ B). Qed.
Lemma column_meet a b c i : a <= b -> b <= c -> column a b i = true -> column b c i = false.
Proof. unfold column. rewrite andb_true_iff, Z.leb_le, Z.ltb_lt, andb_false_iff, Z.leb_gt. lia. Qed.
Lemma column_join a b c i : a <= b -> b <= c -> column a c i = column a b i || column b c i.
Proof.
  intros A B. apply Qfloor_resp_le in A. apply Qfloor_resp_le in B. unfold column.
  destruct (Z.leb_spec (Qfloor a) i), (Z.leb_spec (Qfloor b) i), (Z.ltb_spec i (Qfloor b)), (Z.ltb_spec i (Qfloor c)); cbn; try reflexivity; lia.
Qed.

Definition part_count (rs : list rect) (i j : Z) : nat := List.length (filter (fun r => in_rect r i j) rs).
Definition bit (b : bool) : nat := if b then 1%nat else 0%nat.
Lemma part_count_cons r rs i j : part_count (r :: rs) i j = (bit (in_rect r i j) + part_count rs i j)%nat.
Proof. unfold part_count. cbn. destruct (in_rect r i j); reflexivity. Qed.
Lemma two_columns a b c i : a <= b -> b <= c -> bit (column a c i) = (bit (column a b i) + bit (column b c i))%nat.
Proof.
  intros A B. rewrite (column_join i A B). destruct (column a b i) eqn:E; [|reflexivity].
  rewrite (column_meet i A B E). reflexivity.
Qed.
Lemma qle_true a b : qle a b = true <-> a <= b. Proof. unfold qle. apply Qle_bool_iff. Qed.
Lemma qlt_true a b : qlt a b = true <-> a < b.
Proof.
  unfold qlt. rewrite negb_true_iff. destruct (Qle_bool b a) eqn:E.
  - apply Qle_bool_iff in E. split; [easy|]. intros. exfalso. lra.
  - split; [|easy]. intros _. apply Qnot_le_lt. intros L. apply Qle_bool_iff in L. congruence.
Qed.
Lemma qle_false a b : qle a b = false <-> b < a.
Proof. rewrite <- qlt_true. unfold qlt, qle. now rewrite negb_true_iff. Qed.

Definition whole (x y w h u v uw vh : Q) : rect :=
  {| r_x := x; r_y := y; r_w := w; r_h := h; r_u := u; r_v := v; r_uw := uw; r_vh := vh; r_white := false |}.
Section Parts.
Variables x y w h u v uw vh : Q.
Variable clip : option (Q * Q).
Hypothesis Ho : forall first second, clip = Some (first, second) -> first <= second.
Hypothesis Hw : 0 <= w.
Let rs := emit_rect x y w h u v uw vh clip.

Lemma parts_sizes r : In r rs -> 0 <= r_w r /\ r_h r = h /\ r_y r = y.
Proof.
  unfold rs, emit_rect. destruct clip as [[first second]|]; [|intros [<-|[]]; cbn; auto].
  pose proof (Ho eq_refl) as O.
  destruct (qle second x || qle (x + w) first) eqn:E; [intros [<-|[]]; cbn; auto|].
  apply orb_false_iff in E. rewrite !qle_false in E. destruct E as [E1 E2].
  destruct (qle (x + 1) first && qlt first (x + w)) eqn:L, (qlt x second && qle (second + 1) (x + w)) eqn:G;
    rewrite ?andb_true_iff, ?qle_true, ?qlt_true in L; rewrite ?andb_true_iff, ?qle_true, ?qlt_true in G; cbn;
    intros I; repeat (destruct I as [<-|I]; [cbn; repeat split; lra|]); destruct I.
Qed.

Ltac cols := repeat match goal with
  | |- context [in_rect ?r ?i ?j] => rewrite (in_rect_split r i j); unfold row_in; cbn [r_x r_y r_w r_h]
  end.
Lemma parts_count i j : part_count rs i j = bit (in_rect (whole x y w h u v uw vh) i j).
Proof.
  unfold rs, emit_rect. destruct clip as [[first second]|]; [|rewrite part_count_cons; change (part_count [] i j) with 0%nat; unfold whole; lia].
  pose proof (Ho eq_refl) as O.
  destruct (qle second x || qle (x + w) first) eqn:E; [rewrite part_count_cons; change (part_count [] i j) with 0%nat; unfold whole; lia|].
  apply orb_false_iff in E. rewrite !qle_false in E. destruct E as [E1 E2].
  destruct (qle (x + 1) first && qlt first (x + w)) eqn:L, (qlt x second && qle (second + 1) (x + w)) eqn:G;
    rewrite ?andb_true_iff, ?qle_true, ?qlt_true in L; rewrite ?andb_true_iff, ?qle_true, ?qlt_true in G; cbn [app];
    rewrite !part_count_cons; change (part_count [] i j) with 0%nat; rewrite !in_rect_split; unfold row_in; cbn [r_x r_y r_w r_h whole];
    (destruct ((Qfloor y <=? j) && (j <? Qfloor (y + h)))%Z; [rewrite !andb_true_r|rewrite !andb_false_r; reflexivity]).
  - rewrite (column_same i (a := x) (a' := x) (b := x + (first - x)) (b' := first)) by ring.
    rewrite (column_same i (a := x + w - (x + w - second)) (a' := second) (b := x + w - (x + w - second) + (x + w - second)) (b' := x + w)) by ring.
    rewrite (column_same i (a := x + (first - x)) (a' := first) (b := x + (first - x) + (w - (first - x) - (x + w - second))) (b' := second)) by ring.
    rewrite (two_columns (a := x) (b := first) (c := x + w) i), (two_columns (a := first) (b := second) (c := x + w) i) by lra. lia.
  - rewrite (column_same i (a := x) (a' := x) (b := x + (first - x)) (b' := first)) by ring.
    rewrite (column_same i (a := x + (first - x)) (a' := first) (b := x + (first - x) + (w - (first - x))) (b' := x + w)) by ring.
    rewrite (two_columns (a := x) (b := first) (c := x + w) i) by lra. lia.
  - rewrite (column_same i (a := x + w - (x + w - second)) (a' := second) (b := x + w - (x + w - second) + (x + w - second)) (b' := x + w)) by ring.
    rewrite (column_same i (a := x) (a' := x) (b := x + (w - (x + w - second))) (b' := second)) by ring.
    rewrite (two_columns (a := x) (b := second) (c := x + w) i) by lra. lia.
  - lia.
Qed.
End Parts.

Section PartsDrawn.
Variable covers : tri -> pt -> bool.
Hypothesis R : rasterizes covers.
Variable w h : Z.
Hypothesis W : (0 < w)%Z.
Hypothesis Hh : (0 < h)%Z.
Lemma hits_parts rs i j : (forall r, In r rs -> 0 <= r_w r /\ 0 <= r_h r) ->
  fold_right (fun r n => (hits covers w h (rect_vertex (inv_screen w h) r) i j + n)%nat) 0%nat rs = part_count rs i j.
Proof.
  induction rs as [|r rs IH]; intros A; [reflexivity|]. cbn [fold_right]. rewrite part_count_cons, IH by (intros; apply A; now right).
  destruct (A r (or_introl eq_refl)) as [A1 A2]. rewrite (hits_rect R W Hh r i j A1 A2). unfold bit. reflexivity.
Qed.
(** Parts of which at most one has the pixel. *)
Lemma draw_rects_none tx c rs fb i j : (forall r, In r rs -> 0 <= r_w r /\ 0 <= r_h r) -> part_count rs i j = 0%nat ->
  same_rgba (draw_rects covers w h tx c fb rs i j) (fb i j).
Proof.
  revert fb. induction rs as [|r rs IH]; intros fb A N; [apply refl_rgba|].
  rewrite part_count_cons in N. unfold draw_rects. cbn [fold_left].
  destruct (A r (or_introl eq_refl)) as [A1 A2].
  eapply trans_rgba; [apply IH; [intros; apply A; now right|lia]|].
  eapply trans_rgba; [apply (draw_rect_frame R W Hh); assumption|].
  destruct (in_rect r i j); [cbn in N; lia|apply refl_rgba].
Qed.
Lemma draw_rects_one c rs fb i j : (forall r, In r rs -> 0 <= r_w r /\ 0 <= r_h r) -> part_count rs i j = 1%nat ->
  same_rgba (draw_rects covers w h default_texture c fb rs i j)
    (blend (if existsb (fun r => r_white r && in_rect r i j) rs then white_rgba else c) (fb i j)).
Proof.
  revert fb. induction rs as [|r rs IH]; intros fb A N; [discriminate|].
  rewrite part_count_cons in N. unfold draw_rects. cbn [fold_left existsb].
  destruct (A r (or_introl eq_refl)) as [A1 A2].
  pose proof (draw_plain_frame R W Hh (if r_white r then white_rgba else c) fb r A1 A2 i j) as D. cbv beta in D.
  destruct (in_rect r i j) eqn:I.
  - eapply trans_rgba; [apply draw_rects_none; [intros; apply A; now right|cbn in N; lia]|].
    eapply trans_rgba; [exact D|]. apply blend_same; [|apply refl_rgba].
    rewrite andb_true_r. destruct (r_white r); [apply refl_rgba|].
    assert (E : existsb (fun r => r_white r && in_rect r i j) rs = false).
    { destruct (existsb _ rs) eqn:E; [|reflexivity]. apply existsb_exists in E. destruct E as (s & S1 & S2).
      apply andb_true_iff in S2. destruct S2 as [_ S2]. exfalso. cbn in N.
      assert (In s (filter (fun r => in_rect r i j) rs)) by (apply filter_In; auto).
      unfold part_count in N. destruct (filter (fun r => in_rect r i j) rs); [easy|cbn in N; lia]. }
    cbn [orb]. rewrite E. apply refl_rgba.
  - rewrite andb_false_r. cbn [orb].
    eapply trans_rgba; [apply IH; [intros; apply A; now right|cbn in N; lia]|].
    apply blend_same; [apply refl_rgba|exact D].
Qed.
End PartsDrawn.

(** ** Pictures in their own size *)
Lemma floor_add_int x n : Qfloor (x + inject_Z n) = (Qfloor x + n)%Z.
Proof.
  assert (A := Qfloor_le x). assert (B := Qlt_floor x).
  assert (C := Qfloor_le (x + inject_Z n)). assert (D := Qlt_floor (x + inject_Z n)).
  rewrite inject_Z_plus in B, D. change (inject_Z 1) with 1 in B, D.
  assert (L : inject_Z (Qfloor x + n) < inject_Z (Qfloor (x + inject_Z n)) + 1) by (rewrite inject_Z_plus; lra).
  assert (L' : inject_Z (Qfloor (x + inject_Z n)) < inject_Z (Qfloor x + n) + 1) by (rewrite inject_Z_plus; lra).
  change 1 with (inject_Z 1) in L, L'. rewrite <- inject_Z_plus in L, L'. rewrite <- Zlt_Qlt in L, L'. lia.
Qed.
Lemma floor_int n : Qfloor (inject_Z n) = n. Proof. apply Qfloor_Z. Qed.

(** The centre of a texel gives the texel. *)
Lemma sample_centre tx k l st : (0 <= k < t_w tx)%Z -> (0 <= l < t_h tx)%Z ->
  fst st * inject_Z (t_w tx) == inject_Z k + (1 # 2) -> snd st * inject_Z (t_h tx) == inject_Z l + (1 # 2) ->
  same_rgba (sample tx st) (t_texel tx k l).
Proof.
  intros K L EU EV. unfold sample. cbv zeta.
  assert (FU : fst st * inject_Z (t_w tx) - (1 # 2) == inject_Z k) by (rewrite EU; ring).
  assert (FV : snd st * inject_Z (t_h tx) - (1 # 2) == inject_Z l) by (rewrite EV; ring).
  rewrite (Qfloor_comp _ _ FU), (Qfloor_comp _ _ FV), !floor_int.
  assert (ZU : fst st * inject_Z (t_w tx) - (1 # 2) - inject_Z k == 0) by (rewrite FU; ring).
  assert (ZV : snd st * inject_Z (t_h tx) - (1 # 2) - inject_Z l == 0) by (rewrite FV; ring).
  replace (clamp (t_w tx) k) with k by (unfold clamp; lia). replace (clamp (t_h tx) l) with l by (unfold clamp; lia).
  unfold map2, mix. repeat split; cbn; rewrite ZU, ZV; ring.
Qed.

Section Shown.
Variable tx : texture.
Variables a b n m : Z.
Variable pic : Z -> Z -> rgba.
Hypothesis P : picture_at tx a b n m pic.
Variables x y : Q.
Lemma shown_in i j : in_rect (shows tx a b n m x y) i j = ((Qfloor x <=? i) && (i <? Qfloor x + n) && (Qfloor y <=? j) && (j <? Qfloor y + m))%Z.
Proof. unfold in_rect, shows. cbn [r_x r_y r_w r_h]. now rewrite !floor_add_int. Qed.
Lemma shown_sample i j : in_rect (shows tx a b n m x y) i j = true ->
  same_rgba (sample tx (tex_pixel (shows tx a b n m x y) i j)) (pic (i - Qfloor x) (j - Qfloor y))%Z.
Proof.
  rewrite shown_in, !andb_true_iff, !Z.leb_le, !Z.ltb_lt. intros [[[A B] C] D].
  destruct P as [(P1 & P2 & P3 & P4) PP].
  rewrite <- (PP (i - Qfloor x) (j - Qfloor y))%Z by lia.
  assert (NW : 0 < inject_Z n) by (apply inject_pos; lia). assert (NM : 0 < inject_Z m) by (apply inject_pos; lia).
  assert (TW : 0 < inject_Z (t_w tx)) by (apply inject_pos; lia). assert (TH : 0 < inject_Z (t_h tx)) by (apply inject_pos; lia).
  apply sample_centre; [lia|lia| |]; unfold tex_pixel, stretched, shows, floor; cbn [fst snd r_x r_y r_w r_h r_u r_v r_uw r_vh];
    rewrite floor_add_int, !inject_Z_plus; unfold Zminus; rewrite inject_Z_plus, inject_Z_opp; field; lra.
Qed.
End Shown.

(** ** Outlines *)
Lemma line_from_in n x y dx dy i j : In (i, j) (line_from n x y dx dy) <-> exists k, (0 <= k < Z.of_nat n /\ i = x + k * dx /\ j = y + k * dy)%Z.
Proof.
  revert x y. induction n as [|n IH]; intros x y.
  - cbn. split; [tauto|intros (k & K & _); lia].
  - cbn [line_from In]. rewrite IH. split.
    + intros [E|(k & K & -> & ->)]; [injection E as <- <-; exists 0%Z; lia|exists (k + 1)%Z; lia].
    + intros (k & K & -> & ->). destruct (Z.eq_dec k 0) as [->|N]; [left; f_equal; lia|right; exists (k - 1)%Z; lia].
Qed.
Lemma line_from_nodup n x y dx dy : (dx <> 0 \/ dy <> 0)%Z -> NoDup (line_from n x y dx dy).
Proof.
  intros D. revert x y. induction n as [|n IH]; intros x y; cbn; constructor; [|apply IH].
  rewrite line_from_in. intros (k & K & A & B).
  assert (((k + 1) * dx = 0)%Z) by lia. assert (((k + 1) * dy = 0)%Z) by lia. nia.
Qed.

Lemma outline_corner w h r id : (0 < w)%Z -> (0 < h)%Z ->
  pixel_of w h (outline_position (inv_screen w h) r id) =
  (Qfloor (fma (has 6 id 4) (r_w r) (r_x r)), Qfloor (fma (has 12 id 4) (r_h r) (r_y r))).
Proof.
  intros W H. unfold pixel_of, outline_position. cbv zeta.
  destruct (window_clip (floor (fma (has 6 id 4) (r_w r) (r_x r)) + (1 # 2), floor (fma (has 12 id 4) (r_h r) (r_y r)) + (1 # 2)) W H) as [A B].
  cbn [fst snd] in A, B. rewrite (Qfloor_comp _ _ A), (Qfloor_comp _ _ B). unfold floor. f_equal.
  - rewrite Qplus_comm, floor_add_int. change (Qfloor (1 # 2)) with 0%Z. lia.
  - generalize (Qfloor (fma (has 12 id 4) (r_h r) (r_y r))). intros z.
    assert (E : inject_Z h - (inject_Z z + (1 # 2)) == (1 # 2) + inject_Z (h - 1 - z)).
    { unfold Zminus. rewrite !inject_Z_plus, !inject_Z_opp. change (inject_Z 1) with 1. ring. }
    rewrite (Qfloor_comp _ _ E), floor_add_int. change (Qfloor (1 # 2)) with 0%Z. lia.
Qed.
Lemma outline_lines w h r : (0 < w)%Z -> (0 < h)%Z ->
  let X0 := Qfloor (r_x r) in let X1 := Qfloor (r_x r + r_w r) in
  let Y0 := Qfloor (r_y r) in let Y1 := Qfloor (r_y r + r_h r) in
  outline_pixels w h r =
  line_pixels (X0, Y0) (X1, Y0) ++ line_pixels (X1, Y0) (X1, Y1) ++ line_pixels (X1, Y1) (X0, Y1) ++ line_pixels (X0, Y1) (X0, Y0).
Proof.
  intros W H X0 X1 Y0 Y1. unfold outline_pixels, line_loop. cbn [flat_map fst snd]. rewrite !outline_corner by assumption.
  change (has 6 0 4) with 0. change (has 6 1 4) with 1. change (has 6 2 4) with 1. change (has 6 3 4) with 0.
  change (has 12 0 4) with 0. change (has 12 1 4) with 0. change (has 12 2 4) with 1. change (has 12 3 4) with 1.
  assert (F1 : forall p q, Qfloor (fma 1 q p) = Qfloor (p + q)) by (intros; apply Qfloor_comp; unfold fma; ring).
  assert (F0 : forall p q, Qfloor (fma 0 q p) = Qfloor p) by (intros; apply Qfloor_comp; unfold fma; ring).
  rewrite !F1, !F0. fold X0 X1 Y0 Y1. rewrite app_nil_r. reflexivity.
Qed.
Lemma line_right x0 x1 y i j : (x0 <= x1)%Z -> In (i, j) (line_pixels (x0, y) (x1, y)) <-> (x0 <= i < x1 /\ j = y)%Z.
Proof.
  intros L. unfold line_pixels. rewrite line_from_in, Z.sub_diag, Z2Nat.id by lia. cbn [Z.sgn]. split.
  - intros (k & K & -> & ->). nia.
  - intros [A ->]. exists (i - x0)%Z. nia.
Qed.
Lemma line_left x0 x1 y i j : (x0 <= x1)%Z -> In (i, j) (line_pixels (x1, y) (x0, y)) <-> (x0 < i <= x1 /\ j = y)%Z.
Proof.
  intros L. unfold line_pixels. rewrite line_from_in, Z.sub_diag, Z2Nat.id by lia. cbn [Z.sgn]. split.
  - intros (k & K & -> & ->). nia.
  - intros [A ->]. exists (x1 - i)%Z. nia.
Qed.
Lemma line_down x y0 y1 i j : (y0 <= y1)%Z -> In (i, j) (line_pixels (x, y0) (x, y1)) <-> (y0 <= j < y1 /\ i = x)%Z.
Proof.
  intros L. unfold line_pixels. rewrite line_from_in, Z.sub_diag, Z2Nat.id by lia. cbn [Z.sgn]. split.
  - intros (k & K & -> & ->). nia.
  - intros [A ->]. exists (j - y0)%Z. nia.
Qed.
Lemma line_up x y0 y1 i j : (y0 <= y1)%Z -> In (i, j) (line_pixels (x, y1) (x, y0)) <-> (y0 < j <= y1 /\ i = x)%Z.
Proof.
  intros L. unfold line_pixels. rewrite line_from_in, Z.sub_diag, Z2Nat.id by lia. cbn [Z.sgn]. split.
  - intros (k & K & -> & ->). nia.
  - intros [A ->]. exists (y1 - j)%Z. nia.
Qed.
Lemma line_nodup a b : a <> b -> NoDup (line_pixels a b).
Proof.
  destruct a as [ax ay], b as [bx by_]. intros N. apply line_from_nodup.
  destruct (Z.eq_dec ax bx) as [->|]; [|lia]. destruct (Z.eq_dec ay by_) as [->|]; [congruence|lia].
Qed.
Lemma nodup_app {A} (l1 l2 : list A) : NoDup l1 -> NoDup l2 -> (forall a, In a l1 -> ~ In a l2) -> NoDup (l1 ++ l2).
Proof.
  induction l1 as [|a l1 IH]; intros N1 N2 D; [exact N2|]. inversion N1; subst. cbn. constructor.
  - rewrite in_app_iff. intros [I|I]; [tauto|]. apply (D a); [now left|exact I].
  - apply IH; try assumption. intros. apply D. now right.
Qed.

Lemma outline_border w h r : (0 < w)%Z -> (0 < h)%Z ->
  let X0 := Qfloor (r_x r) in let X1 := Qfloor (r_x r + r_w r) in
  let Y0 := Qfloor (r_y r) in let Y1 := Qfloor (r_y r + r_h r) in
  (X0 <= X1)%Z -> (Y0 <= Y1)%Z -> (X0 < X1 \/ Y0 < Y1)%Z ->
  (forall p, In p (outline_pixels w h r) <-> on_border X0 Y0 X1 Y1 p) /\
  ((X0 < X1)%Z -> (Y0 < Y1)%Z -> NoDup (outline_pixels w h r)).
Proof.
  intros W H X0 X1 Y0 Y1 LX LY L. rewrite outline_lines by assumption. fold X0 X1 Y0 Y1. split.
  - intros [i j]. rewrite !in_app_iff, line_right, line_down, line_left, line_up by assumption. unfold on_border. lia.
  - intros SX SY. apply nodup_app; [apply line_nodup; intros E; injection E; lia| |].
    + apply nodup_app; [apply line_nodup; intros E; injection E; lia| |].
      * apply nodup_app; [apply line_nodup; intros E; injection E; lia|apply line_nodup; intros E; injection E; lia|].
        intros [i j]. rewrite line_left, line_up by assumption. lia.
      * intros [i j]. rewrite in_app_iff, line_down, line_left, line_up by assumption. lia.
    + intros [i j]. rewrite !in_app_iff, line_right, line_down, line_left, line_up by assumption. lia.
Qed.

(** ** Distance fields *)
Lemma median_middle a b c : middle (median a b c) a b c.
Proof.
  unfold median, middle.
  destruct (Q.min_spec a b) as [[A1 ->]|[A1 ->]], (Q.max_spec a b) as [[A2 ->]|[A2 ->]]; try (exfalso; lra);
    match goal with |- context [Qmax _ (Qmin ?u c)] => destruct (Q.min_spec u c) as [[B ->]|[B ->]] end;
    match goal with |- context [Qmax ?u ?v] => destruct (Q.max_spec u v) as [[C ->]|[C ->]] end; lra.
Qed.

Definition ramp (e0 e1 x : Q) : Q := Qmin (Qmax ((x - e0) / (e1 - e0)) 0) 1.
Lemma ramp_range e0 e1 x : 0 <= ramp e0 e1 x /\ ramp e0 e1 x <= 1.
Proof.
  unfold ramp. destruct (Q.max_spec ((x - e0) / (e1 - e0)) 0) as [[A ->]|[A ->]];
    match goal with |- context [Qmin ?u 1] => destruct (Q.min_spec u 1) as [[B ->]|[B ->]] end; lra.
Qed.
Lemma ramp_mono e0 e1 x y : e0 < e1 -> x <= y -> ramp e0 e1 x <= ramp e0 e1 y.
Proof.
  intros E L. unfold ramp. apply Q.min_le_compat_r, Q.max_le_compat_r.
  unfold Qdiv. apply Qmult_le_compat_r; [lra|]. apply Qlt_le_weak, Qinv_lt_0_compat. lra.
Qed.
Lemma smooth_range t : 0 <= t -> t <= 1 -> 0 <= t * t * (3 - 2 * t) /\ t * t * (3 - 2 * t) <= 1.
Proof.
  intros A B. split.
  - apply Qmult_le_0_compat; [apply Qmult_le_0_compat; assumption|lra].
  - assert (0 <= (1 - t) * (1 - t) * (1 + 2 * t)) by (apply Qmult_le_0_compat; [apply Qmult_le_0_compat; lra|lra]).
    setoid_replace (t * t * (3 - 2 * t)) with (1 - (1 - t) * (1 - t) * (1 + 2 * t)) by ring. lra.
Qed.
Lemma smooth_mono s t : 0 <= s -> s <= t -> t <= 1 -> s * s * (3 - 2 * s) <= t * t * (3 - 2 * t).
Proof.
  intros A B C.
  assert (0 <= (t - s) * (t * (3 - 2 * t) + s * (3 - 2 * s - 2 * t) )).
  { apply Qmult_le_0_compat; [lra|].
    assert (0 <= (1 - t) * t) by (apply Qmult_le_0_compat; lra). assert (0 <= (1 - s) * s) by (apply Qmult_le_0_compat; lra).
    assert (0 <= (t - s) * (t - s)) by (apply Qmult_le_0_compat; lra). assert (0 <= (1 - t) * s) by (apply Qmult_le_0_compat; lra). nra. }
  setoid_replace (t * t * (3 - 2 * t)) with (s * s * (3 - 2 * s) + (t - s) * (t * (3 - 2 * t) + s * (3 - 2 * s - 2 * t))) by ring. lra.
Qed.
Lemma smoothstep_ok e0 e1 x : e0 < e1 -> smoothstep e0 e1 x = Ok (ramp e0 e1 x * ramp e0 e1 x * (3 - 2 * ramp e0 e1 x)).
Proof.
  intros E. unfold smoothstep. destruct (Qle_bool e1 e0) eqn:L; [apply Qle_bool_iff in L; exfalso; lra|reflexivity].
Qed.
