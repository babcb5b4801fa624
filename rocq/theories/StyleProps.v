(** C81: the imitation of weights and styles. *)
From Verif Require Import Base FloatModel StyleSpec StyleModel StyleProofs.
Open Scope Z_scope.

(** A glyph and its stroke in the weight and style of the face are left as they are. *)
Theorem C81_own : forall embolden load stroke fc w st scaled g t j,
  let im := {| im_from_weight := w; im_to_weight := w; im_from_style := st; im_to_style := st |} in
  glyph_outline embolden load fc im scaled g = Ok (load scaled g) /\
  stroke_outline embolden load stroke fc im scaled g t j = Ok (stroke (load scaled g) t j).
Proof. intros. unfold glyph_outline, stroke_outline, apply_synthetics. cbn. now rewrite !Z.eqb_refl. Qed.
Print Assumptions C81_own.

(** In another style they lean: every point keeps its height and moves sideways in
    proportion to it, by 0.208 (the sine of 12 degrees), to the right for italics. *)
Theorem C81_slant : forall embolden load stroke fc w st st' scaled g t j, st <> st' ->
  let im := {| im_from_weight := w; im_to_weight := w; im_from_style := st; im_to_style := st' |} in
  let k := if st' =? 1 then 13625 else -13625 in
  exists o s, glyph_outline embolden load fc im scaled g = Ok o /\ Forall2 (leans k) (load scaled g) o /\
    stroke_outline embolden load stroke fc im scaled g t j = Ok s /\ Forall2 (leans k) (stroke (load scaled g) t j) s.
Proof.
  intros embolden load stroke fc w st st' scaled g t j Ne im k. unfold glyph_outline, stroke_outline, apply_synthetics. cbn [im im_from_weight im_to_weight im_from_style im_to_style].
  rewrite Z.eqb_refl. destruct (Z.eqb_spec st st'); [congruence|]. cbn [obind update current ol_own ol_slot]. eexists _, _. split; [reflexivity|]. split; [apply italic_leans|]. split; [reflexivity|apply italic_leans].
Qed.
Print Assumptions C81_slant.

(** Leaning to the right and back gives the outline again, to the unit. *)
Theorem C81_back : forall embolden load fc w scaled g o,
  glyph_outline embolden load fc {| im_from_weight := w; im_to_weight := w; im_from_style := 0; im_to_style := 1 |} scaled g = Ok o ->
  glyph_outline embolden (fun _ _ => o) fc {| im_from_weight := w; im_to_weight := w; im_from_style := 1; im_to_style := 0 |} scaled g = Ok (load scaled g).
Proof.
  intros embolden load fc w scaled g o. unfold glyph_outline, apply_synthetics. cbn [im_from_weight im_to_weight im_from_style im_to_style]. rewrite Z.eqb_refl.
  change (0 =? 1) with false. change (1 =? 0) with false. cbn [obind update current ol_own ol_slot]. intros E. injection E as <-. now rewrite italic_back.
Qed.
Print Assumptions C81_back.

Definition em_ok (fc : face) : Prop := 0 <= mul_fix (fc_upem fc) (fc_x_scale fc) <= 2 ^ 24 /\ 0 <= mul_fix (fc_upem fc) (fc_y_scale fc) <= 2 ^ 24.
(** A filled glyph in another weight is emboldened (after leaning, if it leans): the
    heavier the weight asked for, the more; for regular not at all; by at most an eighth
    of the em.  The amounts do not depend on the glyph.  Glyphs of fixed-width faces are moved back
    by half the extra width. *)
Theorem C81_weight : forall fc w w', em_ok fc -> 0 <= w <= w' -> w' <= 8 ->
  exists x y d x' y' d',
    x <= x' /\ y <= y' /\ (w = 3 -> x = 0 /\ y = 0) /\ (w' = 3 -> x' = 0 /\ y' = 0) /\
    8 * Z.abs x <= mul_fix (fc_upem fc) (fc_x_scale fc) + 7 /\ Z.abs (2 * d + x) <= 1 /\ Z.abs (2 * d' + x') <= 1 /\
    forall embolden load from st st' scaled g, exists o,
      (st = st' -> o = load scaled g) /\ (st <> st' -> Forall2 (leans (if st' =? 1 then 13625 else -13625)) (load scaled g) o) /\
      (from <> w -> exists p, glyph_outline embolden load fc {| im_from_weight := from; im_to_weight := w; im_from_style := st; im_to_style := st' |} scaled g = Ok p /\
        Forall2 (shifted (if fc_fixed fc then d else 0)) (embolden o x y) p) /\
      (from <> w' -> exists p, glyph_outline embolden load fc {| im_from_weight := from; im_to_weight := w'; im_from_style := st; im_to_style := st' |} scaled g = Ok p /\
        Forall2 (shifted (if fc_fixed fc then d' else 0)) (embolden o x' y') p).
Proof.
  intros fc w w' [EX EY] W W'. set (ex := mul_fix (fc_upem fc) (fc_x_scale fc)) in *. set (ey := mul_fix (fc_upem fc) (fc_y_scale fc)) in *.
  exists (wider w ex), (taller w ey), (centre w ex), (wider w' ex), (taller w' ey), (centre w' ex).
  split; [apply heavier_ok; lia|]. split; [apply heavier_ok; lia|].
  split; [intros ->; split; apply regular_ok; lia|]. split; [intros ->; split; apply regular_ok; lia|]. split; [apply eighth_ok; lia|]. split; [apply centre_ok; lia|]. split; [apply centre_ok; lia|].
  intros embolden load from st st' scaled g. exists (if st =? st' then load scaled g else apply_italic (load scaled g) st').
  split; [intros ->; now rewrite Z.eqb_refl|]. split; [intros Ne; destruct (Z.eqb_spec st st'); [congruence|]; apply italic_leans|].
  assert (SH : forall dd l, Forall2 (shifted dd) l (translate l dd)) by (intros dd l; unfold translate; induction l; constructor; [reflexivity|assumption]).
  assert (S0 : forall l, Forall2 (shifted 0) l l) by (intros l; induction l as [|[a b] l IH]; constructor; [unfold shifted; cbn; now rewrite Z.add_0_r|exact IH]).
  assert (G : forall v, 0 <= v <= 8 -> from <> v -> exists p, glyph_outline embolden load fc {| im_from_weight := from; im_to_weight := v; im_from_style := st; im_to_style := st' |} scaled g = Ok p /\
        Forall2 (shifted (if fc_fixed fc then centre v ex else 0)) (embolden (if st =? st' then load scaled g else apply_italic (load scaled g) st') (wider v ex) (taller v ey)) p).
  { intros v Hv Ne. unfold glyph_outline, apply_synthetics. cbn [im_from_weight im_to_weight im_from_style im_to_style]. destruct (Z.eqb_spec from v); [congruence|].
    rewrite (bold_ok embolden fc _ v Hv EX EY). fold ex ey. cbv zeta. destruct (st =? st'), (fc_fixed fc); cbn [obind update current ol_own ol_slot]; (eexists; split; [reflexivity|]; auto). }
  split; intros Ne; apply G; try assumption; lia.
Qed.
Print Assumptions C81_weight.

(** *** Findings *)
Definition face32 : face := {| fc_upem := 1000; fc_x_scale := 134218; fc_y_scale := 134218; fc_fixed := false |}.
Definition face64 : face := {| fc_upem := 1000; fc_x_scale := 268435; fc_y_scale := 268435; fc_fixed := false |}.
(** An engine that widens by moving the points on the right. *)
Definition toy_embolden (o : points) (x y : Z) : points := map (fun p => (if 0 <? fst p then fst p + x else fst p, if 0 <? snd p then snd p + y else snd p)) o.
Definition toy_load (scaled : bool) (g : Z) : points := [(0, 0); (500, 0); (500, 700)].
Definition toy_strokes (o : points) (t j : Z) : points := o ++ [(-t, -t)].
Definition weights (from to_ : Z) : imitation := {| im_from_weight := from; im_to_weight := to_; im_from_style := 0; im_to_style := 0 |}.

(** The stroke of a glyph imitating bold is the stroke of the regular one, whatever
    emboldening does. *)
Theorem C81_stroke_refuted : forall embolden load stroke scaled g t j,
  stroke_outline embolden load stroke face32 (weights 3 6) scaled g t j = Ok (stroke (load scaled g) t j).
Proof. intros. unfold stroke_outline, apply_synthetics. cbn [weights im_from_weight im_to_weight im_from_style im_to_style Z.eqb]. change (3 =? 6) with false. rewrite bold_ok by (vm_compute; split; congruence). reflexivity. Qed.
Print Assumptions C81_stroke_refuted.

(** The weight of the face does not count: bold asked of a black face makes it heavier
    still, regular asked of a black face leaves it black. *)
Theorem C81_lighter_refuted : exists x y, 0 < x /\ 0 < y /\
  (forall embolden load scaled g, glyph_outline embolden load face32 (weights 8 6) scaled g = Ok (embolden (load scaled g) x y)) /\
  (forall embolden load scaled g, glyph_outline embolden load face32 (weights 8 3) scaled g = Ok (embolden (load scaled g) 0 0)).
Proof.
  assert (B : forall v, 0 <= v <= 8 -> v <> 8 -> forall embolden load scaled g, glyph_outline embolden load face32 (weights 8 v) scaled g = Ok (embolden (load scaled g) (wider v 2048) (taller v 2048))).
  { intros v Hv Ne embolden load scaled g. unfold glyph_outline, apply_synthetics. cbn [weights im_from_weight im_to_weight im_from_style im_to_style]. change (0 =? 0) with true. destruct (Z.eqb_spec 8 v); [congruence|].
    rewrite bold_ok; [|exact Hv|vm_compute; split; congruence|vm_compute; split; congruence]. reflexivity. }
  exists (wider 6 2048), (taller 6 2048).
  assert (E : glyph_outline toy_embolden toy_load face32 (weights 8 6) true 0 = Ok (toy_embolden (toy_load true 0) 146 58)) by (vm_compute; reflexivity).
  rewrite (B 6 ltac:(lia) ltac:(lia)) in E. cbn in E. injection E as E1 E2 E3. split; [lia|]. split; [lia|]. split; [intros; apply B; lia|].
  intros. rewrite (B 3) by lia. destruct (regular_ok 2048 ltac:(lia)) as [-> ->]. reflexivity.
Qed.
Print Assumptions C81_lighter_refuted.

(** A curve in font units is emboldened by an amount in pixels: the same curve comes out
    different at different sizes. *)
Theorem C81_units_refuted : exists embolden load g o o',
  glyph_outline embolden load face32 (weights 3 6) false g = Ok o /\ glyph_outline embolden load face64 (weights 3 6) false g = Ok o' /\ o <> o'.
Proof. exists toy_embolden, toy_load, 1. eexists _, _. split; [vm_compute; reflexivity|]. split; [vm_compute; reflexivity|]. discriminate. Qed.
Print Assumptions C81_units_refuted.

(** The theorems speak about real faces. *)
Example C81_example : em_ok face32 /\ em_ok face64 /\
  glyph_outline toy_embolden toy_load face32 {| im_from_weight := 3; im_to_weight := 6; im_from_style := 0; im_to_style := 1 |} true 0 = Ok [(0, 0); (646, 0); (792, 758)].
Proof. split; [vm_compute; repeat split; congruence|]. split; [vm_compute; repeat split; congruence|]. vm_compute. reflexivity. Qed.
