(** C110: selection boxes and glyphs in single precision. *)
From Coq Require Import ZArith QArith Qround Lia.
From Verif Require Import Base BaseFacts FloatModel LayoutModel LayoutSpec LayoutProofs LayoutTableProofs LayoutProps DrawSpec ScreenSpec
  FloatLayoutModel FloatLayoutSpec FloatLayoutProofs FloatLayoutProps FloatSelectModel FloatSelectSpec FloatSelectProofs.
Open Scope Z_scope.

(** A document of lines with 26.6 metrics in which nothing is beyond 2^k pixels, k at most 15,
    drawn at a position and with a start on the grid of 128ths: one box for each run that
    meets the selection, in the order of the runs.  Tops and heights are exact.  Left edges and
    widths are within 7 / 2^(25-k) of the exact ones of C91, less than a thousandth of a pixel
    for 4096 pixels, and exact where glyphs begin. *)
Theorem C110_boxes : forall k d y lay ps ws ascents hs w W Y al px py PX PY s e, 0 <= k <= 15 -> doc_ok d -> stored d y lay ->
  fitting k d ws ascents hs -> on_grid 128 k Y y -> on_grid 64 k W w -> on_grid 128 k PX px -> on_grid 128 k PY py ->
  Forall run_ok (doc_runs d) -> Forall (fun r => qnondecreasing (run_xs r)) (doc_runs d) -> positions ps (lo_pos lay) -> s <= e ->
  exists boxes, select_f lay ps ws ascents (descents None hs) W al Y PX PY s e = Ok (List.concat boxes) /\
    Forall2 (box_ok k lay d y px py s e) (places w al 0 0 y d) boxes.
Proof.
  intros k d y lay ps ws ascents hs w W Y al px py PX PY s e K OKD ST FIT GY GW GX GP RO MO PS SE. pose proof (stored_eq OKD ST); subst lay.
  apply select_ok; assumption.
Qed.
Print Assumptions C110_boxes.

(** Up to 16384 pixels, and with positions of any sign, every glyph is put exactly where it
    belongs: the position of the text, the start of the line and its baseline, and the glyph's own
    position, added without any rounding. *)
Theorem C110_glyphs : forall k d y lay ps ws ascents hs w W Y al px py PX PY, 0 <= k <= 14 -> doc_ok d -> stored d y lay ->
  fitting k d ws ascents hs -> on_grid 128 k Y y -> on_grid 64 k W w -> on_grid 128 k PX px -> on_grid 128 k PY py ->
  Forall2 (on_grid 64 k) ps (lo_pos lay) ->
  exists out, spots_f lay ps ws ascents (descents None hs) W al Y PX PY = Ok out /\ Forall2 (spots_ok px py) (places w al 0 0 y d) out.
Proof.
  intros k d y lay ps ws ascents hs w W Y al px py PX PY K OKD ST FIT GY GW GX GP PS. pose proof (stored_eq OKD ST); subst lay.
  apply (spots_all k); assumption.
Qed.
Print Assumptions C110_glyphs.

(** Whatever the numbers are: a selection that is extended keeps its fixed end where it is, and
    two selections that meet in a run have the same edge there, to the last bit. *)
Theorem C110_seam : forall lay ps run s m e a b b' c, s <= m <= e ->
  range_f lay ps run s m = Ok (a, b) -> range_f lay ps run m e = Ok (b', c) ->
  exists r, nth_error (lo_runs lay) run = Some r /\
  if ru_rtl r then a = c /\ range_f lay ps run s e = Ok (b', b) else b = b' /\ range_f lay ps run s e = Ok (a, c).
Proof.
  intros lay ps run s m e a b b' c _ H1 H2. unfold range_f in *. destruct (vget (lo_runs lay) run) as [r| |] eqn:V; try discriminate. cbn [obind] in *.
  exists r. split; [apply vget_ok; exact V|].
  destruct (offset_in_run lay ps run (Z.max (Z.min s (ru_end r)) (ru_start r))) as [x1| |]; try discriminate. cbn [obind] in *.
  destruct (offset_in_run lay ps run (Z.max (Z.min m (ru_end r)) (ru_start r))) as [x2| |]; try discriminate. cbn [obind] in *.
  destruct (offset_in_run lay ps run (Z.max (Z.min e (ru_end r)) (ru_start r))) as [x3| |]; try discriminate. cbn [obind] in *.
  destruct (ru_rtl r); inversion H1; inversion H2; subst; auto.
Qed.
Print Assumptions C110_seam.

(** The sample, centred in an area of 100 pixels, its selection from the second character of the
    first run to the first of the third: three boxes on the first line. *)
Lemma grid_of n k z q : 0 <= k -> f32_value (f32_of_Z z) = Some q -> is_f32 (f32_of_Z z) -> (q == inject_Z z)%Q -> Z.abs z <= 2 ^ k -> on_grid n k (f32_of_Z z) (inject_Z z).
Proof.
  intros K V F E L. split; [split; [exact F|exists q; auto]|]. exists (z * Zpos n). split; [|rewrite Z.abs_mul; nia].
  unfold Qeq, inject_Z. cbn. ring.
Qed.
Definition at_z (z : Z) : f32 := f32_of_Z z.
Example C110_witness : let d := sample in let ps := map to_f (lo_pos (layout_of d 0)) in
  let ws := map at_z [80; 10; 0] in let ascents := map at_z [8; 8; 8] in let hs := map at_z [12; 14; 10] in
  fitting 7 d ws ascents hs /\ on_grid 128 7 (at_z 0) 0 /\ on_grid 64 7 (at_z 100) 100 /\ on_grid 128 7 (at_z 5) 5 /\ on_grid 128 7 (at_z 3) 3 /\
  positions ps (lo_pos (layout_of d 0)) /\ Forall (fun r => qnondecreasing (run_xs r)) (doc_runs d) /\
  select_f (layout_of d 0) ps ws ascents (descents None hs) (at_z 100) XCenter (at_z 0) (at_z 5) (at_z 3) 1 7 =
    Ok [{| fb_x := at_z 25; fb_y := at_z 3; fb_w := at_z 20; fb_h := at_z 12 |};
        {| fb_x := at_z 45; fb_y := at_z 3; fb_w := at_z 30; fb_h := at_z 12 |};
        {| fb_x := at_z 75; fb_y := at_z 3; fb_w := at_z 10; fb_h := at_z 12 |}].
Proof.
  cbv zeta. assert (GZ : forall z q, 0 <= z <= 100 -> (q == inject_Z z)%Q -> (exists v, f32_value (f32_of_Z z) = Some v /\ (v == inject_Z z)%Q) -> is_f32 (f32_of_Z z) -> forall n, on_grid n 7 (at_z z) q).
  { intros z q Z E (v & V1 & V2) V3 n. destruct (grid_of n 7 z v ltac:(lia) V1 V3 V2 ltac:(change (2 ^ 7) with 128; lia)) as ((X1 & u & X2 & X3) & w & W1 & W2).
    split; [split; [exact X1|exists u; split; [exact X2|rewrite X3, E; reflexivity]]|]. exists w. split; [rewrite E; exact W1|exact W2]. }
  assert (GE : forall z, In z [80; 10; 0; 8; 12; 14; 100; 5; 3] -> (exists v, f32_value (f32_of_Z z) = Some v /\ (v == inject_Z z)%Q) /\ is_f32 (f32_of_Z z) /\ 0 <= z <= 100).
  { intros z I. repeat (destruct I as [<-|I]; [split; [eexists; split; [reflexivity|reflexivity]|split; [reflexivity|lia]]|]). destruct I. }
  assert (GG : forall z q n, In z [80; 10; 0; 8; 12; 14; 100; 5; 3] -> (q == inject_Z z)%Q -> on_grid n 7 (at_z z) q).
  { intros z q n I E. destruct (GE z I) as (A & V & L). apply GZ; assumption. }
  split. { constructor; cbn [map sample].
    - repeat (first [apply Forall2_nil|apply Forall2_cons; [apply GG; [cbn; tauto|reflexivity]|]]).
    - repeat (first [apply Forall2_nil|apply Forall2_cons; [apply GG; [cbn; tauto|reflexivity]|]]).
    - repeat (first [apply Forall2_nil|apply Forall2_cons; [split; [apply GG; [cbn; tauto|reflexivity]|discriminate]|]]).
    - discriminate.
    - unfold doc_runs. cbn [flat_map sample mkline sl_runs app]. repeat constructor; try discriminate. }
  split; [apply GG; [cbn; tauto|reflexivity]|]. split; [apply GG; [cbn; tauto|reflexivity]|]. split; [apply GG; [cbn; tauto|reflexivity]|]. split; [apply GG; [cbn; tauto|reflexivity]|].
  split; [exact (proj1 C77_witness)|]. split; [|vm_compute; reflexivity].
  repeat constructor; cbn; repeat split; discriminate.
Qed.

(** The start of the text is not on the grid: 0.1.  The caret on the first line begins at 0.1,
    the box behind the same line a little lower, because the ascent was added and taken away
    again: edges that should be equal differ in the last bits. *)
Theorem C110_top_refuted : exists d ps ws ascents hs Y b top v u, doc_ok d /\ Forall run_ok (doc_runs d) /\ fitting 7 d ws ascents hs /\
  positions ps (lo_pos (layout_of d 0)) /\ is_f32 Y /\
  select_f (layout_of d 0) ps ws ascents (descents None hs) f32_0 XLeft Y f32_0 f32_0 0 1 = Ok [b] /\
  line_top (descents None hs) Y 0 = Ok top /\ f32_value top = Some v /\ f32_value (fb_y b) = Some u /\ (v < u)%Q.
Proof.
  exists [mkline [mkrun 0 1 0 false [gl 10 0 0] 10] 12], (map to_f (lo_pos (layout_of [mkline [mkrun 0 1 0 false [gl 10 0 0] 10] 12] 0))), [at_z 10], [at_z 8], [at_z 12], (S754_finite false 13421773 (-27)).
  assert (GE : forall z n, In z [8; 10; 12] -> on_grid n 7 (at_z z) (inject_Z z)).
  { intros z n I. assert (L : 0 <= z <= 12) by (cbn in I; lia). assert (exists v, f32_value (f32_of_Z z) = Some v /\ (v == inject_Z z)%Q /\ is_f32 (f32_of_Z z)) as (v & V1 & V2 & V3).
    { repeat (destruct I as [<-|I]; [eexists; split; [reflexivity|split; reflexivity]|]). destruct I. }
    apply (grid_of n 7 z v); try assumption; [lia|change (2 ^ 7) with 128; lia]. }
  do 4 eexists. split; [repeat constructor; discriminate|]. split; [unfold doc_runs, run_ok; cbn -[Z.pow]; repeat constructor; cbn -[Z.pow]; lia|].
  split. { constructor.
    - constructor; [|constructor]. exact (GE 10 64%positive ltac:(cbn; tauto)).
    - constructor; [|constructor]. exact (GE 8 64%positive ltac:(cbn; tauto)).
    - constructor; [|constructor]. split; [exact (GE 12 64%positive ltac:(cbn; tauto))|discriminate].
    - discriminate.
    - unfold doc_runs. cbn [flat_map mkline sl_runs app]. repeat constructor; try discriminate. }
  split. { repeat constructor; eexists; (split; [|split; [|reflexivity]]); vm_compute; try reflexivity; split; discriminate. }
  split; [reflexivity|]. repeat (split; [vm_compute; reflexivity|]). vm_compute. reflexivity.
Qed.
Print Assumptions C110_top_refuted.
