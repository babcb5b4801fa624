(** C77: layout geometry in single precision. *)
From Coq Require Import QArith Qround Qreals Reals Lia.
From Verif Require Import Base FloatModel LayoutModel LayoutSpec LayoutProofs LayoutProps FloatLayoutModel FloatLayoutSpec FloatLayoutProofs.
Open Scope Z_scope.

Lemma modest_between x : between_q (- inject_Z (2 ^ 30)) x (inject_Z (2 ^ 30)) -> modest x.
Proof. intros H. eapply between_modest; [exact H|apply Qle_refl|apply Qle_refl]. Qed.
Lemma height_between x : between_q 0 x (inject_Z (2 ^ 30)) -> height x.
Proof.
  intros (V & v & Ev & Lo & Hi). destruct (value_R x v Ev) as [F E]. exists (Q2R v). split; [split; [exact V|split; [exact F|exact E]]|].
  apply Qle_Rle in Lo, Hi. rewrite Q2R_pow in Hi by lia. split; [|exact Hi]. replace (Q2R 0) with 0%R in Lo by (unfold Q2R; cbn; field). exact Lo.
Qed.

(** A glyph position of up to 262144 pixels is stored exactly; [fixed] of the exact
    model is the same number. *)
Theorem C77_positions : forall z, Z.abs z <= 2 ^ 24 -> exactly (fixed_f32 z) (z # 64).
Proof. exact fixed_exactly. Qed.
Print Assumptions C77_positions.
(** Any two 32-bit distances keep their order. *)
Theorem C77_order : forall z w, - 2 ^ 31 <= z <= w -> w < 2 ^ 31 -> f32_le (fixed_f32 z) (fixed_f32 w) = true.
Proof. intros z w Z W. apply fixed_mono; lia. Qed.
Print Assumptions C77_order.

(** C33 for the floats: every position of a run has a caret, not outside the run's edges,
    exactly at a glyph's edge where the exact caret is, and never against the direction
    in which the run is read. *)
Theorem C77_caret : forall d y pre r post lay ps, doc_ok d -> stored d y lay -> doc_runs d = pre ++ r :: post -> run_ok r ->
  qnondecreasing (run_xs r) -> positions ps (lo_pos lay) ->
  forall p, sr_start r <= p <= sr_end r -> exists f, offset_in_run lay ps (length pre) p = Ok f /\
  between_q (run_first_x r) f (sr_end_x r) /\
  (forall k, (k <= run_len r)%nat -> nth k (logical_chars r) (sr_end r) = p ->
     (forall j, (j < k)%nat -> nth j (logical_chars r) (sr_end r) < p) -> exactly f (nth k (logical_xs r) 0%Q)) /\
  (forall q, p <= q <= sr_end r -> exists z, offset_in_run lay ps (length pre) q = Ok z /\ reads_f r f z).
Proof.
  intros d y pre r post lay ps OKD ST E OK M PS. pose proof (stored_eq OKD ST); subst lay. exact (t_caret d y pre r post ps E OK M PS).
Qed.
Print Assumptions C77_caret.
(** On a run of at most 2^k pixels the caret is within 3 / 2^(25-k) of the exact one: a
    thousandth of a pixel for 4096 pixels. *)
Theorem C77_near : forall d y pre r post lay ps k, doc_ok d -> stored d y lay -> doc_runs d = pre ++ r :: post -> run_ok r ->
  positions ps (lo_pos lay) -> 0 <= k <= 18 -> Forall (fun x => x <= inject_Z (2 ^ k))%Q (run_xs r) -> sr_end r - sr_start r <= 2 ^ 24 ->
  forall p, sr_start r <= p <= sr_end r -> exists x f, get_glyph_offset_in_run lay (length pre) p = Ok x /\
  offset_in_run lay ps (length pre) p = Ok f /\
  between_q (x - inject_Z 3 / inject_Z (2 ^ (25 - k))) f (x + inject_Z 3 / inject_Z (2 ^ (25 - k))).
Proof.
  intros d y pre r post lay ps k OKD ST E OK PS. pose proof (stored_eq OKD ST); subst lay. exact (t_near d y pre r post ps k E OK PS).
Qed.
Print Assumptions C77_near.

(** Adding the start of the line keeps the order of carets. *)
Theorem C77_screen : forall w lw a f g,
  Forall (fun x => between_q (- inject_Z (2 ^ 30)) x (inject_Z (2 ^ 30))) [w; lw; f; g] -> f32_le f g = true ->
  f32_le (screen_x w lw a f) (screen_x w lw a g) = true.
Proof.
  intros w lw a f g H L. rewrite Forall_forall in H. apply t_screen; try exact L; apply modest_between, H; cbn; auto.
Qed.
Print Assumptions C77_screen.
(** Lines and text areas whose widths are 26.6 numbers are aligned exactly; the end of a
    right-aligned line is the right edge. *)
Theorem C77_alignment : forall zw zl, 0 <= zl <= zw -> zw <= 2 ^ 24 ->
  let w := fixed_f32 zw in let lw := fixed_f32 zl in
  exactly (line_start w lw XLeft) 0 /\ exactly (line_start w lw XRight) ((zw # 64) - (zl # 64)) /\
  exactly (line_start w lw XCenter) ((1 # 2) * ((zw # 64) - (zl # 64))) /\
  exactly (screen_x w lw XLeft lw) (zl # 64) /\ exactly (screen_x w lw XRight lw) (zw # 64).
Proof. exact t_alignment. Qed.
Print Assumptions C77_alignment.

(** However many lines there are, the bottoms of the lines never decrease, and the line
    found for a height is the first whose bottom reaches it. *)
Theorem C77_closest_line : forall hs q v, Forall (fun h => between_q 0 h (inject_Z (2 ^ 30))) hs -> is_f32 q -> f32_value q = Some v ->
  nondecreasing_f (descents None hs) /\
  exists r, closest_line (descents None hs) q = Ok r /\ (r <= length hs)%nat /\
    (forall i t, (i < r)%nat -> nth_error (descents None hs) i = Some t -> f32_lt t q = true) /\
    (forall i t, (r <= i)%nat -> nth_error (descents None hs) i = Some t -> f32_le q t = true).
Proof.
  intros hs q v H V E. assert (H' : Forall height hs) by (eapply Forall_impl; [|exact H]; exact height_between).
  split; [apply descents_all; exact H'|]. destruct (value_R q v E) as [F R]. eapply t_closest; [exact H'|]. split; [exact V|]. split; [exact F|exact R].
Qed.
Print Assumptions C77_closest_line.
(** Lines whose heights are 26.6 numbers are where their sum says, and the caret is as
    tall as its line. *)
Theorem C77_lines : forall hs zs ys i z, heights64 hs zs -> 0 <= ys -> ys + sum64 zs <= 2 ^ 24 -> nth_error zs i = Some z ->
  exists top tall, line_top (descents None hs) (fixed_f32 ys) i = Ok top /\ exactly top ((ys + sum64 (firstn i zs)) # 64) /\
    line_tall (descents None hs) i = Ok tall /\ exactly tall (z # 64).
Proof. exact t_lines. Qed.
Print Assumptions C77_lines.
(** The width of the text area is cut to a 64th of a pixel. *)
Theorem C77_width : forall x v, is_f32 x -> f32_value x = Some v -> (0 <= v)%Q -> (v < inject_Z (2 ^ 25))%Q ->
  to_fixed x = Ok (Qfloor (v * inject_Z 64)).
Proof. exact t_width. Qed.
Print Assumptions C77_width.

(** The second run of the sample, right to left; its caret after two of three characters. *)
Definition to_f (q : Q) : f32 := fixed_f32 (Qfloor (q * inject_Z 64)).
Example C77_witness : let lay := layout_of sample 0 in let ps := map to_f (lo_pos lay) in
  positions ps (lo_pos lay) /\ offset_in_run lay ps 1 5 = Ok (f32_of_Z 40) /\
  f32_lt (f32_of_Z 12) (f32_of_Z 30) = true /\ closest_line (descents None (map f32_of_Z [12; 24])) (f32_of_Z 20) = Ok 1%nat.
Proof.
  cbv zeta. split; [|vm_compute; repeat split].
  set (qs := lo_pos (layout_of sample 0)). assert (Q : Forall (fun q => position (to_f q) q) qs).
  { repeat constructor; eexists; (split; [|split; [|reflexivity]]); vm_compute; try reflexivity; split; discriminate. }
  induction Q; cbn; constructor; assumption.
Qed.
Example C77_heights : heights64 (map f32_of_Z [12; 24]) [768; 1536] /\ to_fixed (f32_of_Z 100) = Ok 6400.
Proof.
  split; [|vm_compute; reflexivity]. repeat constructor; try lia; unfold is_f32; try (vm_compute; reflexivity);
    eexists; (split; [reflexivity|]); vm_compute; reflexivity.
Qed.

(** Past 262144 pixels carets that are a 64th of a pixel apart coincide. *)
Theorem C77_far_refuted : exists z, 0 <= z < 2 ^ 31 /\ ~ (z # 64 == z + 1 # 64)%Q /\ fixed_f32 z = fixed_f32 (z + 1).
Proof. exists (2 ^ 24). split; [lia|]. split; [intros H; unfold Qeq in H; cbn in H; lia|vm_compute; reflexivity]. Qed.
Print Assumptions C77_far_refuted.
(** A text area of 33554432 pixels or more, or of infinite width, cannot be converted: the
    behaviour is undefined.  A caller who wants no wrapping has to give the width 0. *)
Theorem C77_width_refuted : exists x y, is_f32 x /\ is_f32 y /\ f32_value x = Some (inject_Z (2 ^ 25)) /\ f32_value y = None /\ to_fixed x = UB /\ to_fixed y = UB.
Proof. exists (S754_finite false 8388608 2), (S754_infinity false). repeat split. Qed.
Print Assumptions C77_width_refuted.
(** A text area narrower than a 64th of a pixel counts as width 0, which means no
    wrapping (src/layout_builder.cpp:291). *)
Theorem C77_narrow_refuted : exists x v, is_f32 x /\ f32_value x = Some v /\ (0 < v)%Q /\ to_fixed x = Ok 0.
Proof. exists (S754_finite false 8388608 (-30)). eexists. split; [reflexivity|]. split; [reflexivity|]. split; reflexivity. Qed.
Print Assumptions C77_narrow_refuted.
