(** C88: the measures of a font. *)
From Coq Require Import ZArith Reals Lia Lra Bool.
From Verif Require Import Base FloatModel FontSizeModel FloatRealProofs MetricsModel MetricsSpec MetricsProofs.

(** How far letters reach above and below the line is what the font says, in pixels. For lowered and raised text, whose
    letters are made smaller, it is what the font says of the letters at the size of the text around them, so that the
    line is as tall as if they were not lowered. *)
Theorem C88_reach : forall f, (Z.abs (fn_ascender f) <= 2 ^ 24)%Z -> (Z.abs (fn_descender f) <= 2 ^ 24)%Z ->
  close_to (if fn_sub f || fn_super f then tiny else 0) (get_ascent f) (unlowered f (IZR (fn_ascender f) / 64)) /\
  close_to (if fn_sub f || fn_super f then tiny else 0) (get_descent f) (unlowered f (IZR (fn_descender f) / 64)).
Proof.
  intros f A D. unfold unlowered, get_ascent, get_descent.
  split; (eexists; split; [apply height_fin; assumption|]); destruct (fn_sub f || fn_super f).
  - apply height_low, A.
  - rewrite height_plain by exact A. rewrite Rminus_diag_eq by reflexivity. rewrite Rabs_R0. lra.
  - apply height_low, D.
  - rewrite height_plain by exact D. rewrite Rminus_diag_eq by reflexivity. rewrite Rabs_R0. lra.
Qed.
Print Assumptions C88_reach.

(** Rounding keeps the order: what is below stays below, so no line has a negative height. *)
Theorem C88_order : forall f, (Z.abs (fn_ascender f) <= 2 ^ 24)%Z -> (Z.abs (fn_descender f) <= 2 ^ 24)%Z -> (fn_descender f <= fn_ascender f)%Z ->
  f32_le (get_descent f) (get_ascent f) = true /\
  (exists h, fin (f32_sub (get_ascent f) (get_descent f)) h /\ (0 <= h)%R).
Proof.
  intros f A D L. set (low := (fn_sub f || fn_super f)%bool). assert (FA := height_fin low _ A). assert (FD := height_fin low _ D). assert (LE := height_le low _ _ L). split.
  - apply (proj2 (fin_le _ _ _ _ FD FA)), LE.
  - assert (B : forall z, (Z.abs z <= 2 ^ 24)%Z -> (Rabs (height_of low z) <= 1048576)%R).
    { intros z Z. change 1048576%R with (Flocq.Core.Raux.bpow Flocq.Core.Zaux.radix2 20). unfold height_of. apply rr_bound; [lia|]. change (Flocq.Core.Raux.bpow Flocq.Core.Zaux.radix2 20) with 1048576%R.
      pose proof (abs_int _ Z) as I. apply Rabs_le. apply Flocq.Core.Raux.Rabs_le_inv in I. destruct low; lra. }
    assert (BA := B _ A). assert (BD := B _ D). apply Flocq.Core.Raux.Rabs_le_inv in BA, BD.
    eexists. split; [apply (fin_sub _ _ _ _ FA FD); apply StyleProofs.small_100; apply Rabs_le; lra|]. rewrite <- rr_0. apply rr_le. lra.
Qed.
Print Assumptions C88_order.

(** The size of the em and the scale from the designer's units to pixels. *)
Theorem C88_scale_partial : forall f, outlined f ->
  close_to 0 (get_ppem_x f) (IZR (fn_x_ppem f)) /\ close_to 0 (get_ppem_y f) (IZR (fn_y_ppem f)) /\
  close_to tiny (get_scale_x f) (IZR (fn_x_ppem f) / IZR (fn_upem f)) /\ close_to tiny (get_scale_y f) (IZR (fn_y_ppem f) / IZR (fn_upem f)).
Proof.
  intros f (U & X & Y). assert (I : forall z, (Z.abs z <= 2 ^ 24)%Z -> close_to 0 (f32_of_Z z) (IZR z)).
  { intros z Z. eexists. split; [apply fin_int, Z|]. rewrite Rminus_diag_eq by reflexivity. rewrite Rabs_R0. lra. }
  assert (Q : forall p, (0 <= p <= 65535)%Z -> close_to tiny (f32_div (f32_of_Z p) (f32_of_Z (fn_upem f))) (IZR p / IZR (fn_upem f))).
  { intros p P. destruct (scale_fin p _ P U) as (F & E & _ & _). eexists. split; [exact F|]. eapply Rle_trans; [exact E|]. pose proof (ratio_range p _ P U). rewrite Rabs_pos_eq by lra. unfold tiny. lra. }
  split; [apply I; lia|]. split; [apply I; lia|]. split; apply Q; assumption.
Qed.
Print Assumptions C88_scale_partial.

(** Underline and strike-out line lie where the font's designer put them and are as thick, at the size of the font. *)
Theorem C88_lines_partial : forall f, outlined f -> int16 (fn_underline_position f) -> int16 (fn_underline_thickness f) -> int16 (fn_strike_position f) -> int16 (fn_strike_thickness f) ->
  close_to tiny (get_underline_position f) (- in_pixels f (fn_underline_position f)) /\
  close_to tiny (get_underline_thickness f) (in_pixels f (fn_underline_thickness f)) /\
  close_to tiny (get_strikethrough_position f) (in_pixels f (fn_strike_position f)) /\
  close_to tiny (get_strikethrough_thickness f) (in_pixels f (fn_strike_thickness f)).
Proof.
  intros f (U & _ & Y) A B C D. unfold int16 in *.
  assert (Q : forall z, (Z.abs z <= 65536)%Z -> close_to tiny (f32_mul (get_scale_y f) (f32_of_Z z)) (in_pixels f z)).
  { intros z Z. destruct (line_fin (fn_y_ppem f) (fn_upem f) z Y U Z) as [F E]. eexists. split; [exact F|exact E]. }
  split; [|split; [|split]]; try (apply Q; lia). replace (- in_pixels f (fn_underline_position f))%R with (in_pixels f (- fn_underline_position f)); [apply Q; lia|]. unfold in_pixels. rewrite opp_IZR. unfold Rdiv. ring.
Qed.
Print Assumptions C88_lines_partial.

(** The file's strike-out line, from its table to the place where it is drawn (downwards is positive). The position
    -32768 is missing. *)
Theorem C88_strike_partial : forall f position size, outlined f -> int16 position -> int16 size -> position <> (-32768)%Z ->
  (fn_strike_position f, fn_strike_thickness f) = strike_of_table (Some (position, size)) ->
  close_to tiny (get_strikethrough_position f) (- in_pixels f position) /\ close_to tiny (get_strikethrough_thickness f) (in_pixels f size).
Proof.
  intros f position size O P Q NE E. unfold int16 in *. cbn [strike_of_table] in E. injection E as E1 E2. unfold wrap16 in E1, E2. rewrite Z.mod_small in E1, E2 by lia.
  destruct O as (U & _ & Y).
  destruct (line_fin (fn_y_ppem f) (fn_upem f) (- position) Y U ltac:(lia)) as [F1 L1]. destruct (line_fin (fn_y_ppem f) (fn_upem f) size Y U ltac:(lia)) as [F2 L2].
  replace (- in_pixels f position)%R with (in_pixels f (- position)) by (unfold in_pixels; rewrite opp_IZR; unfold Rdiv; ring).
  unfold get_strikethrough_position, get_strikethrough_thickness. replace (fn_strike_position f) with (- position)%Z by lia. replace (fn_strike_thickness f) with size by lia.
  split; eexists; (split; [eassumption|assumption]).
Qed.
Print Assumptions C88_strike_partial.

(** A larger font has no thinner lines, and no line is drawn thinner than half a pixel. *)
Theorem C88_thickness_partial : forall f, outlined f -> (0 <= fn_underline_thickness f <= 32767)%Z -> (0 <= fn_strike_thickness f <= 32767)%Z ->
  (exists v, fin (underline_height f) v /\ (/ 2 <= v)%R /\ (Rabs (v - (in_pixels f (fn_underline_thickness f) + / 2)) <= tiny * 2 * (in_pixels f (fn_underline_thickness f) + / 2))%R) /\
  (exists v, fin (strikethrough_height f) v /\ (/ 2 <= v)%R /\ (Rabs (v - (in_pixels f (fn_strike_thickness f) + / 2)) <= tiny * 2 * (in_pixels f (fn_strike_thickness f) + / 2))%R) /\
  forall g, outlined g -> fn_upem g = fn_upem f -> fn_underline_thickness g = fn_underline_thickness f -> fn_strike_thickness g = fn_strike_thickness f -> (fn_y_ppem f <= fn_y_ppem g)%Z ->
    f32_le (get_underline_thickness f) (get_underline_thickness g) = true /\ f32_le (get_strikethrough_thickness f) (get_strikethrough_thickness g) = true.
Proof.
  intros f (U & _ & Y) A B. split; [apply (drawn_fin _ _ _ Y U A)|]. split; [apply (drawn_fin _ _ _ Y U B)|].
  intros g (U' & _ & Y') EU EA EB L. unfold get_underline_thickness, get_strikethrough_thickness, get_scale_y. rewrite EU, EA, EB.
  assert (Q : forall z, (0 <= z <= 32767)%Z -> f32_le (f32_mul (f32_div (f32_of_Z (fn_y_ppem f)) (f32_of_Z (fn_upem f))) (f32_of_Z z)) (f32_mul (f32_div (f32_of_Z (fn_y_ppem g)) (f32_of_Z (fn_upem f))) (f32_of_Z z)) = true).
  { intros z Z. destruct (line_fin _ _ z Y U ltac:(lia)) as [F _]. destruct (line_fin _ _ z Y' U ltac:(lia)) as [F' _]. apply (proj2 (fin_le _ _ _ _ F F')). apply line_mono; lia. }
  split; apply Q; assumption.
Qed.
Print Assumptions C88_thickness_partial.

Definition f_sub : font_numbers := FontNumbers 2048 16 16 960 (-256) (-217) 150 (-530) 102 true false.
Example f_sub_ok : outlined f_sub /\ (fn_descender f_sub <= fn_ascender f_sub)%Z /\ (fn_strike_position f_sub, fn_strike_thickness f_sub) = strike_of_table (Some (530, 102))%Z.
Proof. unfold outlined, f_sub. cbn [fn_upem fn_x_ppem fn_y_ppem fn_descender fn_ascender fn_strike_position fn_strike_thickness]. repeat split; try lia; reflexivity. Qed.
Example f_sub_ascent : f32_le (f32_of_Z 21) (get_ascent f_sub) = true /\ f32_le (get_ascent f_sub) (f32_of_Z 22) = true. Proof. vm_compute. auto. Qed.
Example f_sub_line : get_underline_position f_sub = S754_finite false 14221312 (-23). Proof. vm_compute. reflexivity. Qed.

(** A font that only has bitmaps has no designer's units: FreeType reports zero of them per em. Its scale is
    infinite or not a number, and the line under its text is placed at no number at all: the measures of such a font must not be drawn
    with. *)
Theorem C88_no_units_refuted :
  let f := FontNumbers 0 13 13 704 (-128) 0 0 0 0 false false in
  (forall r, ~ fin (get_scale_y f) r) /\ get_underline_position f = S754_nan /\ get_underline_thickness f = S754_nan /\ underline_height f = S754_nan.
Proof.
  intros f. split; [|vm_compute; auto]. intros r (_ & F & _). assert (E : get_scale_y f = S754_infinity false) by (vm_compute; reflexivity). rewrite E in F. discriminate F.
Qed.
Print Assumptions C88_no_units_refuted.

(** The strike-out position is negated into sixteen bits: the lowest position there is comes out as itself, on the wrong
    side of the line of writing. *)
Theorem C88_lowest_refuted : strike_of_table (Some (-32768, 50))%Z = (-32768, 50)%Z /\
  let f := FontNumbers 32768 32 32 0 0 0 0 (-32768) 50 false false in
  get_strikethrough_position f = f32_of_Z (-32) /\ (- in_pixels f (-32768) = 32)%R.
Proof. split; [reflexivity|]. split; [vm_compute; reflexivity|]. unfold in_pixels. cbn [fn_y_ppem fn_upem]. lra. Qed.
Print Assumptions C88_lowest_refuted.
