From Coq Require Import Qminmax Qabs Lqa Lia.
From Verif Require Import Base ClipModel GlModel ShaderModel ShaderSpec ShaderProofs.
Open Scope Q_scope.

(** Which of two triangles colours a pixel on their common edge is OpenGL's decision; the
    theorems hold for every decision it may take, and this is one. *)
Example a_decision : rasterizes moved_covers.
Proof. exact moved_rasterizes. Qed.

(** Every pixel of the rectangle is coloured by exactly one of its two triangles, no other
    pixel by any. *)
Theorem C96_pixels : forall covers w h r i j, rasterizes covers -> (0 < w)%Z -> (0 < h)%Z -> 0 <= r_w r -> 0 <= r_h r ->
  hits covers w h (rect_vertex (inv_screen w h) r) i j = if in_rect r i j then 1%nat else 0%nat.
Proof. intros covers w h r i j R W H RW RH. now apply hits_rect. Qed.
Print Assumptions C96_pixels.
Example pixels_case :
  let r := {| r_x := 3 # 2; r_y := 1; r_w := 4; r_h := 3; r_u := 0; r_v := 0; r_uw := 1; r_vh := 1; r_white := false |} in
  map (fun i => hits moved_covers 10 10 (rect_vertex (inv_screen 10 10) r) i 2) [0; 1; 2; 3; 4; 5; 6]%Z = [0; 1; 1; 1; 1; 0; 0]%nat.
Proof. cbv zeta. cbn [map]. rewrite !C96_pixels by (exact moved_rasterizes || reflexivity || discriminate). reflexivity. Qed.

(** A plain rectangle lays its colour over exactly its pixels, once. *)
Theorem C96_solid : forall covers w h c fb r, rasterizes covers -> (0 < w)%Z -> (0 < h)%Z -> 0 <= r_w r -> 0 <= r_h r ->
  laid_over (in_rect r) (fun _ _ => c) fb (draw_rect_pixels covers w h default_texture c fb r).
Proof. intros covers w h c fb r R W H RW RH. now apply draw_plain_frame. Qed.
Print Assumptions C96_solid.

(** Under a highlight the parts have together exactly the pixels of the whole, each of them
    once. *)
Theorem C96_parts : forall covers sw sh x y w h u v uw vh clip i j, rasterizes covers -> (0 < sw)%Z -> (0 < sh)%Z ->
  0 <= w -> 0 <= h -> (forall first second, clip = Some (first, second) -> first <= second) ->
  fold_right (fun r n => hits covers sw sh (rect_vertex (inv_screen sw sh) r) i j + n)%nat 0%nat (emit_rect x y w h u v uw vh clip)
  = if in_rect {| r_x := x; r_y := y; r_w := w; r_h := h; r_u := u; r_v := v; r_uw := uw; r_vh := vh; r_white := false |} i j
    then 1%nat else 0%nat.
Proof.
  intros covers sw sh x y w h u v uw vh clip i j R SW SH Hw Hh O.
  rewrite (hits_parts R SW SH).
  - apply (@parts_count x y w h u v uw vh clip O).
  - intros r I. destruct (@parts_sizes x y w h u v uw vh clip O Hw r I) as (A & -> & _). auto.
Qed.
Print Assumptions C96_parts.

(** What a plain rectangle looks like under a highlight: the colour or white is laid over
    each of its pixels once, white over the pixels of the part in the highlight. *)
Theorem C96_highlight : forall covers sw sh c fb x y w h u v uw vh clip, rasterizes covers -> (0 < sw)%Z -> (0 < sh)%Z ->
  0 <= w -> 0 <= h -> (forall first second, clip = Some (first, second) -> first <= second) ->
  laid_over (in_rect {| r_x := x; r_y := y; r_w := w; r_h := h; r_u := u; r_v := v; r_uw := uw; r_vh := vh; r_white := false |})
    (fun i j => if existsb (fun r => r_white r && in_rect r i j) (emit_rect x y w h u v uw vh clip) then white_rgba else c)
    fb (draw_rects covers sw sh default_texture c fb (emit_rect x y w h u v uw vh clip)).
Proof.
  intros covers sw sh c fb x y w h u v uw vh clip R SW SH Hw Hh O i j.
  assert (A : forall r, In r (emit_rect x y w h u v uw vh clip) -> 0 <= r_w r /\ 0 <= r_h r).
  { intros r I. destruct (@parts_sizes x y w h u v uw vh clip O Hw r I) as (A & -> & _). auto. }
  pose proof (@parts_count x y w h u v uw vh clip O i j) as N. unfold whole in N.
  destruct (in_rect _ i j).
  - now apply (draw_rects_one R SW SH).
  - now apply (draw_rects_none R SW SH).
Qed.
Print Assumptions C96_highlight.
Example highlight_case :
  map (fun i => existsb (fun r => r_white r && in_rect r i 0) (emit_rect (1 # 2) 0 6 1 0 0 1 1 (Some (2 # 1, 4 # 1)))) [0; 1; 2; 3; 4; 5]%Z
  = [false; false; true; true; false; false].
Proof. vm_compute. reflexivity. Qed.

(** A distance field rectangle is not moved to whole pixels: it colours the pixels whose
    centre is inside once and those whose centre is outside not at all.  Missing: a centre
    exactly on its border, where OpenGL decides. *)
Theorem C96_fields_partial : forall covers w h r i j, rasterizes covers -> (0 < w)%Z -> (0 < h)%Z -> 0 <= r_w r -> 0 <= r_h r ->
  (centre_inside r i j -> hits covers w h (msdf_vertex (inv_screen w h) r) i j = 1%nat) /\
  (centre_outside r i j -> hits covers w h (msdf_vertex (inv_screen w h) r) i j = 0%nat).
Proof. intros covers w h r i j R W H RW RH. now apply hits_msdf. Qed.
Print Assumptions C96_fields_partial.

(** A picture of [n] by [m] texels, wherever it lies in its texture and whatever fraction of
    a pixel its position has, appears texel for texel: one texel on each pixel of a block of
    [n] by [m] pixels, multiplied with the colour and laid over what was there. *)
Theorem C97_picture : forall covers w h tx a b n m pic c x y fb, rasterizes covers -> (0 < w)%Z -> (0 < h)%Z ->
  (0 <= n)%Z -> (0 <= m)%Z -> picture_at tx a b n m pic ->
  laid_over (fun i j => (Qfloor x <=? i) && (i <? Qfloor x + n) && (Qfloor y <=? j) && (j <? Qfloor y + m))%Z
    (fun i j => map2 Qmult (pic (i - Qfloor x) (j - Qfloor y))%Z c)
    fb (draw_rect_pixels covers w h tx c fb (shows tx a b n m x y)).
Proof.
  intros covers w h tx a b n m pic c x y fb R W H N M P i j.
  eapply trans_rgba; [apply (draw_rect_frame R W H); cbn; [change 0 with (inject_Z 0)|change 0 with (inject_Z 0)]; now rewrite <- Zle_Qle|].
  pose proof (shown_sample P x y i j) as S0. rewrite <- (shown_in tx a b n m x y).
  destruct (in_rect (shows tx a b n m x y) i j); [|apply refl_rgba].
  apply blend_same; [|apply refl_rgba]. unfold rect_fragment.
  apply map2_same; [intros p q p' q' E1 E2; rewrite E1, E2; reflexivity|now apply S0|apply refl_rgba].
Qed.
Print Assumptions C97_picture.
Definition small : texture :=
  {| t_w := 8; t_h := 8; t_texel := fun k l => {| q_r := 1; q_g := 1; q_b := 1; q_a := if ((k =? 3) && (l =? 2))%Z then 1 else 0 |} |}.
Example small_at : picture_at small 2 2 4 4 (fun k l => t_texel small (2 + k) (2 + l))%Z.
Proof. split; [cbn; lia|reflexivity]. Qed.

(** Text in an opaque colour: each pixel becomes the mixture of what was there and the
    colour of the text, by the coverage the font gives for that pixel. *)
Theorem C97_text : forall covers w h tx a b n m coverage c x y fb i j, rasterizes covers -> (0 < w)%Z -> (0 < h)%Z ->
  picture_at tx a b n m (fun k l => {| q_r := 1; q_g := 1; q_b := 1; q_a := coverage k l |}) -> q_a c == 1 ->
  (Qfloor x <= i < Qfloor x + n)%Z -> (Qfloor y <= j < Qfloor y + m)%Z ->
  let o := coverage (i - Qfloor x)%Z (j - Qfloor y)%Z in
  let after := draw_rect_pixels covers w h tx c fb (shows tx a b n m x y) i j in
  q_r after == o * q_r c + (1 - o) * q_r (fb i j) /\
  q_g after == o * q_g c + (1 - o) * q_g (fb i j) /\
  q_b after == o * q_b c + (1 - o) * q_b (fb i j).
Proof.
  intros covers w h tx a b n m coverage c x y fb i j R W H P O I J o after.
  assert (N : (0 <= n)%Z) by lia. assert (M : (0 <= m)%Z) by lia.
  destruct (C97_picture covers w h tx a b n m _ c x y fb R W H N M P i j) as (A & B & C & _).
  replace ((Qfloor x <=? i) && (i <? Qfloor x + n) && (Qfloor y <=? j) && (j <? Qfloor y + m))%Z with true in A, B, C
    by (symmetry; rewrite !andb_true_iff, !Z.leb_le, !Z.ltb_lt; lia).
  fold after in A, B, C. rewrite A, B, C. cbn. fold o. rewrite O. repeat split; ring.
Qed.
Print Assumptions C97_text.

(** Under a highlight that ends inside a glyph the parts are moved to whole pixels but the
    texture is still cut at the highlight's end: the pixels show mixtures of neighbouring
    texels.  Here the one solid texel of a picture is drawn at three quarters and an eighth
    of its strength. *)
Theorem C97_split_refuted : exists tx a b n m pic x y clip i,
  picture_at tx a b n m pic /\ (Qfloor x <= i < Qfloor x + n)%Z /\
  let r := shows tx a b n m x y in
  ~ q_a (draw_rects moved_covers 16 16 tx white_rgba (fun _ _ => {| q_r := 0; q_g := 0; q_b := 0; q_a := 0 |})
           (emit_rect (r_x r) (r_y r) (r_w r) (r_h r) (r_u r) (r_v r) (r_uw r) (r_vh r) clip) i 0%Z)
    == q_a (pic (i - Qfloor x)%Z 0%Z) * q_a (pic (i - Qfloor x)%Z 0%Z).
Proof.
  exists small, 2%Z, 2%Z, 4%Z, 4%Z, (fun k l => t_texel small (2 + k) (2 + l))%Z, (1 # 2), 0, (Some (2 # 1, 9 # 1)), 1%Z.
  split; [apply small_at|]. split; [vm_compute; split; congruence|]. cbv zeta. rewrite <- Qeq_bool_iff, not_true_iff_false. vm_compute. reflexivity.
Qed.
Print Assumptions C97_split_refuted.

(** The outline of a rectangle is the border of the block of pixels from its upper left to
    its lower right corner, and every pixel of it is drawn once. *)
Theorem C98_outline : forall w h r, (0 < w)%Z -> (0 < h)%Z ->
  let left := Qfloor (r_x r) in let right := Qfloor (r_x r + r_w r) in
  let top := Qfloor (r_y r) in let bottom := Qfloor (r_y r + r_h r) in
  (left < right)%Z -> (top < bottom)%Z ->
  NoDup (outline_pixels w h r) /\ forall p, In p (outline_pixels w h r) <-> on_border left top right bottom p.
Proof.
  intros w h r W H left right top bottom LX LY.
  destruct (@outline_border w h r W H) as [A B]; try (fold left right top bottom; lia).
  split; [now apply B|exact A].
Qed.
Print Assumptions C98_outline.
Example outline_case :
  outline_pixels 100 100 {| r_x := 5 # 2; r_y := 3; r_w := 2; r_h := 2; r_u := 0; r_v := 0; r_uw := 1; r_vh := 1; r_white := false |}
  = [(2, 3); (3, 3); (4, 3); (4, 4); (4, 5); (3, 5); (2, 5); (2, 4)]%Z.
Proof. vm_compute. reflexivity. Qed.

(** An outline narrower than a pixel is still a whole line, unless it has no height either. *)
Theorem C98_thin : forall w h r, (0 < w)%Z -> (0 < h)%Z ->
  let left := Qfloor (r_x r) in let right := Qfloor (r_x r + r_w r) in
  let top := Qfloor (r_y r) in let bottom := Qfloor (r_y r + r_h r) in
  left = right -> (top < bottom)%Z ->
  forall i j, In (i, j) (outline_pixels w h r) <-> (i = left /\ top <= j <= bottom)%Z.
Proof.
  intros w h r W H left right top bottom E LY i j.
  destruct (@outline_border w h r W H) as [A _]; try (fold left right top bottom; lia).
  rewrite A. unfold on_border. fold left right top bottom. lia.
Qed.
Print Assumptions C98_thin.
Example thin_case :
  outline_pixels 100 100 {| r_x := 5; r_y := 3; r_w := 1 # 2; r_h := 2; r_u := 0; r_v := 0; r_uw := 1; r_vh := 1; r_white := false |}
  = [(5, 3); (5, 4); (5, 5); (5, 4)]%Z.
Proof. vm_compute. reflexivity. Qed.

(** The outline does not stay on the rectangle: its right column and its bottom row are
    pixels next to it. *)
Theorem C98_outside_refuted : forall w h r, (0 < w)%Z -> (0 < h)%Z ->
  (Qfloor (r_x r) < Qfloor (r_x r + r_w r))%Z -> (Qfloor (r_y r) < Qfloor (r_y r + r_h r))%Z ->
  exists i j, In (i, j) (outline_pixels w h r) /\ in_rect r i j = false.
Proof.
  intros w h r W H LX LY. exists (Qfloor (r_x r + r_w r)), (Qfloor (r_y r)). split.
  - apply C98_outline; try assumption. unfold on_border. lia.
  - unfold in_rect. rewrite Z.ltb_irrefl, andb_false_r. reflexivity.
Qed.
Print Assumptions C98_outside_refuted.

(** The distance of a glyph's edge is the middle one of the three channels. *)
Theorem C99_median : forall r g b, middle (median r g b) r g b.
Proof. exact median_middle. Qed.
Print Assumptions C99_median.

(** Where the distance changes from pixel to pixel, the opacity is between 0 and 1, one half
    on the edge, nothing far outside and everything far inside, and never falls as the distance rises. *)
Theorem C99_opacity_partial : forall length dx dy, is_length length -> ~ (dx == 0 /\ dy == 0) ->
  exists f, (forall s, opacity length dx dy s = Ok (f s)) /\
    (forall s, 0 <= f s /\ f s <= 1) /\
    (forall s t, s <= t -> f s <= f t) /\
    f (1 # 2) == 1 # 2 /\
    (forall s, s <= (1 # 2) - length dx dy -> f s == 0) /\
    (forall s, (1 # 2) + length dx dy <= s -> f s == 1).
Proof.
  intros length dx dy [L1 L2] N.
  assert (P : 0 < length dx dy).
  { destruct (Qlt_le_dec 0 (length dx dy)) as [P|P]; [exact P|]. exfalso. apply N, L2. specialize (L1 dx dy). lra. }
  set (k := length dx dy) in *. set (e0 := (1 # 2) - k). set (e1 := (1 # 2) + k).
  assert (E : e0 < e1) by (unfold e0, e1; lra). assert (D : 0 < e1 - e0) by (unfold e0, e1; lra).
  exists (fun s => ramp e0 e1 s * ramp e0 e1 s * (3 - 2 * ramp e0 e1 s)).
  split; [|split; [|split; [|split; [|split]]]].
  - intros s. unfold opacity. cbv zeta. fold k e0 e1. now apply smoothstep_ok.
  - intros s. destruct (ramp_range e0 e1 s). now apply smooth_range.
  - intros s t Hst. destruct (ramp_range e0 e1 s). destruct (ramp_range e0 e1 t).
    apply smooth_mono; [assumption|now apply ramp_mono|assumption].
  - assert (H : ramp e0 e1 (1 # 2) == 1 # 2).
    { unfold ramp. assert (B : ((1 # 2) - e0) / (e1 - e0) == 1 # 2) by (unfold e0, e1; field; lra). rewrite B. reflexivity. }
    rewrite H. reflexivity.
  - intros s Hs. assert (H : ramp e0 e1 s == 0).
    { unfold ramp. assert (B : (s - e0) / (e1 - e0) <= 0) by (apply Qle_shift_div_r; [exact D|rewrite Qmult_0_l; lra]).
      rewrite (Q.max_r _ _ B). reflexivity. }
    rewrite H. reflexivity.
  - intros s Hs. assert (H : ramp e0 e1 s == 1).
    { unfold ramp. assert (B : 1 <= (s - e0) / (e1 - e0)) by (apply Qle_shift_div_l; [exact D|rewrite Qmult_1_l; lra]).
      rewrite (Q.max_l _ _) by lra. now apply Q.min_r. }
    rewrite H. reflexivity.
Qed.
Print Assumptions C99_opacity_partial.
Example a_length : is_length (fun x y => Qabs x + Qabs y).
Proof.
  split; intros x y.
  - pose proof (Qabs_nonneg x). pose proof (Qabs_nonneg y). lra.
  - apply (Qabs_case x); apply (Qabs_case y); intros; split; intros; lra.
Qed.

(** Where the distance does not change, as it does not deep inside or far outside a glyph,
    the shader asks for a step of width zero, which GLSL leaves undefined. *)
Theorem C99_flat_refuted : forall length tx color st i j c, is_length length ->
  (forall k l, t_texel tx k l = c) -> msdf_fragment length tx color st i j = UB.
Proof.
  intros length tx color st i j c [L1 L2] F. unfold msdf_fragment, opacity. cbv zeta.
  assert (S0 : forall i j, same_rgba (sample tx (st i j)) c).
  { intros i' j'. unfold sample, map2, mix. cbv zeta. rewrite !F. repeat split; cbn; ring. }
  assert (M : forall a b c a' b' c', a == a' -> b == b' -> c == c' -> median a b c == median a' b' c').
  { intros a b d a' b' d' E1 E2 E3. unfold median. rewrite E1, E2, E3. reflexivity. }
  assert (G : forall i j, sig_dist (sample tx (st i j)) == sig_dist c).
  { intros i' j'. destruct (S0 i' j') as (A & B & C & _). unfold sig_dist. now apply M. }
  assert (Z0 : length (dfdx (fun i j => sig_dist (sample tx (st i j))) i j) (dfdy (fun i j => sig_dist (sample tx (st i j))) i j) == 0).
  { apply L2. unfold dfdx, dfdy. rewrite !G. split; ring. }
  unfold smoothstep. match goal with |- context [Qle_bool ?a ?b] => assert (E : a <= b) by (rewrite Z0; lra) end.
  apply Qle_bool_iff in E. rewrite E. reflexivity.
Qed.
Print Assumptions C99_flat_refuted.
