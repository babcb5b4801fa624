(** C47: drawing into a bitmap. *)
From Verif Require Import Base FloatModel ColorModel BitmapModel BitmapSpec BitmapProofs.
Open Scope Z_scope.

(** A rectangle whose corner is at or right of the left edge, not right of the
    right edge, and not above the top, is filled exactly where it meets the bitmap. *)
Theorem C47_fill_partial : forall b x y w h c v,
  sized b -> 0 <= x <= bm_w b -> 0 <= y -> 0 <= w < 2 ^ 32 -> 0 <= h -> y + h < 2 ^ 32 -> to_argb c = Ok v ->
  exists b', fill_rect b x y w h c = Ok b' /\ painted b b' (in_rect x y w h) (fun _ _ => v).
Proof. exact fill_rect_ok. Qed.
Print Assumptions C47_fill_partial.

(** The same for copying another bitmap. *)
Theorem C47_blit_partial : forall b src x y,
  sized b -> sized src -> 0 <= x <= bm_w b -> 0 <= y -> y + bm_h src < 2 ^ 32 ->
  exists b', blit b src x y = Ok b' /\
    painted b b' (in_rect x y (bm_w src) (bm_h src)) (fun px py => pixel src (px - x) (py - y)).
Proof. exact blit_ok. Qed.
Print Assumptions C47_blit_partial.

(** Blending a bitmap at any position, also partly or wholly outside, changes
    exactly the pixels it covers, each to the blend of the two, provided the
    colours computed are ones that can be stored. *)
Theorem C47_alpha : forall b src x y c f,
  sized src -> sized b -> bm_w b < 2 ^ 31 -> bm_h b < 2 ^ 31 -> bm_w src < 2 ^ 31 -> bm_h src < 2 ^ 31 ->
  - 2 ^ 31 <= x -> x + bm_w src < 2 ^ 31 -> - 2 ^ 31 <= y -> y + bm_h src < 2 ^ 31 ->
  (forall px py, within b px py -> in_rect x y (bm_w src) (bm_h src) px py ->
    over (pixel src (px - x) (py - y)) (pixel b px py) c = Ok (f px py)) ->
  exists b', blit_alpha b src x y c = Ok b' /\ painted b b' (in_rect x y (bm_w src) (bm_h src)) f.
Proof. intros b src x y c f Hs. exact (@blit_alpha_ok src x y c Hs b f). Qed.
Print Assumptions C47_alpha.

(** ** Findings *)
Definition white : color := from_rgb f32_255 f32_255 f32_255 f32_255.
Definition row3 (a b c : Z) : bitmap :=
  {| bm_w := 3; bm_h := 1; bm_at := fun i => if i =? 0 then a else if i =? 1 then b else if i =? 2 then c else 0 |}.
Definition pixels3 (o : outcome bitmap) : outcome (list Z) := do b <- o; Ok [pixel b 0 0; pixel b 1 0; pixel b 2 0].

(** A rectangle that begins left of the bitmap is moved right instead of clipped:
    two pixels from column -1 fill columns 0 and 1. *)
Theorem C47_fill_left_refuted : exists b x y w h c v,
  sized b /\ to_argb c = Ok v /\
  forall b', fill_rect b x y w h c = Ok b' -> ~ painted b b' (in_rect x y w h) (fun _ _ => v).
Proof.
  exists (row3 1 2 3), (-1), 0, 2, 1, white, 4294967295. split; [vm_compute; repeat split; congruence|]. split; [vm_compute; reflexivity|].
  intros b' E (_ & _ & _ & D). specialize (D 1 0). assert (P : pixels3 (Ok b') = Ok [4294967295; 4294967295; 3]) by (rewrite <- E; vm_compute; reflexivity).
  injection P as P0 P1 P2. rewrite D in P1; [vm_compute in P1; discriminate|vm_compute; repeat split; congruence|unfold in_rect; lia].
Qed.
Print Assumptions C47_fill_left_refuted.

(** A rectangle that begins right of the bitmap makes the program write outside. *)
Theorem C47_fill_right_refuted : exists b x y w h c v, sized b /\ to_argb c = Ok v /\ fill_rect b x y w h c = UB.
Proof.
  exists (row3 1 2 3), 4, 0, 2, 1, white, 4294967295. split; [vm_compute; repeat split; congruence|]. split; vm_compute; reflexivity.
Qed.
Print Assumptions C47_fill_right_refuted.

(** A copy placed left of the bitmap shows the wrong columns of its source. *)
Theorem C47_blit_left_refuted : exists b src x y,
  sized b /\ sized src /\
  forall b', blit b src x y = Ok b' -> ~ painted b b' (in_rect x y (bm_w src) (bm_h src)) (fun px py => pixel src (px - x) (py - y)).
Proof.
  exists (row3 1 2 3), (row3 7 8 9), (-1), 0. split; [vm_compute; repeat split; congruence|]. split; [vm_compute; repeat split; congruence|].
  intros b' E (_ & _ & C & _). assert (P : pixels3 (Ok b') = Ok [7; 8; 9]) by (rewrite <- E; vm_compute; reflexivity).
  injection P as P0 P1 P2. rewrite C in P0; [vm_compute in P0; discriminate|vm_compute; repeat split; congruence|unfold in_rect; cbn; lia].
Qed.
Print Assumptions C47_blit_left_refuted.

(** A copy placed right of the bitmap makes the program write outside. *)
Theorem C47_blit_right_refuted : exists b src x y, sized b /\ sized src /\ blit b src x y = UB.
Proof.
  exists (row3 1 2 3), (row3 7 8 9), 4, 0. split; [vm_compute; repeat split; congruence|]. split; [vm_compute; repeat split; congruence|vm_compute; reflexivity].
Qed.
Print Assumptions C47_blit_right_refuted.

(** The theorems speak about real drawings: clipped at the right, and blended over
    the left edge (an opaque red, a transparent and a half-transparent pixel). *)
Example C47_fill_example : pixels3 (fill_rect (row3 1 2 3) 1 0 9 5 white) = Ok [1; 4294967295; 4294967295].
Proof. vm_compute. reflexivity. Qed.
Example C47_blit_example : pixels3 (blit (row3 1 2 3) (row3 7 8 9) 2 0) = Ok [1; 2; 7].
Proof. vm_compute. reflexivity. Qed.
Example C47_alpha_example :
  pixels3 (blit_alpha (row3 4278190335 4278190335 5) (row3 7 4294901760 2164195328) (-1) 0 white) = Ok [4294901760; 3212836990; 5] /\
  over 2164195328 4278190335 white = Ok 3212836990.
Proof. vm_compute. split; reflexivity. Qed.
