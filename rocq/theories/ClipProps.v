(** C46: rectangles under a highlight. *)
From Coq Require Import Lqa.
From Verif Require Import Base ClipModel ClipSpec ClipProofs.
Open Scope Q_scope.

(** Every column of the rectangle is drawn by exactly one of the pieces and nothing is drawn
    beside it; each piece has the rectangle's top, height and vertical texture range and shows
    at every column the texture column that the whole rectangle shows there; columns inside
    the highlight are white; columns outside are in the rectangle's own colour unless less than
    one pixel of the rectangle sticks out on that side of the highlight. *)
Theorem C46_tiles : forall x y w h u v uw vh clip,
  (forall first second, clip = Some (first, second) -> first <= second) ->
  let rs := emit_rect x y w h u v uw vh clip in
  (forall r t, In r rs -> covers r t -> x <= t /\ t < x + w) /\
  (forall t, x <= t -> t < x + w ->
    exists r, drawn_by rs t r /\
      (r_y r = y /\ r_h r = h /\ r_v r = v /\ r_vh r = vh /\ texel (r_x r) (r_w r) (r_u r) (r_uw r) t == texel x w u uw t) /\
      match clip with
      | None => r_white r = false
      | Some (first, second) =>
          (first <= t /\ t < second -> r_white r = true) /\
          (t < first -> r_white r = true -> x < first /\ first < x + 1) /\
          (second <= t -> r_white r = true -> second < x + w /\ x + w < second + 1)
      end).
Proof.
  intros x y w h u v uw vh [[first second]|] HC; cbv zeta.
  - pose proof (@emit_clip_ok x y w h u v uw vh first second (HC _ _ eq_refl)) as [A B]. split; [exact A|].
    intros t T1 T2. destruct (B t T1 T2) as (r & D & (F1 & F2 & F3 & F4 & F5) & C1 & C2 & C3 & C4 & C5).
    exists r. split; [exact D|]. split.
    + split; [exact F1|]. split; [exact F2|]. split; [exact F3|]. split; [exact F4|]. apply F5. destruct D as (? & ? & _ & D & _). exact D.
    + split; [intros [X1 X2]; exact (C1 X1 X2)|]. split; intros X W.
      * split; [lra|]. destruct (Qlt_le_dec first (x + 1)) as [L|L]; [exact L|]. rewrite (C2 X L) in W. discriminate.
      * assert (second < x + w) by lra. split; [assumption|]. destruct (Qlt_le_dec (x + w) (second + 1)) as [L|L]; [exact L|]. rewrite (C3 X L) in W. discriminate.
  - cbn. split; [intros r t [<-|[]] [C1 C2]; cbn in *; auto|]. intros t T1 T2. eexists. split; [apply one; split; cbn; assumption|].
    cbn. repeat split; reflexivity.
Qed.
Print Assumptions C46_tiles.

(** A highlight in the middle of a rectangle 10 wide: three pieces. *)
Example tiles_case : map (fun r => (Qred (r_x r), Qred (r_w r), Qred (r_u r), r_white r)) (emit_rect 5 0 10 8 0 0 1 1 (Some (8, 12)))
  = [(5, 3, 0, false); (12, 3, 7 # 10, false); (8, 4, 3 # 10, true)].
Proof. reflexivity. Qed.

(** The white part is not exactly the highlighted part. *)
Theorem C46_sliver_refuted : exists x w first second t r,
  first <= second /\ x <= t /\ t < x + w /\ t < first /\
  drawn_by (emit_rect x 0 w 1 0 0 1 1 (Some (first, second))) t r /\ r_white r = true.
Proof.
  exists 0, 10, (1 # 2), 10, 0. eexists. repeat split; try (unfold Qlt, Qle; cbn; lia).
  - exists [], []. split; [reflexivity|]. split; [split; cbn; unfold Qle, Qlt; cbn; lia|constructor].
  - reflexivity.
Qed.
Print Assumptions C46_sliver_refuted.

(** For text that starts at the left of its area the glyphs are drawn white exactly where
    the highlight box is. *)
Theorem C46_box_partial : forall position_x line_x range, line_x == 0 ->
  let box := highlight_box position_x line_x range in
  fst (highlight_clip position_x range) == fst box /\ snd (highlight_clip position_x range) == fst box + snd box.
Proof. intros px lx [a b] H. cbn. split; rewrite H; ring. Qed.
Print Assumptions C46_box_partial.
Example box_case : highlight_box 10 0 (3, 8) = (13, 5) /\ highlight_clip 10 (3, 8) = (13, 18).
Proof. split; reflexivity. Qed.

(** For every other line the two differ: the white part misses the line's offset. *)
Theorem C46_box_refuted : forall position_x line_x range, ~ line_x == 0 ->
  ~ fst (highlight_clip position_x range) == fst (highlight_box position_x line_x range).
Proof. intros px lx [a b] H E. apply H. cbn in E. lra. Qed.
Print Assumptions C46_box_refuted.
