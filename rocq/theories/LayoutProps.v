(** C30 - C36: the layout tables and the queries on them. *)
From Coq Require Import Lqa Qabs.
From Verif Require Import Base BaseFacts PackingModel PackingProofs LayoutModel LayoutSpec LayoutProofs LayoutGeomProofs LayoutCaretProofs
  LayoutCursorProofs LayoutHitProofs LayoutTableProofs.
Open Scope Z_scope.

(** A sample document: "abc" left to right, "DEF" right to left (one glyph for EF),
    "gh" and a separator on the first line; "j" on the second; an empty third. *)
Definition gl (id c : Z) (x : Q) : sglyph := {| sg_id := id; sg_char := c; sg_x := x; sg_y := 0 |}.
Definition mkrun (s e o : Z) (rtl : bool) (gs : list sglyph) (x : Q) : srun :=
  {| sr_font := 1; sr_start := s; sr_end := e; sr_offset := o; sr_rtl := rtl; sr_glyphs := gs; sr_end_x := x; sr_end_y := 0 |}.
Definition mkline (rs : list srun) (h : Q) : sline := {| sl_runs := rs; sl_height := h; sl_ascent := 8 |}.
Definition sample : sdoc :=
  [mkline [mkrun 0 3 0 false [gl 10 0 0; gl 11 1 10; gl 12 2 20] 30;
           mkrun 3 6 0 true [gl 13 4 30; gl 14 3 50] 60;
           mkrun 6 8 1 false [gl 15 6 60; gl 16 7 70] 80] 12;
   mkline [mkrun 9 10 1 false [gl 17 9 0] 10] 14;
   mkline [empty_run 1 11] 10].
Example sample_ok : doc_ok sample.
Proof. repeat constructor; discriminate. Qed.
Example sample_runs_ok : Forall run_ok (doc_runs sample).
Proof. unfold sample, doc_runs, run_ok. cbn -[Z.pow]. repeat constructor; cbn -[Z.pow]; lia. Qed.

(** ** C30 *)

(** Storing a document gives tables in which every line's runs and every run's
    glyphs are exactly the document's, one range after the other. *)
Theorem C30_tables_exact : forall d, doc_ok d -> exists l,
  lsteps lo_empty (doc_ops d) = Ok l /\
  length (lo_lines l) = length d /\ length (lo_runs l) = length (doc_runs d) /\ length (lo_glyphs l) = length (doc_glyphs d) /\
  (forall d1 s d2, d = d1 ++ s :: d2 ->
     get_first_run_index l (length d1) = Ok (length (doc_runs d1)) /\
     get_line_run_end_index l (length d1) = Ok (length (doc_runs d1) + length (sl_runs s))%nat) /\
  (forall pre r post, doc_runs d = pre ++ r :: post ->
     let G := count_glyphs pre in
     get_first_glyph_index l (length pre) = Ok G /\ get_run_glyph_end_index l (length pre) = Ok (G + run_len r)%nat /\
     get_run_glyph_count l (length pre) = Ok (run_len r) /\
     get_first_position_index l (length pre) = Ok (2 * (G + length pre))%nat /\
     vget (lo_runs l) (length pre) = Ok {| ru_font := sr_font r; ru_glyph_end := (G + run_len r)%nat;
       ru_start := sr_start r; ru_end := sr_end r; ru_offset := sr_offset r; ru_rtl := sr_rtl r |} /\
     (forall k, (k < run_len r)%nat ->
        vget (lo_glyphs l) (G + k) = vget (map sg_id (sr_glyphs r)) k /\ vget (lo_chars l) (G + k) = vget (run_chars r) k) /\
     (forall k, (k <= run_len r)%nat ->
        vget (lo_pos l) (2 * (G + length pre) + 2 * k) = vget (run_xs r) k /\
        vget (lo_pos l) (2 * (G + length pre) + 2 * k + 1) = vget (map sg_y (sr_glyphs r) ++ [sr_end_y r]) k)).
Proof.
  intros d OK. exists (layout_of d 0). split; [exact (build_layout 0 OK)|].
  split; [apply length_lo_lines|]. split; [apply length_lo_runs|]. split; [apply map_length|]. split.
  - intros d1 s d2 E. destruct (@doc_line_view d 0 d1 s d2 E) as (H1 & H2 & _). split; [exact H1|exact H2].
  - intros pre r post E G. destruct (@doc_run_view d 0 pre r post E) as (H1 & H2 & H3 & H4 & H5 & H6 & H7). fold G in H1, H2, H3, H4, H5, H6, H7.
    split; [exact H2|]. unfold get_run_glyph_count, get_run_glyph_end_index. rewrite H1. cbn [omap obind vrun_of ru_glyph_end].
    split; [reflexivity|]. rewrite H2. cbn [obind]. split; [f_equal; lia|]. split; [exact H3|]. split; [reflexivity|].
    split; intros k Hk; split; auto.
Qed.
Print Assumptions C30_tables_exact.

(** An empty line is a line with one run without characters or glyphs. *)
Theorem C30_empty_line : forall d font c h a, doc_ok d ->
  (do l <- lsteps lo_empty (doc_ops d); lstep l (LEmpty font c h a)) =
  Ok (layout_of (d ++ [{| sl_runs := [empty_run font c]; sl_height := h; sl_ascent := a |}]) 0).
Proof.
  intros. change lo_empty with (layout_of [] 0). rewrite build_layout by assumption. apply empty_line_step.
Qed.
Print Assumptions C30_empty_line.

(** After any history of building operations the ranges of runs and of lines follow
    each other without gap or overlap inside the tables; right after a run (a line)
    is stored they cover all glyphs (all runs). *)
Theorem C30_any_history : forall os l, lsteps lo_empty os = Ok l ->
  (forall i, (i < length (lo_runs l))%nat -> exists a b,
     get_first_glyph_index l i = Ok a /\ get_run_glyph_end_index l i = Ok b /\ get_first_glyph_index l (S i) = Ok b /\
     get_run_glyph_count l i = Ok (b - a)%nat /\ (a <= b <= length (lo_glyphs l))%nat) /\
  (forall i, (i < length (lo_lines l))%nat -> exists a b,
     get_first_run_index l i = Ok a /\ get_line_run_end_index l i = Ok b /\ get_first_run_index l (S i) = Ok b /\
     (a <= b <= length (lo_runs l))%nat) /\
  (forall l' f s e rtl, lstep l (LRun f s e rtl) = Ok l' ->
     lo_runs l' <> [] /\ get_run_glyph_end_index l' (length (lo_runs l') - 1) = Ok (length (lo_glyphs l'))) /\
  (forall l' h a, lstep l (LLine h a) = Ok l' ->
     lo_lines l' <> [] /\ get_line_run_end_index l' (length (lo_lines l') - 1) = Ok (length (lo_runs l'))) /\
  (forall l' f c h a, lstep l (LEmpty f c h a) = Ok l' ->
     lo_lines l' <> [] /\ get_line_run_end_index l' (length (lo_lines l') - 1) = Ok (length (lo_runs l'))).
Proof.
  intros os l H. destruct (history_ranges os H) as [H1 H2]. split; [exact H1|]. split; [exact H2|].
  split; [|split]; intros l'; apply (history_cover os l' H).
Qed.
Print Assumptions C30_any_history.
Example C30_witness : exists l, lsteps lo_empty (doc_ops sample) = Ok l /\ length (lo_runs l) = 5%nat /\ length (lo_glyphs l) = 8%nat /\
  get_first_glyph_index l 2 = Ok 5%nat /\ get_first_run_index l 1 = Ok 3%nat /\ lsteps lo_empty [LLine 1 1] = UB.
Proof. eexists. vm_compute. repeat split. Qed.

(** ** C31 *)

(** Line heights, the total height and where each line is placed. *)
Theorem C31_line_geometry : forall d y w a lay, doc_ok d -> stored d y lay ->
  (forall d1 s d2, d = d1 ++ s :: d2 ->
     (exists h, get_line_height lay (length d1) = Ok h /\ (h == sl_height s)%Q) /\
     exists x, get_line_x_start lay (length d1) w a = Ok x /\
       match a with
       | XLeft => (x == 0)%Q
       | XRight => (x + line_width s == w)%Q
       | XCenter => (x == w - (x + line_width s))%Q
       end) /\
  (get_text_height lay == heights d)%Q /\
  (exists calls, for_each_line lay w a = Ok calls /\ Forall2 call_eq calls (expected_calls w a 0 y d)).
Proof.
  intros d y w a lay OKD ST. pose proof (stored_eq OKD ST); subst lay. exact (@t_C31_line_geometry d y w a).
Qed.
Print Assumptions C31_line_geometry.

(** Line heights are non-negative. *)
Theorem C31_heights_nonnegative : forall d y i h lay, doc_ok d -> stored d y lay -> Forall (fun s => 0 <= sl_height s)%Q d ->
  (i < length d)%nat -> get_line_height lay i = Ok h -> (0 <= h)%Q.
Proof.
  intros d y i h lay OKD ST. pose proof (stored_eq OKD ST); subst lay. exact (@t_C31_heights_nonnegative d y i h).
Qed.
Print Assumptions C31_heights_nonnegative.

(** The text width is the widest line. *)
Theorem C31_text_width : forall d y lay, doc_ok d -> stored d y lay -> let w := get_text_width lay in
  (0 <= w)%Q /\ (forall s, In s d -> (line_width s <= w)%Q) /\ ((w == 0)%Q \/ exists s, In s d /\ w = line_width s).
Proof.
  intros d y lay OKD ST. pose proof (stored_eq OKD ST); subst lay. exact (@t_C31_text_width d y).
Qed.
Print Assumptions C31_text_width.

(** Vertical alignment: at the top, equal gaps, at the bottom. *)
Theorem C31_vertical_alignment : forall area height,
  (aligned_start_y YTop area height == 0)%Q /\
  (let y := aligned_start_y YCenter area height in y == area - (y + height))%Q /\
  (aligned_start_y YBottom area height + height == area)%Q.
Proof. intros. unfold aligned_start_y, yalign_value. split; [ring|]. split; [cbv zeta; ring|ring]. Qed.
Print Assumptions C31_vertical_alignment.

(** The line found for a height is the first one whose bottom reaches it. *)
Theorem C31_closest_line : forall d y q lay, doc_ok d -> stored d y lay -> Forall (fun s => 0 <= sl_height s)%Q d ->
  exists r, get_closest_line_to_height lay q = Ok r /\ (r <= length d)%nat /\
    (forall i, (i < r)%nat -> (bottom d i < q)%Q) /\ (forall i, (r <= i < length d)%nat -> (q <= bottom d i)%Q).
Proof.
  intros d y q lay OKD ST. pose proof (stored_eq OKD ST); subst lay. exact (@t_C31_closest_line d y q).
Qed.
Print Assumptions C31_closest_line.
Example C31_witness : Forall (fun s => 0 <= sl_height s)%Q sample /\
  get_closest_line_to_height (layout_of sample 0) 20 = Ok 1%nat /\ (get_text_width (layout_of sample 0) == 80)%Q /\
  (heights sample == 36)%Q.
Proof. split; [repeat constructor; discriminate|]. vm_compute. repeat split. Qed.

(** Documented (layout_info.hpp:87-90): past the last line the last line's index is
    returned.  It is the number of lines. *)
Theorem C31_past_end_refuted : exists d y q, doc_ok d /\ Forall (fun s => 0 <= sl_height s)%Q d /\ d <> [] /\
  get_closest_line_to_height (layout_of d y) q = Ok (length d).
Proof.
  exists sample, 0%Q, 40%Q. split; [exact sample_ok|]. split; [repeat constructor; discriminate|].
  split; [discriminate|]. vm_compute. reflexivity.
Qed.
Print Assumptions C31_past_end_refuted.

(** The vertical start of the text is left out of the search: with the sample placed
    at 100, the height of the middle of its first line is beyond the last line. *)
Theorem C31_start_ignored_refuted : exists d y q calls, doc_ok d /\
  for_each_line (layout_of d y) 80 XLeft = Ok calls /\
  (exists b, nth_error calls 0 = Some (0%nat, 0%Q, b) /\ (b - 8 < q)%Q /\ (q < b - 8 + 12)%Q) /\
  get_closest_line_to_height (layout_of d y) q = Ok (length d).
Proof.
  exists sample, 100%Q, 106%Q. eexists. split; [exact sample_ok|]. split; [vm_compute; reflexivity|].
  split; [|vm_compute; reflexivity]. eexists. split; [reflexivity|]. split; reflexivity.
Qed.
Print Assumptions C31_start_ignored_refuted.

(** [clear] is documented to clear all layout information; the vertical start stays. *)
Theorem C31_clear_keeps_start_refuted : exists os l, lsteps lo_empty os = Ok l /\ lsteps l [LClear] <> Ok lo_empty.
Proof. exists [LStartY 5]. eexists. split; [reflexivity|]. cbn. discriminate. Qed.
Print Assumptions C31_clear_keeps_start_refuted.

(** ** C32 *)

(** A position strictly inside a run: whatever the order of the runs, the run
    reported holds the position and the line reported is the line of that run. *)
Theorem C32_interior : forall d y c i r lay, doc_ok d -> stored d y lay -> nth_error (doc_runs d) i = Some r ->
  sr_start r < cp_get_position c < sr_end r + sr_offset r ->
  exists run line, get_run_containing_cursor lay c = Ok (Z.of_nat run, line) /\
    run_on_line d run line /\ run_holds d run (cp_get_position c).
Proof.
  intros d y c i r lay OKD ST. pose proof (stored_eq OKD ST); subst lay. intros; apply (@t_C32_interior d y c i r); assumption.
Qed.
Print Assumptions C32_interior.

(** Every position of the text and either affinity, when runs are stored in the
    order of the text. *)
Theorem C32_every_position : forall d y c r0 rn lay, doc_ok d -> stored d y lay -> joined d -> Forall run_ok (doc_runs d) ->
  nth_error (doc_runs d) 0 = Some r0 -> nth_error (doc_runs d) (length (doc_runs d) - 1) = Some rn ->
  sr_start r0 <= cp_get_position c <= sr_end rn + sr_offset rn ->
  exists run line, get_run_containing_cursor lay c = Ok (Z.of_nat run, line) /\
    run_on_line d run line /\ run_holds d run (cp_get_position c).
Proof.
  intros d y c r0 rn lay OKD ST. pose proof (stored_eq OKD ST); subst lay. intros; apply (@t_C32_every_position d y c r0 rn); assumption.
Qed.
Print Assumptions C32_every_position.

(** At a boundary between two runs. *)
Theorem C32_boundary_policy : forall d y c i k r q lay, doc_ok d -> stored d y lay -> joined d -> Forall run_ok (doc_runs d) ->
  nth_error (doc_runs d) i = Some r -> nth_error (doc_runs d) (S i) = Some q -> cp_get_position c = sr_start q -> run_on_line d i k ->
  (keeps_cursor d i k r q (cp_get_affinity c) ->
     get_run_containing_cursor lay c = Ok (Z.of_nat i, k)) /\
  (~ keeps_cursor d i k r q (cp_get_affinity c) ->
     exists line, get_run_containing_cursor lay c = Ok (Z.of_nat (S i), line) /\ run_on_line d (S i) line).
Proof.
  intros d y c i k r q lay OKD ST. pose proof (stored_eq OKD ST); subst lay. intros; apply (@t_C32_boundary_policy d y c i k r q); assumption.
Qed.
Print Assumptions C32_boundary_policy.
Definition logical_sample : sdoc :=
  [mkline [mkrun 0 3 0 false [gl 10 0 0; gl 11 1 10; gl 12 2 20] 30; mkrun 3 6 0 true [gl 13 4 30; gl 14 3 50] 60;
           mkrun 6 8 0 false [gl 15 6 60; gl 16 7 70] 80] 12;
   mkline [mkrun 8 9 1 false [gl 18 8 0] 10] 14; mkline [mkrun 10 10 0 false [] 0] 10].
Example C32_witness : joined logical_sample /\ doc_ok logical_sample /\ Forall run_ok (doc_runs logical_sample) /\
  get_run_containing_cursor (layout_of logical_sample 0) (cp_make 8) = Ok (3, 1%nat) /\
  get_run_containing_cursor (layout_of logical_sample 0) (make_cursor 8 true) = Ok (2, 0%nat) /\
  get_run_containing_cursor (layout_of logical_sample 0) (cp_make 10) = Ok (4, 2%nat).
Proof.
  split.
  { intros i r q. do 4 (destruct i as [|i]; [cbn; intros H1 H2; inversion H1; inversion H2; subst; cbn;
      split; [reflexivity|]; split; [reflexivity|]; intros k [H3 H4] H5; destruct k as [|[|[|k]]]; cbn in *; try reflexivity; try lia;
      exfalso; apply H5; split; cbn; lia|]).
    cbn. intros H1 H2. destruct i; discriminate. }
  split; [repeat constructor; discriminate|].
  split; [unfold logical_sample, doc_runs, run_ok; cbn -[Z.pow]; repeat constructor; cbn -[Z.pow]; lia|].
  vm_compute. repeat split.
Qed.

(** Where the direction changes at a line start, the position is lost: the second
    line begins at 7, the cursor 7 is reported on the third. *)
Theorem C32_line_start_refuted : exists d y c i r, doc_ok d /\ Forall run_ok (doc_runs d) /\
  nth_error (doc_runs d) i = Some r /\ sr_start r <= cp_get_position c <= sr_end r /\
  exists run line, get_run_containing_cursor (layout_of d y) c = Ok (Z.of_nat run, line) /\ ~ run_holds d run (cp_get_position c).
Proof.
  exists [mkline [mkrun 0 6 1 true [gl 1 0 0] 10] 10; mkline [mkrun 7 10 1 false [gl 1 7 0] 10] 10;
          mkline [mkrun 11 14 0 false [gl 1 11 0] 10] 10], 0%Q, (cp_make 7), 1%nat. eexists.
  split; [repeat constructor; discriminate|].
  split; [unfold doc_runs, run_ok; cbn -[Z.pow]; repeat constructor; cbn -[Z.pow]; lia|].
  split; [reflexivity|]. split; [vm_compute; split; discriminate|].
  exists 2%nat, 2%nat. split; [vm_compute; reflexivity|]. intros (r & E & H). vm_compute in E. inversion E; subst. vm_compute in H. destruct H as [H _]. apply H. reflexivity.
Qed.
Print Assumptions C32_line_start_refuted.

(** A right-to-left line with a left-to-right run in the middle, in visual order:
    position 3, where that run begins, is reported on the next line. *)
Theorem C32_visual_order_refuted : exists d y c i r, doc_ok d /\ Forall run_ok (doc_runs d) /\
  nth_error (doc_runs d) i = Some r /\ sr_start r <= cp_get_position c <= sr_end r /\
  exists run line, get_run_containing_cursor (layout_of d y) c = Ok (Z.of_nat run, line) /\ ~ run_holds d run (cp_get_position c).
Proof.
  exists [mkline [mkrun 6 9 0 true [gl 1 6 0] 10; mkrun 3 6 0 false [gl 1 3 10] 20; mkrun 0 3 0 true [gl 1 0 20] 30] 10;
          mkline [mkrun 9 12 0 true [gl 1 9 0] 10] 10], 0%Q, (cp_make 3), 1%nat. eexists.
  split; [repeat constructor; discriminate|].
  split; [unfold doc_runs, run_ok; cbn -[Z.pow]; repeat constructor; cbn -[Z.pow]; lia|].
  split; [reflexivity|]. split; [vm_compute; split; discriminate|].
  exists 3%nat, 1%nat. split; [vm_compute; reflexivity|]. intros (r & E & H). vm_compute in E. inversion E; subst. vm_compute in H. destruct H as [H _]. apply H. reflexivity.
Qed.
Print Assumptions C32_visual_order_refuted.

(** Documented (layout_info.hpp:73-79): by default left-to-right before right-to-left
    gives the end of the current run.  It gives the next run. *)
Theorem C32_documented_policy_refuted : exists d y i r q, doc_ok d /\ joined d /\
  nth_error (doc_runs d) i = Some r /\ nth_error (doc_runs d) (S i) = Some q /\ sr_rtl r = false /\ sr_rtl q = true /\
  get_run_containing_cursor (layout_of d y) (cp_make (sr_end r)) = Ok (Z.of_nat (S i), 0%nat).
Proof.
  exists logical_sample, 0%Q, 0%nat. do 2 eexists. destruct C32_witness as (J & O & _).
  split; [exact O|]. split; [exact J|]. split; [reflexivity|]. split; [reflexivity|].
  split; [reflexivity|]. split; [reflexivity|]. vm_compute. reflexivity.
Qed.
Print Assumptions C32_documented_policy_refuted.

(** On an empty layout the run is [size_t(-1)], which the caller indexes with. *)
Theorem C32_empty_layout_refuted : exists w a c, get_run_containing_cursor lo_empty c = Ok (-1, 0%nat) /\
  calc_cursor_pixel_pos lo_empty w a c = UB.
Proof. exists 0%Q, XLeft, 0. split; vm_compute; reflexivity. Qed.
Print Assumptions C32_empty_layout_refuted.

(** ** C33 *)

(** Every position of a run has a caret offset; it lies between the run's left and
    right edges, is the edge of a glyph at the first glyph of a group of
    characters, and moves in the direction of the run. *)
Theorem C33_caret : forall d y pre r post lay, doc_ok d -> stored d y lay -> doc_runs d = pre ++ r :: post -> run_ok r -> qnondecreasing (run_xs r) ->
  forall p, sr_start r <= p <= sr_end r -> exists x, get_glyph_offset_in_run lay (length pre) p = Ok x /\
  (run_first_x r <= x <= sr_end_x r)%Q /\
  (forall k, (k <= run_len r)%nat -> nth k (logical_chars r) (sr_end r) = p ->
     (forall j, (j < k)%nat -> nth j (logical_chars r) (sr_end r) < p) -> (x == nth k (logical_xs r) 0)%Q) /\
  (forall q, p <= q <= sr_end r -> exists z, get_glyph_offset_in_run lay (length pre) q = Ok z /\ reads r x z).
Proof.
  intros d y pre r post lay OKD ST. pose proof (stored_eq OKD ST); subst lay. exact (@t_C33_caret d y pre r post).
Qed.
Print Assumptions C33_caret.

(** Inside a group of characters the offset is the exact linear interpolation. *)
Theorem C33_interpolation : forall d y pre r post lay, doc_ok d -> stored d y lay -> doc_runs d = pre ++ r :: post -> run_ok r ->
  forall p k, (k < run_len r)%nat -> nth k (logical_chars r) (sr_end r) < p <= char_after r k ->
  exists x, get_glyph_offset_in_run lay (length pre) p = Ok x /\
  (x == lerp (nth k (logical_xs r) 0) (nth (S k) (logical_xs r) 0) (nth k (logical_chars r) (sr_end r)) (char_after r k) p)%Q.
Proof.
  intros d y pre r post lay OKD ST. pose proof (stored_eq OKD ST); subst lay. exact (@t_C33_interpolation d y pre r post).
Qed.
Print Assumptions C33_interpolation.
Example C33_witness : run_ok (mkrun 3 6 0 true [gl 13 4 30; gl 14 3 50] 60) /\
  qnondecreasing (run_xs (mkrun 3 6 0 true [gl 13 4 30; gl 14 3 50] 60)) /\
  exists x, get_glyph_offset_in_run (layout_of sample 0) 1 5 = Ok x /\ (x == 40)%Q.
Proof.
  split; [unfold run_ok; cbn -[Z.pow]; repeat constructor; cbn -[Z.pow]; lia|].
  split; [cbn; repeat split; discriminate|]. eexists. split; vm_compute; reflexivity.
Qed.

(** Documented (layout_info.hpp:114-118) only for start < cursor <= end; [start]
    itself is covered above.  In a run without glyphs the one caret is its edge. *)
Theorem C33_empty_run : forall d y pre r post lay, doc_ok d -> stored d y lay -> doc_runs d = pre ++ r :: post -> run_ok r -> sr_glyphs r = [] ->
  exists x, get_glyph_offset_in_run lay (length pre) (sr_start r) = Ok x /\ (x == sr_end_x r)%Q.
Proof.
  intros d y pre r post lay OKD ST. pose proof (stored_eq OKD ST); subst lay. exact (@t_C33_empty_run d y pre r post).
Qed.
Print Assumptions C33_empty_run.

(** ** C34 *)

(** The range of a selection in a run: ordered, inside the run, and made of the
    offsets of the two ends cut to the run. *)
Theorem C34_position_range : forall d y pre r post lay, doc_ok d -> stored d y lay -> doc_runs d = pre ++ r :: post -> run_ok r -> qnondecreasing (run_xs r) ->
  forall first last, first <= last ->
  let cut p := Z.max (Z.min p (sr_end r)) (sr_start r) in
  exists a b, get_position_range_in_run lay (length pre) first last = Ok (a, b) /\
    (run_first_x r <= a)%Q /\ (a <= b)%Q /\ (b <= sr_end_x r)%Q /\
    get_glyph_offset_in_run lay (length pre) (cut first) = Ok (if sr_rtl r then b else a) /\
    get_glyph_offset_in_run lay (length pre) (cut last) = Ok (if sr_rtl r then a else b).
Proof.
  intros d y pre r post lay OKD ST. pose proof (stored_eq OKD ST); subst lay. exact (@t_C34_position_range d y pre r post).
Qed.
Print Assumptions C34_position_range.

(** The intersection test, for non-empty ranges and runs. *)
Theorem C34_contains_range : forall d y pre r post lay, doc_ok d -> stored d y lay -> doc_runs d = pre ++ r :: post ->
  forall first last, first < last -> sr_start r < sr_end r ->
  exists b, run_contains_char_range lay (length pre) first last = Ok b /\
    (b = true <-> exists c, first <= c < last /\ sr_start r <= c < sr_end r).
Proof.
  intros d y pre r post lay OKD ST. pose proof (stored_eq OKD ST); subst lay. exact (@t_C34_contains_range d y pre r post).
Qed.
Print Assumptions C34_contains_range.
Example C34_witness : (exists a b, get_position_range_in_run (layout_of sample 0) 1 4 100 = Ok (a, b) /\ (a == 30)%Q /\ (b == 50)%Q) /\
  run_contains_char_range (layout_of sample 0) 1 5 8 = Ok true /\ run_contains_char_range (layout_of sample 0) 1 6 8 = Ok false.
Proof.
  split; [|split; vm_compute; reflexivity]. do 2 eexists. split; [vm_compute; reflexivity|]. split; [vm_compute; reflexivity|vm_compute; reflexivity].
Qed.

(** An empty range strictly inside a run counts as intersecting it. *)
Theorem C34_empty_range_refuted : exists d y p, doc_ok d /\ run_contains_char_range (layout_of d y) 0 p p = Ok true.
Proof. exists sample, 0%Q, 1. split; [exact sample_ok|reflexivity]. Qed.
Print Assumptions C34_empty_range_refuted.

(** ** C35 *)

(** The search ends, for every iterator that moves forward. *)
Theorem C35_terminates : forall following d y k s w al x lay, doc_ok d -> stored d y lay -> forward following ->
  nth_error d k = Some s -> sl_runs s <> [] -> Forall run_ok (sl_runs s) ->
  exists c, find_closest_cursor_position following lay w al k x = Ok c.
Proof.
  intros following d y k s w al x lay OKD ST. pose proof (stored_eq OKD ST); subst lay. exact (@t_C35_terminates following d y k s w al x).
Qed.
Print Assumptions C35_terminates.

(** For every pixel position the result is a caret stop of the line, when glyphs
    begin at caret stops. *)
Theorem C35_legal : forall B following d y k s w al x lay, doc_ok d -> stored d y lay -> walks B following -> nth_error d k = Some s -> sl_runs s <> [] ->
  Forall run_ok (sl_runs s) -> Forall (begins_at_stops B) (sl_runs s) ->
  exists c r, find_closest_cursor_position following lay w al k x = Ok c /\
    In r (sl_runs s) /\ B (cp_get_position c) /\ sr_start r <= cp_get_position c <= sr_end r.
Proof.
  intros B following d y k s w al x lay OKD ST. pose proof (stored_eq OKD ST); subst lay. exact (@t_C35_legal B following d y k s w al x).
Qed.
Print Assumptions C35_legal.

(** No caret stop of the line is nearer to the click than the one returned, when
    every group of characters has one glyph, positions do not go left and runs
    touch. *)
Theorem C35_nearest : forall B following d y k s w al x lay, doc_ok d -> stored d y lay -> walks B following -> nth_error d k = Some s -> sl_runs s <> [] ->
  Forall run_ok (sl_runs s) -> Forall (begins_at_stops B) (sl_runs s) ->
  Forall (fun r => increasing (logical_chars r)) (sl_runs s) ->
  Forall (fun r => qnondecreasing (run_xs r)) (sl_runs s) -> adjacent (sl_runs s) ->
  let l := lay in
  let first := length (doc_runs (firstn k d)) in
  let caret j p X := exists r, nth_error (sl_runs s) j = Some r /\ sr_start r <= p <= sr_end r /\
                               get_glyph_offset_in_run l (first + j) p = Ok X in
  exists x0 c j X, get_line_x_start l k w al = Ok x0 /\
    find_closest_cursor_position following l w al k x = Ok c /\ B (cp_get_position c) /\ caret j (cp_get_position c) X /\
    forall i p Y, B p -> caret i p Y -> (Qabs (x - x0 - X) <= Qabs (x - x0 - Y))%Q.
Proof.
  intros B following d y k s w al x lay OKD ST. pose proof (stored_eq OKD ST); subst lay. exact (@t_C35_nearest B following d y k s w al x).
Qed.
Print Assumptions C35_nearest.

(** Clicking exactly at a caret gives back its position, if no other caret of the
    line is at that pixel. *)
Theorem C35_round_trip : forall B following d y k s w al lay, doc_ok d -> stored d y lay -> walks B following -> nth_error d k = Some s -> sl_runs s <> [] ->
  Forall run_ok (sl_runs s) -> Forall (begins_at_stops B) (sl_runs s) ->
  Forall (fun r => increasing (logical_chars r)) (sl_runs s) ->
  Forall (fun r => qnondecreasing (run_xs r)) (sl_runs s) -> adjacent (sl_runs s) ->
  let l := lay in
  let first := length (doc_runs (firstn k d)) in
  let caret j p X := exists r, nth_error (sl_runs s) j = Some r /\ sr_start r <= p <= sr_end r /\
                               get_glyph_offset_in_run l (first + j) p = Ok X in
  forall j p X x0, B p -> caret j p X -> get_line_x_start l k w al = Ok x0 ->
  (forall i q Y, B q -> caret i q Y -> (Y == X)%Q -> q = p) ->
  exists c, find_closest_cursor_position following l w al k (x0 + X)%Q = Ok c /\ cp_get_position c = p.
Proof.
  intros B following d y k s w al lay OKD ST. pose proof (stored_eq OKD ST); subst lay. exact (@t_C35_round_trip B following d y k s w al).
Qed.
Print Assumptions C35_round_trip.

(** In left-to-right text the cursor is then shown on the line that was clicked. *)
Theorem C35_on_line : forall B following d y k s w al x lay, doc_ok d -> stored d y lay -> walks B following -> joined d -> Forall run_ok (doc_runs d) ->
  Forall (fun r => sr_rtl r = false) (doc_runs d) ->
  (forall i r q, nth_error (doc_runs d) i = Some r -> nth_error (doc_runs d) (S i) = Some q -> sr_start q = sr_end q -> sr_offset r <> 0) ->
  nth_error d k = Some s -> Forall (begins_at_stops B) (sl_runs s) ->
  exists c run, find_closest_cursor_position following lay w al k x = Ok c /\
    get_run_containing_cursor lay c = Ok (run, k).
Proof.
  intros B following d y k s w al x lay OKD ST. pose proof (stored_eq OKD ST); subst lay. intros; apply (@t_C35_on_line B following d y k s w al x); assumption.
Qed.
Print Assumptions C35_on_line.

(** Caret stops at every character below 12. *)
Definition each (c : Z) : Z := if c <? 11 then c + 1 else -1.
Example C35_witness : walks (fun c => 0 <= c <= 11) each /\
  Forall (begins_at_stops (fun c => 0 <= c <= 11)) (doc_runs sample) /\
  Forall (fun r => increasing (logical_chars r)) (doc_runs sample) /\
  Forall (fun r => qnondecreasing (run_xs r)) (doc_runs sample) /\ Forall (fun s => adjacent (sl_runs s)) sample /\
  find_closest_cursor_position each (layout_of sample 0) 100 XRight 0 (20 + 44) = Ok 5.
Proof.
  split.
  { intros c Hc. unfold each. destruct (Z.ltb_spec c 11); [right|left]; repeat split; intros; lia. }
  split; [unfold sample, doc_runs, begins_at_stops; cbn; repeat constructor; cbn; lia|].
  split; [unfold sample, doc_runs; cbn; repeat constructor; cbn; lia|].
  split; [unfold sample, doc_runs; cbn; repeat constructor; cbn; discriminate|].
  split; [unfold sample; repeat constructor; cbn; repeat split; reflexivity|vm_compute; reflexivity].
Qed.
Definition ltr_sample : sdoc :=
  [mkline [mkrun 0 2 0 false [gl 10 0 0; gl 11 1 10] 20; mkrun 2 3 0 false [gl 12 2 20] 30] 12;
   mkline [mkrun 3 5 1 false [gl 13 3 0; gl 14 4 10] 20] 12; mkline [mkrun 6 6 0 false [] 0] 12].
Example C35_on_line_witness : joined ltr_sample /\ doc_ok ltr_sample /\ Forall run_ok (doc_runs ltr_sample) /\
  find_closest_cursor_position each (layout_of ltr_sample 0) 100 XLeft 0 29 = Ok (2 ^ 31 + 3).
Proof.
  split.
  { intros i r q. do 3 (destruct i as [|i]; [cbn; intros H1 H2; inversion H1; inversion H2; subst; cbn;
      split; [reflexivity|]; split; reflexivity|]). cbn. intros H1 H2. destruct i; discriminate. }
  split; [repeat constructor; discriminate|].
  split; [unfold ltr_sample, doc_runs, run_ok; cbn -[Z.pow]; repeat constructor; cbn -[Z.pow]; lia|]. vm_compute. reflexivity.
Qed.

(** In right-to-left text the edges of a soft break have the wrong affinity: a click
    left of the first line gives a cursor shown on the second, a click right of the
    second a cursor shown on the first. *)
Theorem C35_rtl_soft_break_refuted : exists B following d y w al x x' c c' run run',
  walks B following /\ doc_ok d /\ joined d /\ Forall run_ok (doc_runs d) /\ Forall (begins_at_stops B) (doc_runs d) /\
  find_closest_cursor_position following (layout_of d y) w al 0 x = Ok c /\
  get_run_containing_cursor (layout_of d y) c = Ok (run, 1%nat) /\
  find_closest_cursor_position following (layout_of d y) w al 1 x' = Ok c' /\
  get_run_containing_cursor (layout_of d y) c' = Ok (run', 0%nat).
Proof.
  exists (fun c => 0 <= c <= 11), each,
    [mkline [mkrun 0 2 0 true [gl 1 1 0; gl 1 0 10] 20] 10; mkline [mkrun 2 4 0 true [gl 1 3 0; gl 1 2 10] 20] 10], 0%Q, 20%Q, XLeft, 0%Q, 30%Q.
  do 4 eexists. split; [exact (proj1 C35_witness)|]. split; [repeat constructor; discriminate|]. split.
  { intros i r q. destruct i as [|i]; [cbn; intros H1 H2; inversion H1; inversion H2; subst; cbn; split; [reflexivity|]; split; reflexivity|].
    cbn. intros H1 H2. destruct i; [discriminate|destruct i; discriminate]. }
  split; [unfold doc_runs, run_ok; cbn -[Z.pow]; repeat constructor; cbn -[Z.pow]; lia|].
  split; [unfold doc_runs, begins_at_stops; cbn; repeat constructor; cbn; lia|].
  split; [vm_compute; reflexivity|]. split; [vm_compute; reflexivity|]. split; [vm_compute; reflexivity|vm_compute; reflexivity].
Qed.
Print Assumptions C35_rtl_soft_break_refuted.

(** When a caret stop group straddles the end of a line (no stop at 2), a click near
    the end of the first line gives position 3, which is on the second. *)
Theorem C35_straddling_refuted : exists B following d y w al x c,
  walks B following /\ doc_ok d /\ Forall run_ok (doc_runs d) /\
  find_closest_cursor_position following (layout_of d y) w al 0 x = Ok c /\
  forall s r, nth_error d 0 = Some s -> In r (sl_runs s) -> sr_end r < cp_get_position c.
Proof.
  exists (fun c => c = 0 \/ c = 3), (fun c => if c <? 3 then 3 else -1),
    [mkline [mkrun 0 2 0 false [gl 1 0 0] 20] 10; mkline [mkrun 2 3 0 false [gl 1 2 0] 10] 10], 0%Q, 20%Q, XLeft, 18%Q.
  eexists. split.
  { intros c Hc. destruct (Z.ltb_spec c 3); [right|left]; repeat split; intros; lia. }
  split; [repeat constructor; discriminate|].
  split; [unfold doc_runs, run_ok; cbn -[Z.pow]; repeat constructor; cbn -[Z.pow]; lia|].
  split; [vm_compute; reflexivity|]. intros s r E H. inversion E; subst. destruct H as [<-|[]]. reflexivity.
Qed.
Print Assumptions C35_straddling_refuted.

(** When a group of characters has two glyphs, a farther caret may win: carets at 0
    and 20, the click at 12 gives the caret at 0. *)
Theorem C35_two_glyphs_refuted : exists B following d y w al x c X Y,
  walks B following /\ doc_ok d /\ Forall run_ok (doc_runs d) /\ Forall (begins_at_stops B) (doc_runs d) /\
  find_closest_cursor_position following (layout_of d y) w al 0 x = Ok c /\
  get_glyph_offset_in_run (layout_of d y) 0 (cp_get_position c) = Ok X /\
  B 1 /\ get_glyph_offset_in_run (layout_of d y) 0 1 = Ok Y /\ (Qabs (x - Y) < Qabs (x - X))%Q.
Proof.
  exists (fun c => 0 <= c <= 11), each, [mkline [mkrun 0 1 0 false [gl 1 0 0; gl 2 0 10] 20] 10], 0%Q, 20%Q, XLeft, 12%Q.
  do 3 eexists. split; [exact (proj1 C35_witness)|]. split; [repeat constructor; discriminate|].
  split; [unfold doc_runs, run_ok; cbn -[Z.pow]; repeat constructor; cbn -[Z.pow]; lia|].
  split; [unfold doc_runs, begins_at_stops; cbn; repeat constructor; cbn; lia|].
  split; [vm_compute; reflexivity|]. split; [vm_compute; reflexivity|]. split; [lia|]. split; [vm_compute; reflexivity|]. vm_compute. reflexivity.
Qed.
Print Assumptions C35_two_glyphs_refuted.

(** ** C36 *)

(** The line start comes from the run that ends first.  It is the smallest position
    of the line if that run is left to right; otherwise it is that run's end. *)
Theorem C36_line_start_partial : forall d y k s lay, doc_ok d -> stored d y lay -> nth_error d k = Some s -> sl_runs s <> [] -> Forall run_ok (sl_runs s) ->
  (forall r q, In r (sl_runs s) -> In q (sl_runs s) -> r = q \/ sr_end r <= sr_start q \/ sr_end q <= sr_start r) ->
  (forall r, In r (sl_runs s) -> sr_start r < sr_end r \/ sl_runs s = [r]) ->
  exists c r, get_line_start_position lay k = Ok c /\ In r (sl_runs s) /\
    (forall q, In q (sl_runs s) -> sr_start r <= sr_start q) /\
    (sr_rtl r = false -> cp_get_position c = sr_start r /\ cp_get_affinity c = ADefault) /\
    (sr_rtl r = true -> cp_get_position c = sr_end r).
Proof.
  intros d y k s lay OKD ST. pose proof (stored_eq OKD ST); subst lay. exact (@t_C36_line_start_partial d y k s).
Qed.
Print Assumptions C36_line_start_partial.

(** The line end comes from the run that ends last.  It is the largest position of
    the line if that run is left to right; otherwise it is that run's start. *)
Theorem C36_line_end_partial : forall d y k s lay, doc_ok d -> stored d y lay -> nth_error d k = Some s -> sl_runs s <> [] -> Forall run_ok (sl_runs s) ->
  exists c j r, get_line_end_position lay k = Ok c /\ nth_error (sl_runs s) j = Some r /\
    (forall q, In q (sl_runs s) -> sr_end q <= sr_end r) /\
    (sr_rtl r = false -> cp_get_position c = sr_end r) /\ (sr_rtl r = true -> cp_get_position c = sr_start r) /\
    cp_get_affinity c = (if (S j =? length (sl_runs s))%nat && (sr_offset r =? 0) then AOpposite else ADefault).
Proof.
  intros d y k s lay OKD ST. pose proof (stored_eq OKD ST); subst lay. exact (@t_C36_line_end_partial d y k s).
Qed.
Print Assumptions C36_line_end_partial.

(** In left-to-right text both are shown on the line they were asked for. *)
Theorem C36_on_line : forall d y k s c lay, doc_ok d -> stored d y lay -> joined d -> Forall run_ok (doc_runs d) ->
  Forall (fun r => sr_rtl r = false) (doc_runs d) ->
  (forall i r q, nth_error (doc_runs d) i = Some r -> nth_error (doc_runs d) (S i) = Some q -> sr_start q = sr_end q -> sr_offset r <> 0) ->
  nth_error d k = Some s ->
  get_line_start_position lay k = Ok c \/ get_line_end_position lay k = Ok c ->
  exists run, get_run_containing_cursor lay c = Ok (run, k).
Proof.
  intros d y k s c lay OKD ST. pose proof (stored_eq OKD ST); subst lay. intros; apply (@t_C36_on_line d y k s c); assumption.
Qed.
Print Assumptions C36_on_line.
Example C36_witness : get_line_start_position (layout_of sample 0) 0 = Ok 0 /\ get_line_end_position (layout_of sample 0) 0 = Ok 8 /\
  get_line_end_position (layout_of ltr_sample 0) 0 = Ok (2 ^ 31 + 3).
Proof. vm_compute. repeat split. Qed.

(** In a right-to-left line the start is the largest position and the end the
    smallest. *)
Theorem C36_rtl_refuted : exists d y c c' s r, doc_ok d /\ Forall run_ok (doc_runs d) /\ nth_error d 0 = Some s /\ In r (sl_runs s) /\
  get_line_start_position (layout_of d y) 0 = Ok c /\ get_line_end_position (layout_of d y) 0 = Ok c' /\
  sr_start r < sr_end r /\ cp_get_position c = sr_end r /\ cp_get_position c' = sr_start r.
Proof.
  exists [mkline [mkrun 0 2 1 true [gl 1 1 0; gl 1 0 10] 20] 10], 0%Q. do 4 eexists.
  split; [repeat constructor; discriminate|].
  split; [unfold doc_runs, run_ok; cbn -[Z.pow]; repeat constructor; cbn -[Z.pow]; lia|].
  split; [reflexivity|]. split; [left; reflexivity|]. split; [vm_compute; reflexivity|]. split; [vm_compute; reflexivity|].
  split; [reflexivity|]. split; reflexivity.
Qed.
Print Assumptions C36_rtl_refuted.
