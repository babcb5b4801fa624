(** C91: what the screen shows of a text and its selection. *)
From Coq Require Import Lqa.
From Verif Require Import Base PackingModel ValueRunsModel ValueRunsSpec FloatModel ColorModel FormattingModel FormattingIterModel
  FormattingIterSpec FormattingIterProps LayoutModel LayoutSpec LayoutProofs LayoutProps DrawModel DrawSpec DrawProofs DrawProps
  ClipModel ClipSpec ScreenModel ScreenSpec ScreenProofs.
Open Scope Z_scope.

(** Behind everything else each run with selected characters gets one box, from the caret at the
    start of the selection to the caret at its end and from the top of its line to the bottom.
    Then every glyph, stroke and line the library asks for is shown at its place, each of its
    columns once.  It is white over the box and has its own colour beside it; strokes keep theirs.
    Full statement: for every text and alignment, and exactly.  Proved: the colours of selected
    text for lines that start at the left of the area, and up to parts narrower than a pixel. *)
Theorem C91_screen_partial : forall vars glyph_info stroke_info plain fm f n d y w a lay px py anchor cursor sel,
  tables_for n f -> doc_ok d -> stored d y lay -> Forall (run_in_text n) (doc_runs d) ->
  Forall run_ok (doc_runs d) -> Forall (fun r => qnondecreasing (run_xs r)) (doc_runs d) -> selects anchor cursor sel ->
  let ps := places w a 0 0 y d in
  exists calls boxes pieces aids, draw_text fm lay (views_of f) w a = Ok calls /\
    draw_formatted vars glyph_info stroke_info plain fm lay (views_of f) px py w a anchor cursor
      = Ok (List.concat boxes ++ List.concat pieces ++ aids) /\
    match sel with
    | None => boxes = []
    | Some (s, e) => Forall2 (box_drawn plain lay d y px py s e) ps boxes
    end /\
    Forall2 (fun rc ds => exists p, nth_error ps (fst rc) = Some p /\
      call_drawn vars glyph_info stroke_info plain lay px py sel p (snd rc) ds) (under 0 calls) pieces /\
    outlines_only aids /\ (cv_run_outlines vars = false -> cv_boundaries vars = false -> aids = []).
Proof.
  intros vars gi si plain fm f n d y w a lay px py anchor cursor sel Hf OKD ST T RO MO SL ps. pose proof (stored_eq OKD ST); subst lay.
  destruct (@draw_text_of f n Hf fm d y w a T) as (segs & E & _). set (calls := List.concat segs) in *.
  destruct (for_each_run_of d y w a) as (rc & Er & Fr).
  assert (SE : selection anchor cursor = sel /\ range_ok sel).
  { unfold selection. destruct SL as [[-> ->]|[-> ->]]; [split; [reflexivity|exact I]|]. cbn [range_ok]. split; [|lia].
    destruct (Z.ltb_spec (cp_get_position cursor) (cp_get_position anchor)); f_equal; f_equal; lia. }
  destruct SE as [SE RK].
  assert (B : exists boxes, match sel with Some (s, e) => highlight plain (layout_of d y) px py s e rc | None => Ok [] end = Ok (List.concat boxes) /\
    match sel with None => boxes = [] | Some (s, e) => Forall2 (box_drawn plain (layout_of d y) d y px py s e) ps boxes end).
  { destruct sel as [[s e]|]; [|exists []; split; reflexivity]. cbn in RK. apply (@highlight_ok d y w a RO MO plain px py s e RK rc ps Fr). auto. }
  destruct B as (boxes & Eb & Fb).
  assert (AN := E). unfold draw_text in AN. rewrite Er in AN. cbn [obind] in AN. apply draw_runs_announced in AN as [A1 A2].
  assert (HR : forall line run, In (DRun line run) calls -> exists q, nth_error ps run = Some q).
  { intros line run H. destruct (A2 _ _ H) as (x & yy & I2). apply In_nth_error in I2 as (j & J).
    destruct (Forall2_nth_l Fr _ J) as (p & Np & (-> & -> & _)).
    destruct (places_nth _ _ _ _ _ Np) as (-> & _). exists p. exact Np. }
  assert (P : exists pieces, paint vars gi si plain (layout_of d y) px py sel None calls = Ok (List.concat pieces) /\
    Forall2 (fun rc ds => exists q, nth_error ps (fst rc) = Some q /\ call_drawn vars gi si plain (layout_of d y) px py sel q (snd rc) ds) (under 0 calls) pieces).
  { destruct A1 as [A1|(line & run & rest & A1)]; [rewrite A1; exists []; split; [reflexivity|constructor]|].
    destruct (HR line run) as (q & Nq); [rewrite A1; left; reflexivity|].
    destruct (places_nth _ _ _ _ _ Nq) as (Qk & _).
    destruct (@run_clip_ok d y w a RO MO px sel q (nth_error_In _ _ Nq) RK) as (clip & Ec & _). rewrite Qk in Ec.
    destruct (@paint_ok d y w a RO MO vars gi si plain px py sel RK rest run clip q Nq Ec) as (pieces & Ep & Fp).
    { intros l r H. apply (HR l r). rewrite A1. right. exact H. }
    rewrite A1. cbn [paint under]. rewrite Ec. cbn [obind]. rewrite Ep. exists ([] :: pieces). split; [reflexivity|].
    constructor; [|exact Fp]. exists q. split; [exact Nq|reflexivity]. }
  destruct P as (pieces & Ep & Fp).
  destruct (@run_outlines_ok d y w a gi si plain px py rc ps Fr (fun p H => H)) as (o1 & Eo1 & O1).
  destruct (@glyph_borders_ok d y w a gi si plain px py rc ps Fr (fun p H => H)) as (o2 & Eo2 & O2).
  exists calls, boxes, pieces, ((if cv_run_outlines vars then o1 else []) ++ (if cv_boundaries vars then o2 else [])).
  split; [exact E|]. split.
  { unfold draw_formatted. rewrite SE, Er. cbn [obind]. rewrite Eb. cbn [obind]. rewrite E. cbn [obind]. rewrite Ep. cbn [obind].
    destruct (cv_run_outlines vars), (cv_boundaries vars); rewrite ?Eo1, ?Eo2; cbn [obind]; rewrite ?Eo1, ?Eo2; cbn [obind]; reflexivity. }
  split; [exact Fb|]. split; [exact Fp|]. split.
  - apply Forall_app. split; [destruct (cv_run_outlines vars)|destruct (cv_boundaries vars)]; auto; constructor.
  - intros -> ->. reflexivity.
Qed.
Print Assumptions C91_screen_partial.

(** The sample text of [text5]: a picture for each glyph, 10 wide. *)
Definition letter (_ g : Z) : picture :=
  {| pi_image := Some g; pi_u := 0; pi_v := 0; pi_uw := 1; pi_vh := 1; pi_w := 10; pi_h := 12; pi_dx := 0; pi_dy := - 10 # 1; pi_colored := false |}.
Definition rim (_ g _ : Z) (_ : stroke_type) : picture :=
  {| pi_image := Some (100 + g); pi_u := 0; pi_v := 0; pi_uw := 1; pi_vh := 1; pi_w := 12; pi_h := 14; pi_dx := - 1 # 1; pi_dy := - 11 # 1; pi_colored := false |}.
Definition no_aids : cvars := {| cv_msdf := false; cv_glyph_outlines := false; cv_run_outlines := false; cv_boundaries := false |}.
Example text5_runs : Forall run_ok (doc_runs text5) /\ Forall (fun r => qnondecreasing (run_xs r)) (doc_runs text5).
Proof. split; repeat constructor; cbn; try lia; try (unfold Qle; cbn; lia); repeat split; try lia; discriminate. Qed.

(** "b" and the "C" of the right-to-left run are selected: a box for each of the two runs, then
    glyphs (strokes left out), "b" and "C" white. *)
Example screen_case :
  omap (map (fun d => (Qred (r_x (dr_rect d)), Qred (r_w (dr_rect d)), dr_image d, color_eqb (dr_color d) bright)))
    (omap (filter (fun d => dr_image d <? 100))
      (draw_formatted no_aids letter rim 7 sample_metrics (layout_of text5 0) (views_of sample_tables) 5 0 100 XLeft (cp_make 1) (cp_make 3)))
  = Ok [(15%Q, 10%Q, 7, false); (35%Q, 10%Q, 7, false); (5%Q, 10%Q, 10, false); (15%Q, 10%Q, 11, true);
        (25%Q, 10%Q, 13, false); (25%Q, 0%Q, 7, false); (25%Q, 0%Q, 7, false); (35%Q, 10%Q, 12, true);
        (25%Q, 10%Q, 7, false); (25%Q, 10%Q, 7, false); (35%Q, 10%Q, 7, true); (5%Q, 10%Q, 14, false);
        (5%Q, 10%Q, 7, false); (5%Q, 10%Q, 7, false)].
Proof. vm_compute. reflexivity. Qed.

(** Text that does not start at the left: a selected letter is black on its box. *)
Theorem C91_aligned_refuted : exists f n d y w a lay px anchor cursor s e out b g t,
  tables_for n f /\ doc_ok d /\ stored d y lay /\ Forall (run_in_text n) (doc_runs d) /\ Forall run_ok (doc_runs d) /\
  Forall (fun r => qnondecreasing (run_xs r)) (doc_runs d) /\ selects anchor cursor (Some (s, e)) /\
  draw_formatted no_aids letter rim 7 sample_metrics lay (views_of f) px 0 w a anchor cursor = Ok out /\
  In b out /\ dr_color b = box_color /\ covers (dr_rect b) t /\
  (exists k, In k (doc_glyphs d) /\ sg_id k = dr_image g /\ s <= sg_char k < e) /\
  In g out /\ covers (dr_rect g) t /\ dr_color g = {| c_r := f32_0; c_g := f32_0; c_b := f32_0; c_a := f32_1 |}.
Proof.
  exists sample_tables, 5, text5, 0%Q, 100%Q, XRight. eexists. exists 0%Q, (cp_make 0), (cp_make 2), 0, 2.
  eexists. exists {| dr_rect := {| r_x := 60; r_y := 0; r_w := 20; r_h := 12; r_u := 0; r_v := 0; r_uw := 1; r_vh := 1; r_white := false |};
                     dr_image := 7; dr_color := box_color; dr_pipe := PRect |}.
  exists {| dr_rect := {| r_x := 60; r_y := - 2 # 1; r_w := 10; r_h := 12; r_u := 0; r_v := 0; r_uw := 1; r_vh := 1; r_white := false |};
            dr_image := 10; dr_color := {| c_r := f32_0; c_g := f32_0; c_b := f32_0; c_a := f32_1 |}; dr_pipe := PRect |}, 65%Q.
  split; [exact sample_tables_for|]. split; [exact text5_ok|]. split; [unfold stored; vm_compute; reflexivity|].
  split; [exact text5_in|]. split; [apply text5_runs|]. split; [apply text5_runs|]. split; [right; split; [reflexivity|vm_compute; reflexivity]|].
  split; [vm_compute; reflexivity|]. split; [left; vm_compute; reflexivity|]. split; [reflexivity|]. split; [split; cbn; unfold Qle, Qlt; cbn; lia|].
  split; [eexists; split; [left; reflexivity|]; cbn; split; [reflexivity|lia]|].
  split; [vm_compute; right; right; left; reflexivity|]. split; [split; cbn; unfold Qle, Qlt; cbn; lia|reflexivity].
Qed.
Print Assumptions C91_aligned_refuted.

Definition thin (_ g : Z) : picture :=
  {| pi_image := Some g; pi_u := 0; pi_v := 0; pi_uw := 1; pi_vh := 1; pi_w := 1; pi_h := 12; pi_dx := 19 # 2; pi_dy := - 10 # 1; pi_colored := false |}.
(** A selection of no characters, as left by shift and an arrow key that cannot move: a thin
    letter at the caret turns white and no box is behind it. *)
Theorem C91_nothing_selected_refuted : exists f n d y w lay anchor cursor out out' g g',
  tables_for n f /\ doc_ok d /\ stored d y lay /\ Forall (run_in_text n) (doc_runs d) /\ Forall run_ok (doc_runs d) /\
  Forall (fun r => qnondecreasing (run_xs r)) (doc_runs d) /\
  cp_is_valid anchor = true /\ cp_get_position anchor = cp_get_position cursor /\
  draw_formatted no_aids thin rim 7 sample_metrics lay (views_of f) 0 0 w XLeft anchor cursor = Ok out /\
  draw_formatted no_aids thin rim 7 sample_metrics lay (views_of f) 0 0 w XLeft (cp_set_invalid anchor) cursor = Ok out' /\
  In g out /\ In g' out' /\ dr_image g = 10 /\ dr_image g' = 10 /\ (r_x (dr_rect g) == r_x (dr_rect g'))%Q /\ (0 < r_w (dr_rect g))%Q /\
  dr_color g = bright /\ dr_color g' = {| c_r := f32_0; c_g := f32_0; c_b := f32_0; c_a := f32_1 |}.
Proof.
  exists sample_tables, 5, text5, 0%Q, 100%Q. eexists. exists (cp_make 1), (cp_make 1). do 2 eexists.
  exists {| dr_rect := {| r_x := 19 # 2; r_y := - 2 # 1; r_w := 1; r_h := 12; r_u := 0; r_v := 0; r_uw := 1; r_vh := 1; r_white := true |};
            dr_image := 10; dr_color := bright; dr_pipe := PRect |}.
  exists {| dr_rect := {| r_x := 19 # 2; r_y := - 2 # 1; r_w := 1; r_h := 12; r_u := 0; r_v := 0; r_uw := 1; r_vh := 1; r_white := false |};
            dr_image := 10; dr_color := {| c_r := f32_0; c_g := f32_0; c_b := f32_0; c_a := f32_1 |}; dr_pipe := PRect |}.
  split; [exact sample_tables_for|]. split; [exact text5_ok|]. split; [unfold stored; vm_compute; reflexivity|].
  split; [exact text5_in|]. split; [apply text5_runs|]. split; [apply text5_runs|]. split; [reflexivity|]. split; [reflexivity|].
  split; [vm_compute; reflexivity|]. split; [vm_compute; reflexivity|].
  split; [vm_compute; tauto|]. split; [vm_compute; tauto|].
  split; [reflexivity|]. split; [reflexivity|]. split; [reflexivity|]. split; [reflexivity|]. split; reflexivity.
Qed.
Print Assumptions C91_nothing_selected_refuted.

(** Without formatting: every glyph of the library's calls at its place and in the given colour. *)
Theorem C91_plain : forall vars glyph_info plain d y w a lay px py c, doc_ok d -> stored d y lay ->
  exists calls pieces, draw_plain lay w a = Ok calls /\
    draw_unformatted vars glyph_info plain lay px py w a c = Ok (List.concat pieces) /\
    Forall2 (plain_drawn vars glyph_info px py c) calls pieces.
Proof.
  intros vars gi plain d y w a lay px py c OKD ST. destruct (@C51_plain d y w a lay OKD ST) as (calls & E & _).
  exists calls. unfold draw_unformatted. rewrite E. cbn [obind]. eexists. split; [reflexivity|]. split; [rewrite flat_map_concat_map; reflexivity|].
  clear E. induction calls as [|[[[font g] x] yy] calls IH]; cbn [map]; constructor; [|exact IH].
  cbn [plain_drawn]. do 2 eexists. split; [reflexivity|]. split; [destruct (cv_glyph_outlines vars); [apply plain_outline|constructor]|].
  split; [intros ->; reflexivity|]. cbv zeta. apply put_at; [discriminate|]. intros x0 wd t c' H. unfold its_color, only. rewrite <- white_bright. exact H.
Qed.
Print Assumptions C91_plain.
Example plain_case : omap (map (fun d => (Qred (r_x (dr_rect d)), Qred (r_y (dr_rect d)), dr_image d)))
  (draw_unformatted no_aids letter 7 (layout_of text5 0) 5 6 100 XLeft white) =
  Ok [(5%Q, 4%Q, 10); (15%Q, 4%Q, 11); (25%Q, 4%Q, 13); (35%Q, 4%Q, 12); (5%Q, 16%Q, 14)].
Proof. vm_compute. reflexivity. Qed.
