(** C51 and C53: the calls [draw_text] makes. *)
From Verif Require Import Base ValueRunsModel ValueRunsSpec FloatModel ColorModel FormattingModel FormattingIterModel
  FormattingIterSpec FormattingIterProps LayoutModel LayoutSpec LayoutProofs LayoutProps DrawModel DrawSpec DrawProofs.
Open Scope Z_scope.

(** Five characters on two lines: "ab", "DC" right to left, and "e". *)
Definition text5 : sdoc :=
  [mkline [mkrun 0 2 0 false [gl 10 0 0; gl 11 1 10] 20; mkrun 2 4 0 true [gl 13 3 20; gl 12 2 30] 40] 12;
   mkline [mkrun 4 5 0 false [gl 14 4 0] 10] 12].
Example text5_ok : doc_ok text5.
Proof. repeat constructor; discriminate. Qed.
Example text5_in : Forall (run_in_text 5) (doc_runs text5).
Proof. repeat constructor; cbn; lia. Qed.
Definition sample_metrics (_ : Z) : metrics :=
  {| me_under_pos := 2; me_under_thick := 1; me_strike_pos := - 4 # 1; me_strike_thick := 1 |}.

(** C51.  Without formatting every glyph of every run of every line is drawn once,
    in order, in its run's font, at the position stored for it. *)
Theorem C51_plain : forall d y w a lay, doc_ok d -> stored d y lay ->
  exists out, draw_plain lay w a = Ok out /\ Forall2 plain_eq out (flat_map plain_run_calls (places w a 0 0 y d)).
Proof.
  intros d y w a lay OKD ST. pose proof (stored_eq OKD ST); subst lay. apply draw_plain_of.
Qed.
Print Assumptions C51_plain.

Example C51_plain_example :
  omap (map (fun c => snd (fst (fst c)))) (draw_plain (layout_of text5 0) 100 XLeft) = Ok [10; 11; 13; 12; 14].
Proof. vm_compute. reflexivity. Qed.

(** With formatting, and rectangles left aside: each run is announced once, then
    each of its glyphs is drawn once in the colour of its character, preceded by its
    stroke when that is visible.  Full statement: for every document of the text.
    Proved when the character the iterator is made at - the end of a right-to-left
    run - is in the text. *)
Theorem C51_formatted_partial : forall f n fm d y w a lay, tables_for n f -> doc_ok d -> stored d y lay ->
  Forall (run_in_text n) (doc_runs d) ->
  exists out, draw_text fm lay (views_of f) w a = Ok out /\
    Forall2 draw_eq (filter (fun c => negb (is_rect c)) out) (flat_map (run_calls f) (places w a 0 0 y d)).
Proof.
  intros f n fm d y w a lay Hf OKD ST T. pose proof (stored_eq OKD ST); subst lay.
  destruct (@draw_text_of f n Hf fm d y w a T) as (segs & E & F). exists (List.concat segs). split; [exact E|].
  clear E. induction F as [|p seg ps segs H F IH]; cbn [List.concat flat_map filter]; [constructor|].
  rewrite filter_app. apply Forall2_app; [|exact IH]. exact (proj1 H).
Qed.
Print Assumptions C51_formatted_partial.

Example C51_formatted_example :
  omap (map (fun c => match c with DRun l r => (Z.of_nat l, Z.of_nat r) | DGlyph _ g _ _ c => (g, if color_eqb c red then 1 else 0) | DStroke _ g _ _ _ => (g, -1) | _ => (-1, -1) end))
    (omap (filter (fun c => negb (is_rect c))) (draw_text sample_metrics (layout_of text5 0) (views_of sample_tables) 100 XLeft))
  = Ok [(0, 0); (10, -1); (10, 0); (11, -1); (11, 0); (0, 1); (13, -1); (13, 1); (12, -1); (12, 1); (1, 2); (14, -1); (14, 0)].
Proof. vm_compute. reflexivity. Qed.

(** A right-to-left run at the end of the text: the iterator is made past the last
    character and the colour table is read past its end. *)
Theorem C51_rtl_at_end_refuted : exists f n fm d y w a lay, tables_for n f /\ doc_ok d /\ stored d y lay /\
  (forall r, In r (doc_runs d) -> sr_end r <= n /\ Forall (fun c => c < n) (run_chars r)) /\
  draw_text fm lay (views_of f) w a = UB.
Proof.
  exists sample_tables, 5, sample_metrics, [mkline [mkrun 0 5 0 true [gl 10 4 0; gl 11 3 10; gl 12 2 20; gl 13 1 30; gl 14 0 40] 50] 12].
  exists 0%Q, 100%Q, XLeft. eexists. split; [exact sample_tables_for|]. split; [repeat constructor; discriminate|].
  split; [apply stored_layout; repeat constructor; discriminate|]. split.
  - intros r [<-|[]]. cbn. split; [lia|]. repeat constructor; lia.
  - vm_compute. reflexivity.
Qed.
Print Assumptions C51_rtl_at_end_refuted.

(** A text that ends with a line separator: the run of its last, empty line starts
    at the text length and the iterator is made there. *)
Theorem C51_final_newline_refuted : exists f n fm d y w a lay, tables_for n f /\ doc_ok d /\ stored d y lay /\
  d = [mkline [mkrun 0 4 1 false [gl 10 0 0; gl 11 1 10; gl 12 2 20; gl 13 3 30] 40] 12; mkline [empty_run 1 n] 12] /\
  draw_text fm lay (views_of f) w a = UB.
Proof.
  exists sample_tables, 5, sample_metrics. eexists. exists 0%Q, 100%Q, XLeft. eexists. split; [exact sample_tables_for|].
  split; [|split; [apply stored_layout|split; [reflexivity|]]].
  - repeat constructor; discriminate.
  - repeat constructor; discriminate.
  - vm_compute. reflexivity.
Qed.
Print Assumptions C51_final_newline_refuted.

(** C53.  Full statement: among the calls made for a run, the rectangles of each
    kind are one for each maximal span of glyphs with that line and one colour, drawn
    from the left edge of its first glyph to the right edge of its last, in that
    colour, and no others.  Proved when no line begins inside the run where the
    colour changes, and with the restriction of C51. *)
Theorem C53_lines_partial : forall f n fm d y w a lay, tables_for n f -> doc_ok d -> stored d y lay ->
  Forall (run_in_text n) (doc_runs d) ->
  exists segs, draw_text fm lay (views_of f) w a = Ok (List.concat segs) /\
    Forall2 (fun p seg =>
      Forall2 draw_eq (filter (fun c => negb (is_rect c)) seg) (run_calls f p) /\
      forall strike, steady_run f strike (pl_of p) -> lines_drawn f (fm (sr_font (pl_of p))) p strike seg)
      (places w a 0 0 y d) segs.
Proof.
  intros f n fm d y w a lay Hf OKD ST T. pose proof (stored_eq OKD ST); subst lay.
  destruct (@draw_text_of f n Hf fm d y w a T) as (segs & E & F). exists segs. split; [exact E|].
  clear E. induction F as [|p seg ps segs H F IH]; constructor; [|exact IH].
  split; [exact (proj1 H)|]. intros strike S. eapply segment_lines; eauto.
Qed.
Print Assumptions C53_lines_partial.

(** The second run is underlined in red from its first glyph, and struck from
    "d" only; the third is black.  Rectangles of width 0 come first: the iterator of
    the second run is made at "e". *)
Example C53_example :
  Forall (steady_run sample_tables false) (doc_runs text5) /\ Forall (steady_run sample_tables true) (doc_runs text5) /\
  omap (map (fun c => match c with DRect s x _ w _ c => (s, Qred x, Qred w, color_eqb c red) | _ => (false, 0%Q, 0%Q, false) end))
    (omap (filter is_rect) (draw_text sample_metrics (layout_of text5 0) (views_of sample_tables) 100 XLeft))
  = Ok [(false, 20%Q, 0%Q, false); (true, 20%Q, 0%Q, false); (true, 20%Q, 10%Q, true); (false, 20%Q, 20%Q, true); (true, 0%Q, 10%Q, false); (false, 0%Q, 10%Q, false)].
Proof.
  split; [|split; [|vm_compute; reflexivity]];
    repeat constructor; intros k Hk; cbn in Hk; (destruct k as [|[|k]]; [..|lia]); vm_compute; congruence.
Qed.

(** Where an underline begins at a change of colour, plain glyphs before it are
    underlined too: a rectangle is drawn over them. *)
Theorem C53_spurious_underline_refuted : exists f n fm d y w a lay out, tables_for n f /\ doc_ok d /\ stored d y lay /\
  Forall (run_in_text n) (doc_runs d) /\ draw_text fm lay (views_of f) w a = Ok out /\
  doc_runs d = [mkrun 0 5 0 false [gl 10 0 0; gl 11 1 10; gl 12 2 20; gl 13 3 30; gl 14 4 40] 50] /\
  map (lined f false) [0; 1; 2; 3; 4] = [false; false; true; true; true] /\
  exists r, In r out /\ draw_eq r (DRect false 0 (8 + 2) 20 (1 + (1 # 2)) black).
Proof.
  exists sample_tables, 5, sample_metrics.
  exists [mkline [mkrun 0 5 0 false [gl 10 0 0; gl 11 1 10; gl 12 2 20; gl 13 3 30; gl 14 4 40] 50] 12].
  exists 0%Q, 100%Q, XLeft. eexists. eexists. split; [exact sample_tables_for|]. split; [repeat constructor; discriminate|].
  split; [apply stored_layout; repeat constructor; discriminate|]. split; [repeat constructor; cbn; lia|].
  split; [vm_compute; reflexivity|]. split; [reflexivity|]. split; [vm_compute; reflexivity|].
  eexists. split; [cbn [In]; do 7 right; left; reflexivity|]. vm_compute. repeat split; reflexivity.
Qed.
Print Assumptions C53_spurious_underline_refuted.
