(** Building a layout: C22 - C29, C54. *)
From Coq Require Import Permutation ZifyBool ZifyNat.
From Verif Require Import Base BaseFacts ValueRunsModel ValueRunsSpec ValueRunsProofs ScriptRunModel ScriptRunSpec LayoutModel LayoutSpec LayoutProofs.
From Verif Require Import BuilderModel BuilderSpec BuilderBreakProofs BuilderTileProofs BuilderDocProofs BuilderLineProofs BuilderEndProofs BuilderVisualProofs BuilderDemo.
Open Scope Z_scope.

Lemma no_bad_tab {A} text tabWidth pixels (P : A -> Prop) o : ~ bad_tab text tabWidth pixels -> returns (bad_tab text tabWidth pixels) P o -> exists r, o = Ok r /\ P r.
Proof. intros N R. destruct o as [r| |]; cbn in R; [eauto|contradiction|contradiction]. Qed.
Lemma ok_returns {A} U (P : A -> Prop) o r : returns U P o -> o = Ok r -> P r.
Proof. intros R E. rewrite E in R. exact R. Qed.

(** ** C54 *)

(** With the contracts of the libraries kept, a byte readable after the text and
    either readable memory after the tables or a separator at the end of the text,
    building reads nothing it may not read and stores the lines of the text. *)
Theorem C54_defined_partial : forall e text vertical opp so tabWidth pixels area count startY l0,
  can_build e text opp so count -> ~ bad_tab text tabWidth pixels ->
  exists doc h l, run_build e text vertical so tabWidth pixels area count startY l0 = Ok l /\
    stored doc (startY h) l /\ (h == heights doc)%Q /\ text_lines e text vertical opp so tabWidth pixels area count 0 doc.
Proof.
  intros e text vertical opp so tabWidth pixels area count startY l0 (EO & SO & [C R] & P) NT.
  destruct (@no_bad_tab _ _ _ _ _ _ NT (@build_ok e text vertical opp so tabWidth pixels area count EO SO R P startY l0 C)) as (l & E & doc & h & TL & H & ->).
  exists doc, h, (layout_of doc (startY h)). split; [exact E|]. split; [|split; assumption].
  apply stored_layout. apply (@text_doc_ok e text vertical opp so tabWidth pixels area count EO 0 doc TL). constructor.
Qed.
Print Assumptions C54_defined_partial.

(** No tab, or a tab width in pixels, is enough for the tabs. *)
Example C54_tabs : forall text tabWidth pixels, ~ In 9 text \/ (pixels = true /\ tabWidth <> 0) -> ~ bad_tab text tabWidth pixels.
Proof.
  intros text tabWidth pixels H (c & old & T & U). destruct H as [H|[-> H]].
  - apply H. unfold zget in T. destruct (c <? 0); [discriminate|]. unfold vget in T. destruct (nth_error text (Z.to_nat c)) eqn:N; [|discriminate].
    inversion T; subst. exact (nth_error_In _ _ N).
  - exact (H U).
Qed.
Example C54_defined_used : can_build engine1 text1 (demo_opp opps1) sources1 9 /\ ~ bad_tab text1 1000 true.
Proof. split; [exact can_build1|]. apply C54_tabs. right. split; [reflexivity|discriminate]. Qed.

(** A text that does not end with a separator has no defined layout when the font
    table ends with its last run: the run after it is always read. *)
Theorem C54_table_end_refuted : forall e text vertical rv t small sub super tabWidth pixels area count startY l,
  reads rv t [] -> Forall (fun x => x <= count) (map fst t) -> bounds_ok e count -> 0 < count -> ~ final_separator e count ->
  forall l', build_text e text vertical rv small sub super tabWidth pixels area count startY l <> Ok l'.
Proof.
  intros e text vertical rv t small sub super tabWidth pixels area count startY l (_ & R & _) F B C N l'.
  apply (@build_end e text vertical rv t count); auto. intros i. rewrite R, app_nil_r. reflexivity.
Qed.
Print Assumptions C54_table_end_refuted.
(** The view the application passes is such a table. *)
Example C54_table_end_used : reads (vr_view (build fonts1)) fonts1 [] /\ Forall (fun x => x <= 9) (map fst fonts1) /\
  bounds_ok engine1 9 /\ 0 < 9 /\ ~ final_separator engine1 9 /\
  build_text engine1 text1 false (vr_view (build fonts1)) None None None 1000 true 0 9 (fun _ => 0%Q) lo_empty = UB.
Proof.
  split; [split; [reflexivity|split; intros i; rewrite app_nil_r; apply view_build]|].
  split; [cbn; repeat constructor; lia|]. split; [exact (proj1 (proj2 (proj2 engine1_ok)))|]. split; [lia|]. split; [|vm_compute; reflexivity].
  intros (off & P & L & E & S). destruct (starts1 _ P) as [E0|[E0|E0]]; subst off; vm_compute in E, S; try discriminate; lia.
Qed.

(** Wrapping reads the byte after the text. *)
Theorem C54_byte_after_refuted : exists e opp so text count, engine_ok e opp count /\ sources_ok so count /\ padded so /\ Z.of_nat (length text) = count /\
  run_build e text false so 1000 true 100000 count (fun _ => 0%Q) lo_empty = UB.
Proof.
  exists engine1, (demo_opp opps1), sources1, (firstn 9 text1), 9. split; [exact engine1_ok|]. split; [exact sources1_ok|]. split; [exact sources1_padded|].
  split; [reflexivity|]. vm_compute. reflexivity.
Qed.
Print Assumptions C54_byte_after_refuted.
(** One byte is not enough when it starts a sequence, as it may when the text is a part
    of a longer one: the next bytes are then read too. *)
Theorem C54_lead_after_refuted : exists e opp so text count b, engine_ok e opp count /\ sources_ok so count /\ padded so /\
  Z.of_nat (length text) = count + 1 /\ zget text count = Ok b /\ 194 <= b < 245 /\
  run_build e text false so 1000 true 100000 count (fun _ => 0%Q) lo_empty = UB.
Proof.
  exists engine1, (demo_opp opps1), sources1, (firstn 9 text1 ++ [195]), 9, 195. split; [exact engine1_ok|]. split; [exact sources1_ok|]. split; [exact sources1_padded|].
  split; [reflexivity|]. split; [reflexivity|]. split; [lia|]. vm_compute. reflexivity.
Qed.
Print Assumptions C54_lead_after_refuted.
(** A tab width of zero divides by zero. *)
Theorem C54_zero_tab_refuted : exists e opp so text count pixels, can_build e text opp so count /\
  run_build e text false so 0 pixels 0 count (fun _ => 0%Q) lo_empty = UB.
Proof. exists engine1, (demo_opp opps1), sources1, text1, 9, true. split; [exact can_build1|]. vm_compute. reflexivity. Qed.
Print Assumptions C54_zero_tab_refuted.

(** Every line that is stored is blank or shows characters of a paragraph. *)
Lemma built_lines e text vertical opp so tabWidth pixels area count startY l0 l :
  can_build e text opp so count -> run_build e text vertical so tabWidth pixels area count startY l0 = Ok l ->
  exists doc y, stored doc y l /\ text_lines e text vertical opp so tabWidth pixels area count 0 doc /\ Forall (shown_line e text vertical opp so tabWidth pixels area count) doc.
Proof.
  intros (EO & SO & [C R] & P) E. destruct (ok_returns _ _ _ _ (@build_ok e text vertical opp so tabWidth pixels area count EO SO R P startY l0 C) E) as (doc & h & TL & H & ->).
  exists doc, (startY h). split; [|split; [exact TL|]].
  - apply stored_layout. apply (@text_doc_ok e text vertical opp so tabWidth pixels area count EO 0 doc TL). constructor.
  - apply (@text_shown e text vertical opp so tabWidth pixels area count EO 0 doc TL). constructor.
Qed.
Ltac every_line HC HE :=
  let doc := fresh "doc" in let y := fresh "y" in let ST := fresh "ST" in let TL := fresh "TL" in let F := fresh "F" in
  destruct (built_lines _ _ _ _ _ _ _ _ _ _ _ _ HC HE) as (doc & y & ST & TL & F); exists doc, y; split; [exact ST|];
  eapply Forall_impl; [|exact F]; clear F; intros s [(f0 & pos0 & sep0 & -> & _)|F]; [left; exists f0, pos0, sep0; reflexivity|right];
  destruct F as (ps & pe & ss & ws0 & ws & ls & le & IP & T & SOK & SB & L1 & L2 & SB0 & A0 & GL & LG & LP & LZ & _).

(** ** C22 *)

(** The runs stored for a line: each character in one of them, each glyph once, left
    to right runs in logical and right to left runs in reverse order. *)
Theorem C22_line_runs : forall info vertical code line_runs p ps pe cur pn d y ls le high hend,
  para_ok ps pe p -> ps <= ls -> ls < le -> le <= pe -> bidi_partition ls le (line_runs pn ls (le - ls)) ->
  highest (length (doc_runs d)) [] high hend ->
  exists s high' hend',
    compute_line_visual_runs info vertical line_runs code (shaped_of p cur) pn (layout_of d y) ls le high hend = Ok (layout_of (d ++ [s]) y, high', hend') /\
    line_glyphs code ps p (line_runs pn ls (le - ls)) ls le s.
Proof.
  intros info vertical code line_runs p ps pe cur pn d y ls le high hend OK L1 L2 L3 BP HI.
  destruct (@compute_line_of info vertical code p ps pe OK line_runs cur pn d [] y ls le high hend L1 L2 L3 BP HI) as (h' & e' & E & _).
  rewrite app_nil_r in E. eexists _, h', e'. split; [exact E|]. apply (@line_glyphs_of info vertical code p ps pe OK ls le); auto.
Qed.
Print Assumptions C22_line_runs.

(** So it is for every line of every layout that is built. *)
Theorem C22_every_line : forall e text vertical opp so tabWidth pixels area count startY l0 l,
  can_build e text opp so count -> run_build e text vertical so tabWidth pixels area count startY l0 = Ok l ->
  exists doc y, stored doc y l /\
  Forall (fun s => (exists f pos sep, s = blank e f pos sep) \/
    exists ps pe ss ws ls le, is_para e count ps pe /\ segments_tile ps pe ss /\ ps <= ls < le /\ le <= pe /\
      line_glyphs (en_code e) ps (with_widths (para_of (en_info e) text (en_shape e) vertical ss) ws) (en_runs e ps ls (le - ls)) ls le s) doc.
Proof.
  intros e text vertical opp so tabWidth pixels area count startY l0 l HC HE. every_line HC HE.
  exists ps, pe, ss, ws, ls, le. auto.
Qed.
Print Assumptions C22_every_line.
Example C22_used : can_build engine1 text1 (demo_opp opps1) sources1 9 /\ exists l,
  run_build engine1 text1 false sources1 1000 true 1500 9 (fun _ => 0%Q) lo_empty = Ok l /\ length (lo_lines l) = 4%nat /\ lo_chars l = [0; 2; 1; 3; 4; 6; 7; 8].
Proof. split; [exact can_build1|]. eexists. split; [vm_compute; reflexivity|]. split; reflexivity. Qed.

(** ** C23 *)

(** Positions along the line are running sums, the line is as wide as its glyphs. *)
Theorem C23_line_positions : forall info vertical code line_runs p ps pe cur pn d y ls le high hend,
  para_ok ps pe p -> ps <= ls -> ls < le -> le <= pe -> bidi_partition ls le (line_runs pn ls (le - ls)) ->
  highest (length (doc_runs d)) [] high hend ->
  exists s l high' hend',
    compute_line_visual_runs info vertical line_runs code (shaped_of p cur) pn (layout_of d y) ls le high hend = Ok (l, high', hend') /\
    l = layout_of (d ++ [s]) y /\ line_positions vertical p (line_runs pn ls (le - ls)) ls le s /\
    (vertical = false -> get_line_width l (length d) = Ok (fixed (total (glyphs_in p ls le)))) /\
    lo_pos l = lo_pos (layout_of d y) ++ flat_map run_pos (sl_runs s).
Proof.
  intros info vertical code line_runs p ps pe cur pn d y ls le high hend OK L1 L2 L3 BP HI.
  destruct (@compute_line_of info vertical code p ps pe OK line_runs cur pn d [] y ls le high hend L1 L2 L3 BP HI) as (h' & e' & E & _).
  rewrite app_nil_r in E. set (s := line_of _ _ _ _ _) in E.
  pose proof (@line_positions_of info vertical code p ps pe OK ls le _ L1 L2 L3 BP) as LP. fold s in LP.
  exists s, (layout_of (d ++ [s]) y), h', e'. split; [exact E|]. split; [reflexivity|]. split; [exact LP|]. split.
  - intros V. rewrite <- (proj2 (proj2 LP) V). unfold get_line_width. cbn [layout_of lo_lines]. unfold doc_lines. rewrite lines_of_app.
    unfold vget. rewrite nth_error_app2 by (rewrite length_lines_of; lia). rewrite length_lines_of, Nat.sub_diag. reflexivity.
  - cbn [layout_of lo_pos app]. rewrite doc_runs_app, flat_map_app. f_equal. unfold doc_runs. cbn [flat_map]. rewrite app_nil_r. reflexivity.
Qed.
Print Assumptions C23_line_positions.

Theorem C23_every_line : forall e text vertical opp so tabWidth pixels area count startY l0 l,
  can_build e text opp so count -> run_build e text vertical so tabWidth pixels area count startY l0 = Ok l ->
  exists doc y, stored doc y l /\
  Forall (fun s => (exists f pos sep, s = blank e f pos sep) \/
    exists ps pe ss ws ls le, is_para e count ps pe /\ segments_tile ps pe ss /\ ps <= ls < le /\ le <= pe /\
      same_but_tabs text (para_of (en_info e) text (en_shape e) vertical ss) ws /\
      line_positions vertical (with_widths (para_of (en_info e) text (en_shape e) vertical ss) ws) (en_runs e ps ls (le - ls)) ls le s) doc.
Proof.
  intros e text vertical opp so tabWidth pixels area count startY l0 l HC HE. every_line HC HE.
  exists ps, pe, ss, ws, ls, le. repeat match goal with |- _ /\ _ => split; [assumption|] end. exact LP.
Qed.
Print Assumptions C23_every_line.
Example C23_used : exists l, run_build engine1 text1 false sources1 1000 true 0 9 (fun _ => 0%Q) lo_empty = Ok l /\ lo_lines l <> [] /\ lo_pos l <> [].
Proof. eexists. split; [vm_compute; reflexivity|]. split; discriminate. Qed.

(** In vertical layouts the width of a line is read across it. *)
Theorem C23_vertical_width_refuted : exists e opp so text count l, can_build e text opp so count /\
  run_build e text true so 1000 true 0 count (fun _ => 0%Q) lo_empty = Ok l /\ get_line_width l 0 = Ok (fixed 0) /\ last (lo_pos l) 0%Q = fixed 1280.
Proof.
  exists (plain_engine [97; 98; 0] 2 [] (fun _ => 0) (fun _ => -640)), (fun _ o => In o []), (sources_of [(2, 1)]), [97; 98; 0], 2.
  eexists. split; [apply plain_can_build; [cbn; lia|eexists; split; [reflexivity|lia]|lia|constructor]|]. split; [vm_compute; reflexivity|]. split; reflexivity.
Qed.
Print Assumptions C23_vertical_width_refuted.

(** ** C62 *)

(** Every line of every layout that is built is blank, in the height of its font, or
    reaches from the highest ascent to the lowest descent of the fonts of its runs. *)
Theorem C62_every_line : forall e text vertical opp so tabWidth pixels area count startY l0 l,
  can_build e text opp so count -> run_build e text vertical so tabWidth pixels area count startY l0 = Ok l ->
  exists doc y, stored doc y l /\ Forall (fun s =>
    (exists f pos sep, s = blank e f pos sep) \/ line_size (en_code e) (en_info e) s) doc.
Proof.
  intros e text vertical opp so tabWidth pixels area count startY l0 l HC HE. every_line HC HE. exact LZ.
Qed.
Print Assumptions C62_every_line.
Example C62_used : can_build engine1 text1 (demo_opp opps1) sources1 9 /\ exists l,
  run_build engine1 text1 false sources1 1000 true 1500 9 (fun _ => 0%Q) lo_empty = Ok l /\ (0 < nth 0 (map li_descent (lo_lines l)) 0)%Q /\ (0 < nth 0 (map li_ascent (lo_lines l)) 0)%Q.
Proof. split; [exact can_build1|]. eexists. split; [vm_compute; reflexivity|]. split; reflexivity. Qed.

(** ** C24 *)

Lemma wrapped_ranges code info vertical text ps pe runs : (forall a b, ps <= a -> a < b -> b <= pe -> bidi_partition a b (runs a b)) ->
  forall bs p ls, para_ok ps pe p -> ps <= ls -> wrapped (fun _ _ _ _ => True) text p pe ls bs ->
  exists ranges, chain ls pe ranges /\ Forall2 (fun r s => runs_tile (fst r) (snd r) (sl_runs s)) ranges (wrapped_lines code info vertical runs p ls bs).
Proof.
  intros R. induction bs as [|[le ws] bs IH]; intros p ls OK LS W; cbn [wrapped wrapped_lines] in *.
  - subst. exists []. split; [reflexivity|constructor].
  - destruct W as (W1 & (W2 & _) & _ & W4). pose proof (@with_widths_ok p ps pe OK ws W2) as OK'.
    destruct (IH _ le OK' ltac:(lia) W4) as (ranges & C & F). exists ((ls, le) :: ranges). split; [cbn; split; [reflexivity|]; split; [lia|exact C]|].
    constructor; [|exact F]. cbn [fst snd]. eapply line_of_tile; [exact OK'|apply R; lia|lia|lia].
Qed.

(** Breaking a paragraph ends, whatever the widths, the limit and the answers of the
    break iterator, and gives non-empty lines that tile it. *)
Theorem C24_lines_tile : forall info text vertical line_runs code next_char hangs preceding tabWidth pixels area p ps pe cur d0 y,
  para_ok ps pe p -> ps <= pe -> (exists m, pe <= m /\ single_byte_at text m) -> area <> 0 -> ~ bad_tab text tabWidth pixels ->
  (forall a, ps <= a < pe -> a < snd (next_char a pe) <= pe) ->
  (forall x, preceding ps (pe - ps) x <= pe - ps) ->
  (forall a b, ps <= a -> a < b -> b <= pe -> bidi_partition a b (line_runs ps a (b - a))) ->
  exists high lines ranges,
    layout_paragraph info text vertical line_runs code next_char hangs preceding (shaped_of p cur) tabWidth pixels area ps (pe - ps) (layout_of d0 y) =
      Ok (layout_of (d0 ++ lines) y, high) /\
    chain ps pe ranges /\ Forall2 (fun r s => runs_tile (fst r) (snd r) (sl_runs s)) ranges lines.
Proof.
  intros info text vertical line_runs code next_char hangs preceding tabWidth pixels area p ps pe cur d0 y OK LE LT A NT NX BD RS.
  unfold layout_paragraph. rewrite (proj2 (Z.eqb_neq area 0) A).
  assert (P0 : 0 <= ps) by apply OK.
  pose proof (@break_lines_spec text tabWidth pixels area ps pe LT next_char hangs preceding NX BD info vertical code line_runs RS (fun _ _ _ _ => True)
    ltac:(intros; exact I) cur d0 y (Z.to_nat (pe - ps)) p [] ps 0%nat INT_MIN OK ltac:(lia) ltac:(lia)) as B.
  rewrite app_nil_r in B. specialize (B ltac:(split; reflexivity)).
  destruct (break_lines _ _ _ _ _ _ _ _ _ _ _ _ _ _ _ _ _ _ _) as [[l high]| |]; cbn [returns fst snd app] in B; [|exfalso|contradiction].
  - destruct B as (bs & hend & W & E & _). subst l.
    destruct (wrapped_ranges code info vertical text ps pe (fun a b => line_runs ps a (b - a)) RS bs p ps OK ltac:(lia) W) as (ranges & C & F).
    exists high, (wrapped_lines code info vertical (fun a b => line_runs ps a (b - a)) p ps bs), ranges. auto.
  - apply NT. eapply bad_tabs_bad. exact B.
Qed.
Print Assumptions C24_lines_tile.
(** A break iterator that always answers "no boundary", and no room at all: each
    character is on a line of its own. *)
Example C24_used : exists l, let e := plain_engine text1 5 [] (fun _ => 640) (fun _ => 0) in
  run_build e text1 false (sources_of [(5, 1)]) 1000 true (-1) 5 (fun _ => 0%Q) lo_empty = Ok l /\ length (lo_lines l) = 5%nat.
Proof. eexists. cbv zeta. split; [vm_compute; reflexivity|reflexivity]. Qed.

(** ** C25 *)

(** Under a limit, each line fits but for white space that hangs at its end; it breaks
    at an opportunity, or has none after its first character. *)
Theorem C25_lines_fit_partial : forall e text vertical opp so tabWidth pixels area count startY l0 l,
  can_build e text opp so count -> area <> 0 -> run_build e text vertical so tabWidth pixels area count startY l0 = Ok l ->
  exists doc y, stored doc y l /\
  Forall (fun s => (exists f pos sep, s = blank e f pos sep) \/
    exists ps pe ss ws ls le, let p := with_widths (para_of (en_info e) text (en_shape e) vertical ss) ws in
      is_para e count ps pe /\ segments_tile ps pe ss /\ same_but_tabs text (para_of (en_info e) text (en_shape e) vertical ss) ws /\ ps <= ls < le /\ le <= pe /\
      line_glyphs (en_code e) ps p (en_runs e ps ls (le - ls)) ls le s /\
      line_fits (en_next e) (en_hangs e) area p pe ls le /\ breaks_well (opp ps) p pe ls le) doc.
Proof.
  intros e text vertical opp so tabWidth pixels area count startY l0 l HC HA HE. every_line HC HE.
  unfold good_line in GL. rewrite (proj2 (Z.eqb_neq area 0) HA) in GL. destruct GL as (_ & G1 & G2 & _).
  exists ps, pe, ss, ws, ls, le. cbv zeta. repeat match goal with |- _ /\ _ => split; [assumption|] end. exact G2.
Qed.
Print Assumptions C25_lines_fit_partial.
Example C25_used : can_build engine1 text1 (demo_opp opps1) sources1 9 /\ 1500 <> 0 /\ exists l,
  run_build engine1 text1 false sources1 1000 true 1500 9 (fun _ => 0%Q) lo_empty = Ok l /\ length (lo_lines l) = 4%nat.
Proof. split; [exact can_build1|]. split; [lia|]. eexists. split; [vm_compute; reflexivity|reflexivity]. Qed.

(** White space at the end makes a line wider than the limit. *)
Theorem C25_white_space_refuted : exists e opp so text count area l w, can_build e text opp so count /\ 0 < area /\
  run_build e text false so 1000 true area count (fun _ => 0%Q) lo_empty = Ok l /\ get_line_width l 0 = Ok (fixed w) /\ area < w /\ (1 < length (lo_chars l))%nat /\ nth 1 (lo_chars l) 0 = 1.
Proof.
  exists (plain_engine [97; 32; 32; 98; 0] 4 [3; 4] (fun _ => 640) (fun _ => 0)), (fun _ o => In o [3; 4]), (sources_of [(4, 1)]), [97; 32; 32; 98; 0], 4, 700.
  eexists _, 1920. split; [apply plain_can_build; [cbn; lia|eexists; split; [reflexivity|lia]|lia|repeat constructor; lia]|]. split; [lia|]. split; [vm_compute; reflexivity|].
  split; [reflexivity|]. split; [lia|]. split; [cbn; lia|reflexivity].
Qed.
Print Assumptions C25_white_space_refuted.
(** A glyph that does not fit is added to glyphs without width, although there is an
    opportunity before it. *)
Theorem C25_no_width_refuted : exists e opp so text count area l w, can_build e text opp so count /\ 0 < area /\ opp 0 1 /\
  run_build e text false so 1000 true area count (fun _ => 0%Q) lo_empty = Ok l /\ length (lo_lines l) = 1%nat /\ lo_chars l = [0; 1] /\
  get_line_width l 0 = Ok (fixed w) /\ area < w /\ ~ In 32 text /\ ~ In 9 text.
Proof.
  exists (plain_engine [97; 98; 0] 2 [1; 2] (fun c => if c =? 97 then 0 else 5000) (fun _ => 0)), (fun _ o => In o [1; 2]), (sources_of [(2, 1)]), [97; 98; 0], 2, 1000.
  eexists _, 5000. split; [apply plain_can_build; [cbn; lia|eexists; split; [reflexivity|lia]|lia|repeat constructor; lia]|]. split; [lia|]. split; [left; reflexivity|]. split; [vm_compute; reflexivity|].
  repeat split; try reflexivity; cbn; lia.
Qed.
Print Assumptions C25_no_width_refuted.

(** ** C26 *)

(** Without wrapping, each tab ends at the next multiple of the tab width in the
    order of the text. *)
Theorem C26_unwrapped_partial : forall e text vertical opp so tabWidth pixels count startY l0 l,
  can_build e text opp so count -> run_build e text vertical so tabWidth pixels 0 count startY l0 = Ok l ->
  exists doc y, stored doc y l /\
  Forall (fun s => (exists f pos sep, s = blank e f pos sep) \/
    exists ps pe ss ws, let p0 := para_of (en_info e) text (en_shape e) vertical ss in let p := with_widths p0 ws in
      is_para e count ps pe /\ segments_tile ps pe ss /\
      same_but_tabs text p0 ws /\ all_tabs text tabWidth pixels p0 p /\
      line_positions vertical p (en_runs e ps ps (pe - ps)) ps pe s) doc.
Proof.
  intros e text vertical opp so tabWidth pixels count startY l0 l HC HE.
  every_line HC HE. unfold good_line in GL. cbn [Z.eqb] in GL. destruct GL as (_ & -> & AT). destruct (A0 eq_refl) as [-> ->]. rewrite with_widths_same in AT.
  exists ps, pe, ss, ws. cbv zeta. repeat match goal with |- _ /\ _ => split; [assumption|] end. exact LP.
Qed.
Print Assumptions C26_unwrapped_partial.
(** In the first line of the demo the tab is not hanging; four spaces are 2560. *)
Example C26_unwrapped_used : exists l, let e := plain_engine [97; 9; 98; 0] 3 [2; 3] (fun _ => 640) (fun _ => 0) in
  run_build e [97; 9; 98; 0] false (sources_of [(3, 1)]) 256 false 0 3 (fun _ => 0%Q) lo_empty = Ok l /\ nth 4 (lo_pos l) 0%Q = fixed 2560.
Proof. eexists. cbv zeta. split; [vm_compute; reflexivity|reflexivity]. Qed.

(** With wrapping, the same holds for tab widths in pixels, in each line, of the tabs
    before white space that hangs at its end. *)
Theorem C26_wrapped_pixels_partial : forall e text vertical opp so tabWidth area count startY l0 l,
  can_build e text opp so count -> area <> 0 -> 0 < tabWidth -> run_build e text vertical so tabWidth true area count startY l0 = Ok l ->
  exists doc y, stored doc y l /\
  Forall (fun s => (exists f pos sep, s = blank e f pos sep) \/
    exists ps pe ss ws ls le, let p0 := para_of (en_info e) text (en_shape e) vertical ss in let p := with_widths p0 ws in
      is_para e count ps pe /\ segments_tile ps pe ss /\ ps <= ls < le /\ le <= pe /\
      same_but_tabs text p0 ws /\ line_tabs text (en_next e) (en_hangs e) tabWidth p pe ls le /\
      line_positions vertical p (en_runs e ps ls (le - ls)) ls le s) doc.
Proof.
  intros e text vertical opp so tabWidth area count startY l0 l HC HA HT HE. every_line HC HE.
  unfold good_line in GL. rewrite (proj2 (Z.eqb_neq area 0) HA) in GL. destruct GL as (_ & _ & _ & G3). specialize (G3 eq_refl HT).
  exists ps, pe, ss, ws, ls, le. cbv zeta. repeat match goal with |- _ /\ _ => split; [assumption|] end. exact LP.
Qed.
Print Assumptions C26_wrapped_pixels_partial.
Example C26_wrapped_used : exists l, let e := plain_engine [97; 9; 98; 32; 99; 0] 5 [2; 4; 5] (fun _ => 640) (fun _ => 0) in
  run_build e [97; 9; 98; 32; 99; 0] false (sources_of [(5, 1)]) 1000 true 2000 5 (fun _ => 0%Q) lo_empty = Ok l /\ length (lo_lines l) = 2%nat /\ nth 4 (lo_pos l) 0%Q = fixed 1000.
Proof. eexists. cbv zeta. split; [vm_compute; reflexivity|]. split; reflexivity. Qed.

(** A tab moved to the next line takes its width of the line before for the width of
    a space: its stops are no multiples of four spaces, here by a factor. *)
Theorem C26_wrapped_spaces_refuted : exists e opp so text count area l k stop, can_build e text opp so count /\
  run_build e text false so 256 false area count (fun _ => 0%Q) lo_empty = Ok l /\
  (forall f, fo_space_advance (en_info e f) = 640) /\
  nth k (lo_chars l) 0 = 3 /\ zget text 3 = Ok 9 /\ get_line_width l 2 = Ok (fixed stop) /\ (stop mod (4 * 640) <> 0) /\ 30 * (4 * 640) < stop.
Proof.
  exists (plain_engine [97; 32; 98; 9; 41; 0] 5 [2; 5] (fun c => if c =? 98 then 700 else 640) (fun _ => 0)), (fun _ o => In o [2; 5]), (sources_of [(5, 1)]), [97; 32; 98; 9; 41; 0], 5, 2000.
  eexists _, 3%nat, 92480. split; [apply plain_can_build; [cbn; lia|eexists; split; [reflexivity|lia]|lia|repeat constructor; lia]|]. split; [vm_compute; reflexivity|]. split; [reflexivity|].
  split; [reflexivity|]. split; [reflexivity|]. split; [reflexivity|]. split; [discriminate|lia].
Qed.
Print Assumptions C26_wrapped_spaces_refuted.
(** Hanging tabs stay as wide as spaces. *)
Theorem C26_hanging_refuted : exists e opp so text count area l, can_build e text opp so count /\
  run_build e text false so 1000 true area count (fun _ => 0%Q) lo_empty = Ok l /\
  nth 3 (lo_chars l) 0 = 3 /\ zget text 3 = Ok 9 /\ get_line_width l 0 = Ok (fixed 2640) /\ omap ru_end (vget (lo_runs l) 0) = Ok 4.
Proof.
  exists (plain_engine [97; 9; 9; 9; 98; 0] 5 [4; 5] (fun _ => 640) (fun _ => 0)), (fun _ o => In o [4; 5]), (sources_of [(5, 1)]), [97; 9; 9; 9; 98; 0], 5, 1100.
  eexists. split; [apply plain_can_build; [cbn; lia|eexists; split; [reflexivity|lia]|lia|repeat constructor; lia]|]. split; [vm_compute; reflexivity|].
  repeat split; reflexivity.
Qed.
Print Assumptions C26_hanging_refuted.
(** Stops are computed in the order of the text: beside right to left text a tab does
    not end at one, here at 3200 where 2560 is four spaces. *)
Theorem C26_right_to_left_refuted : exists e opp so text count l i, can_build e text opp so count /\
  run_build e text false so 256 false 0 count (fun _ => 0%Q) lo_empty = Ok l /\ nth i (lo_chars l) 0 = 7 /\ zget text 7 = Ok 9 /\
  (forall f, fo_space_advance (en_info e f) = 640) /\ S i = length (lo_chars l) /\ get_line_width l 1 = Ok (fixed 3200).
Proof.
  exists engine1, (demo_opp opps1), sources1, text1, 9. eexists _, 7%nat. split; [exact can_build1|]. split; [vm_compute; reflexivity|]. repeat split; reflexivity.
Qed.
Print Assumptions C26_right_to_left_refuted.

(** ** C27 *)

(** The lines tile the text, separators included, and every paragraph starts with a
    line; a last separator gives one more, blank, line. *)
Theorem C27_paragraphs_tile : forall e text vertical opp so tabWidth pixels area count startY l0 l,
  can_build e text opp so count -> 0 < count -> run_build e text vertical so tabWidth pixels area count startY l0 = Ok l ->
  exists body extra y, stored (body ++ extra) y l /\ tiled e count body /\
    ((final_separator e count /\ exists f, extra = [blank e f count 0]) \/ (~ final_separator e count /\ extra = [])).
Proof.
  intros e text vertical opp so tabWidth pixels area count startY l0 l HC C0 HE.
  destruct (built_lines _ _ _ _ _ _ _ _ _ _ _ _ HC HE) as (doc & y & ST & TL & _). pose proof (proj1 HC) as EO.
  destruct (@text_tiled e text vertical opp so tabWidth pixels area count EO 0 doc TL (start_first e count) ltac:(lia)) as (body & extra & ranges & -> & CH & F & PS & X).
  exists body, extra, y. split; [exact ST|]. split.
  - exists ranges. split; [exact CH|]. split; [exact F|]. intros off P. apply PS; [exact P|]. pose proof (start_bounds EO P). lia.
  - destruct (X C0) as [(last & f & A & B & D & E & _ & G)|[A B]]; [left|right; auto]. split; [exists last; auto|exists f; exact G].
Qed.
Print Assumptions C27_paragraphs_tile.
Example C27_used : can_build engine1 text1 (demo_opp opps1) sources1 9 /\ para_start engine1 9 6 /\ exists l,
  run_build engine1 text1 false sources1 1000 true 0 9 (fun _ => 0%Q) lo_empty = Ok l /\ length (lo_lines l) = 2%nat.
Proof. split; [exact can_build1|]. split; [apply (start_next engine1 9 0); [constructor|lia]|]. eexists. split; [vm_compute; reflexivity|reflexivity]. Qed.
(** An empty text gives an empty layout. *)
Theorem C27_empty_text : forall e text vertical so tabWidth pixels area startY l0, exists y,
  run_build e text vertical so tabWidth pixels area 0 startY l0 = Ok {| lo_runs := []; lo_lines := []; lo_glyphs := []; lo_chars := []; lo_pos := []; lo_start_y := y |}.
Proof. intros. eexists. reflexivity. Qed.
Print Assumptions C27_empty_text.

(** ** C28 and C55 *)

(** In the first paragraph, and in paragraphs of one script, each character is given
    to the shaper with its own script. *)
Theorem C28_scripts_partial : forall e text vertical opp so tabWidth pixels area count startY l0 l,
  can_build e text opp so count -> run_build e text vertical so tabWidth pixels area count startY l0 = Ok l ->
  exists doc y, stored doc y l /\
  Forall (fun s => (exists f pos sep, s = blank e f pos sep) \/
    exists ps pe ss ws ls le, let p := with_widths (para_of (en_info e) text (en_shape e) vertical ss) ws in
      is_para e count ps pe /\ segments_tile ps pe ss /\ ps <= ls < le /\ le <= pe /\
      line_glyphs (en_code e) ps p (en_runs e ps ls (le - ls)) ls le s /\
      (ps = 0 \/ length (script_groups (en_script e) (en_items e ps (pe - ps))) = 1%nat ->
       Forall (fun x => forall y, se_start x <= y < se_end x -> script_is (en_script e) (en_items e ps (pe - ps)) ps y (se_script x)) ss)) doc.
Proof.
  intros e text vertical opp so tabWidth pixels area count startY l0 l HC HE. every_line HC HE.
  exists ps, pe, ss, ws, ls, le. cbv zeta. repeat match goal with |- _ /\ _ => split; [assumption|] end.
  intros D. eapply Forall_impl; [|exact SOK]. intros x (base & sc & sb & sp & limit & LE & _ & _ & _ & A) z Z1. destruct (A z ltac:(lia)) as (_ & _ & _ & _ & _ & _ & S). exact (S D).
Qed.
Print Assumptions C28_scripts_partial.
Example C28_used : can_build engine2 text2 (demo_opp (fun _ => [])) sources2 5 /\ script_groups script1 (en_items engine2 0 1) = [([(97, 1)], 25)].
Proof. split; [exact can_build2|reflexivity]. Qed.

(** In a later paragraph a character is shaped in the script of the run after its
    own: the glyph of character 3 is that of script 8 instead of 25. *)
Theorem C28_later_paragraph_refuted : exists e opp so text count l scr, can_build e text opp so count /\
  run_build e text false so 1000 true 0 count (fun _ => 0%Q) lo_empty = Ok l /\
  is_para e count 2 5 /\ script_is (en_script e) (en_items e 2 3) 2 3 scr /\
  nth 2 (lo_chars l) 0 = 3 /\ nth 2 (lo_glyphs l) 0 = 1000 * 8 + 98 /\ scr = 25 /\
  (forall f s, map hb_id (en_shape e f s false 3 1) = [1000 * s + 98]).
Proof.
  exists engine2, (demo_opp (fun _ => [])), sources2, text2, 5. eexists _, 25. split; [exact can_build2|]. split; [vm_compute; reflexivity|].
  split; [split; [apply (start_next engine2 5 0); [constructor|lia]|]; split; [lia|]; split; reflexivity|].
  split; [exists 0, 2; split; [left; reflexivity|lia]|]. repeat split; reflexivity.
Qed.
Print Assumptions C28_later_paragraph_refuted.

(** Each character is given to the shaper in its own font, bidi level and styles: the
    font is the one the registry gives for its base font and styles, and a text is only
    cut where one of them may change or the registry changes the font. *)
Theorem C55_attributes : forall e text vertical opp so tabWidth pixels area count startY l0 l,
  can_build e text opp so count -> run_build e text vertical so tabWidth pixels area count startY l0 = Ok l ->
  exists doc y, stored doc y l /\
  Forall (fun s => (exists f pos sep, s = blank e f pos sep) \/
    exists ps pe ss ws ls le, let p := with_widths (para_of (en_info e) text (en_shape e) vertical ss) ws in
      is_para e count ps pe /\ segments_tile ps pe ss /\ ps <= ls < le /\ le <= pe /\
      line_glyphs (en_code e) ps p (en_runs e ps ls (le - ls)) ls le s /\
      Forall (fun x => exists base sc sb sp limit, en_sub e base (se_start x) limit (se_script x) sc sb sp = (se_font x, se_end x) /\ se_end x <= limit /\
        edge e so ps pe limit /\
        forall y, se_start x <= y < limit -> lookup (so_table so) y = Some base /\
          nth_error (en_levels e ps) (Z.to_nat (y - ps)) = Some (se_level x) /\
          style_is (source_table (so_small so)) y sc /\ style_is (source_table (so_sub so)) y sb /\ style_is (source_table (so_super so)) y sp) ss) doc.
Proof.
  intros e text vertical opp so tabWidth pixels area count startY l0 l HC HE. every_line HC HE.
  exists ps, pe, ss, ws, ls, le. cbv zeta. repeat match goal with |- _ /\ _ => split; [assumption|] end.
  eapply Forall_impl; [|exact SOK]. intros x (base & sc & sb & sp & limit & LE & LP2 & ED & E & A). exists base, sc, sb, sp, limit. split; [exact E|]. split; [lia|]. split; [exact ED|].
  intros z Z1. destruct (A z Z1) as (A1 & A2 & A3 & A4 & A5 & _ & _). auto.
Qed.
Print Assumptions C55_attributes.
Example C55_used : can_build engine1 text1 (demo_opp opps1) sources1 9 /\ lookup (so_table sources1) 0 = Some 1 /\ lookup (so_table sources1) 8 <> Some 1.
Proof. split; [exact can_build1|]. split; [reflexivity|discriminate]. Qed.

(** ** C29 *)

Lemma merge_from_head : forall ss f e, exists e' r, merge_from f e ss = (f, e') :: r.
Proof. induction ss as [|s ss IH]; intros f e; cbn [merge_from]; [eauto|]. destruct (same_font f (se_font s)); [apply IH|eauto]. Qed.
Lemma merge_from_ends : forall ss a b f, chain a b (map (fun s => (se_start s, se_end s)) ss) -> Forall (fun r => a <= snd r) (merge_from f a ss).
Proof.
  induction ss as [|s ss IH]; intros a b f CH; cbn [merge_from map chain] in *; [constructor; [cbn; lia|constructor]|].
  destruct CH as (-> & LT & CH). destruct (same_font f (se_font s)); [|constructor; [cbn; lia|]];
  (eapply Forall_impl; [|exact (IH _ _ _ CH)]); cbn; intros; lia.
Qed.
Lemma last_in {A} (l : list A) : forall q, l <> [] -> In (last l q) l.
Proof. induction l as [|x l IH]; intros q N; [congruence|]. destruct l as [|y l]; [left; reflexivity|]. right. apply IH. discriminate. Qed.
Lemma last_from {A} (l : list A) : forall x q, last (x :: l) q = last l x.
Proof. induction l as [|y l IH]; intros x q; [reflexivity|]. change (last (x :: y :: l) q) with (last (y :: l) q). rewrite (IH y q), (IH y x). reflexivity. Qed.
Lemma merge_last_end ss a b f q pre post : chain a b (map (fun s => (se_start s, se_end s)) ss) -> merge_from f a ss = pre ++ post -> pre <> [] -> a <= last (map snd pre) q.
Proof.
  intros CH E N. pose proof (merge_from_ends ss a b f CH) as G. rewrite E in G. rewrite Forall_forall in G.
  assert (IN : In (last (map snd pre) q) (map snd pre)) by (apply last_in; destruct pre; [congruence|discriminate]).
  apply in_map_iff in IN. destruct IN as (r & <- & IR). apply G. apply in_app_iff. left. exact IR.
Qed.
Lemma merge_from_fonts : forall ss a b f q, chain a b (map (fun s => (se_start s, se_end s)) ss) -> q <= a ->
  forall pre g e post, merge_from f a ss = pre ++ (g, e) :: post ->
  forall s, In s ss -> se_start s < e -> last (map snd pre) q < se_end s -> same_font g (se_font s) = true \/ g = se_font s.
Proof.
  induction ss as [|s ss IH]; intros a b f q CH Q pre g e post E x IX L1 L2; [destruct IX|].
  cbn [map chain merge_from] in *. destruct CH as (<- & LT & CH). destruct (same_font f (se_font s)) eqn:EQ.
  - assert (Q2 : q <= se_end s) by lia. destruct IX as [<-|IX]; [|exact (IH _ _ _ q CH Q2 pre g e post E x IX L1 L2)].
    destruct pre as [|r pre].
    + left. destruct (merge_from_head ss f (se_end s)) as (e1 & r & M). rewrite M in E. cbn in E. inversion E; subst. exact EQ.
    + pose proof (merge_last_end ss (se_end s) b f q (r :: pre) ((g, e) :: post) CH E ltac:(discriminate)). lia.
  - destruct pre as [|[g0 e0] pre]; cbn [app] in E.
    + injection E as E1 E2 E3. destruct IX as [<-|IX]; [lia|]. exfalso.
      apply (in_map (fun s => (se_start s, se_end s))) in IX. destruct (chain_in _ _ _ _ _ CH IX). lia.
    + injection E as E1 E2 E3. cbn [map snd] in L2. rewrite last_from in L2. destruct IX as [<-|IX].
      * destruct pre as [|r pre].
        -- right. destruct (merge_from_head ss (se_font s) (se_end s)) as (e1 & r & M). rewrite M in E3. cbn in E3. congruence.
        -- pose proof (merge_last_end ss (se_end s) b (se_font s) e0 (r :: pre) ((g, e) :: post) CH E3 ltac:(discriminate)). lia.
      * apply (IH _ _ _ e0 CH ltac:(lia) pre g e post E3 x IX L1 L2).
Qed.
Lemma merged_fonts ss a b : segments_tile a b ss -> forall pre g e post, merged ss = pre ++ (g, e) :: post ->
  forall s, In s ss -> se_start s < e -> last (map snd pre) a < se_end s -> same_font g (se_font s) = true \/ g = se_font s.
Proof.
  destruct ss as [|s ss]; intros CH pre g e post E x IX L1 L2; [destruct IX|]. cbn [merged] in E. unfold segments_tile in CH. cbn [map chain] in CH. destruct CH as (SA & LT & CH).
  destruct IX as [<-|IX].
  - destruct pre as [|r pre].
    + right. destruct (merge_from_head ss (se_font s) (se_end s)) as (e1 & r & M). rewrite M in E. cbn in E. congruence.
    + pose proof (merge_last_end ss (se_end s) b (se_font s) a (r :: pre) ((g, e) :: post) CH E ltac:(discriminate)). lia.
  - apply (merge_from_fonts ss (se_end s) b (se_font s) a CH ltac:(lia) pre g e post E x IX L1 L2).
Qed.
Lemma same_face f g : same_font f g = true \/ f = g -> sf_face f = sf_face g /\ sf_size f = sf_size g.
Proof.
  intros [E|E]; [|subst; auto]. unfold same_font in E. destruct f as [[h w st] z], g as [[h' w' st'] z']. cbn in *. split; [f_equal|]; lia.
Qed.

(** A stored run has the face and size of every segment it shows. *)
Theorem C29_merge_partial : forall e text vertical opp so tabWidth pixels area count startY l0 l,
  can_build e text opp so count -> run_build e text vertical so tabWidth pixels area count startY l0 = Ok l ->
  exists doc y, stored doc y l /\
  Forall (fun s => (exists f pos sep, s = blank e f pos sep) \/
    exists ps pe ss, is_para e count ps pe /\ segments_tile ps pe ss /\ Forall (segment_ok e so ps pe) ss /\
      Forall (fun r => exists f, sr_font r = en_code e f /\
        forall x, In x ss -> se_start x < sr_end r -> sr_start r < se_end x -> sf_face f = sf_face (se_font x) /\ sf_size f = sf_size (se_font x)) (sl_runs s)) doc.
Proof.
  intros e text vertical opp so tabWidth pixels area count startY l0 l HC HE. every_line HC HE.
  exists ps, pe, ss. repeat match goal with |- _ /\ _ => split; [assumption|] end.
  destruct LG as (_ & _ & _ & SH). eapply Forall_impl; [|exact SH]. intros r (_ & sx & nx & lv & pre & f & en & post & _ & _ & E & EF & B1 & B2). exists f. split; [exact EF|].
  intros x IX X1 X2. apply same_face. cbn [with_widths pa_runs para_of] in E. apply (merged_fonts ss ps pe T pre f en post E x IX); lia.
Qed.
Print Assumptions C29_merge_partial.

(** Small capitals are merged with normal text: a run said to be small capitals has a
    character that is not. *)
Theorem C29_styles_refuted : exists e opp so text count l, can_build e text opp so count /\
  run_build e text false so 1000 true 0 count (fun _ => 0%Q) lo_empty = Ok l /\
  omap ru_font (vget (lo_runs l) 2) = Ok 104 /\ omap ru_start (vget (lo_runs l) 2) = Ok 1 /\ omap ru_end (vget (lo_runs l) 2) = Ok 4 /\
  style_is (source_table (so_small so)) 1 true /\ style_is (source_table (so_small so)) 3 false /\
  en_code e (fst (en_sub e 1 3 4 25 false false false)) = 100.
Proof.
  exists engine1, (demo_opp opps1), sources1, text1, 9. eexists. split; [exact can_build1|]. split; [vm_compute; reflexivity|].
  vm_compute. repeat split; reflexivity.
Qed.
Print Assumptions C29_styles_refuted.
