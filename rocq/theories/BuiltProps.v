(** What C32 - C36 and C51 ask of a document holds of every layout the builder makes:
    carets, selections, clicks, line ends and drawing for whatever text was laid out. *)
From Coq Require Import Permutation ZifyBool ZifyNat Qabs.
From Verif Require Import Base BaseFacts ValueRunsModel ValueRunsSpec PackingModel LayoutModel LayoutSpec LayoutProofs LayoutProps.
From Verif Require Import FormattingModel FormattingIterModel FormattingIterSpec DrawModel DrawSpec DrawProps.
From Verif Require Import CursorModel CursorSpec TextBoxModel TextBoxSpec TextBoxProps.
From Verif Require Import BuilderModel BuilderSpec BuilderTileProofs BuilderDocProofs BuilderLineProofs BuilderDemo BuilderProps BuiltSpec BuiltProofs BuiltDemo BuiltBoxDemo TextBoxExample FormattingIterProps.
Open Scope Z_scope.

Lemma laid_out_doc e text opp so tabWidth pixels area count lay : lays_out e text opp so tabWidth pixels area count lay ->
  engine_ok e opp count /\ whole_clusters e text false opp so count /\ 0 <= count < 2 ^ 31 /\
  exists doc y, doc_ok doc /\ stored doc y lay /\ text_lines e text false opp so tabWidth pixels area count 0 doc /\
    Forall (shown_line e text false opp so tabWidth pixels area count) doc.
Proof.
  intros (CB & WC & C & startY & l0 & E). pose proof CB as (EO & _ & [C0 _] & _). split; [exact EO|]. split; [exact WC|]. split; [lia|].
  destruct (built_lines _ _ _ _ _ _ _ _ _ _ _ _ CB E) as (doc & y & ST & TL & F). exists doc, y. split; [|auto].
  apply (@text_doc_ok e text false opp so tabWidth pixels area count EO 0 doc TL). constructor.
Qed.
Ltac doc_of H doc y := let E := fresh "EO" in
  destruct (laid_out_doc _ _ _ _ _ _ _ _ _ H) as (EO & WC & CB & doc & y & DO & ST & TL & SH); exists doc, y; split; [exact DO|]; split; [exact ST|].
Lemma over_runs (P : srun -> Prop) d : Forall (fun s => Forall P (sl_runs s)) d -> Forall P (doc_runs d).
Proof. intros F. apply Forall_forall. intros r I. apply in_flat_map in I. destruct I as (s & S & R). rewrite Forall_forall in F. specialize (F s S). rewrite Forall_forall in F. auto. Qed.
Lemma of_line (P : srun -> Prop) d k s : Forall P (doc_runs d) -> nth_error d k = Some s -> Forall P (sl_runs s).
Proof. intros F N. apply Forall_forall. intros r R. rewrite Forall_forall in F. apply F. apply in_flat_map. exists s. split; [exact (nth_error_In _ _ N)|exact R]. Qed.
Lemma line_nonempty d k s : doc_ok d -> nth_error d k = Some s -> sl_runs s <> [].
Proof. intros D N. unfold doc_ok in D. rewrite Forall_forall in D. apply D. exact (nth_error_In _ _ N). Qed.

Section Laid.
Variables (e : engine) (text : list Z) (opp : Z -> Z -> Prop) (so : sources) (tabWidth : Z) (pixels : bool) (area count : Z).
Hypothesis EO : engine_ok e opp count.
Hypothesis WC : whole_clusters e text false opp so count.
Hypothesis CB : 0 <= count < 2 ^ 31.
Variable doc : sdoc.
Hypothesis SH : Forall (shown_line e text false opp so tabWidth pixels area count) doc.

Lemma laid_ok : Forall run_ok (doc_runs doc).
Proof. apply over_runs. eapply Forall_impl; [|exact SH]. intros s S. exact (shown_ok _ _ _ _ _ _ _ _ _ EO WC CB s S). Qed.
Lemma laid_forward : pen_forward e text false so count tabWidth pixels -> Forall (fun r => qnondecreasing (run_xs r)) (doc_runs doc).
Proof. intros PF. apply over_runs. eapply Forall_impl; [|exact SH]. intros s S. exact (shown_forward _ _ _ _ _ _ _ _ _ s eq_refl PF S). Qed.
Lemma laid_stops B : stops_at_glyphs e text false so count B -> Forall (begins_at_stops B) (doc_runs doc).
Proof. intros SG. apply over_runs. eapply Forall_impl; [|exact SH]. intros s S. exact (shown_stops _ _ _ _ _ _ _ _ _ EO WC B s SG S). Qed.
Lemma laid_single : single_glyphs e text false so count -> Forall (fun r => increasing (logical_chars r)) (doc_runs doc).
Proof. intros SG. apply over_runs. eapply Forall_impl; [|exact SH]. intros s S. exact (shown_single _ _ _ _ _ _ _ _ _ s SG S). Qed.
Lemma laid_adjacent k s : nth_error doc k = Some s -> adjacent (sl_runs s).
Proof. intros N. rewrite Forall_forall in SH. exact (shown_adjacent _ _ _ _ _ _ _ _ _ s eq_refl (SH s (nth_error_In _ _ N))). Qed.
End Laid.

(** ** C32: every position of left-to-right text, with either affinity, is in the run
    and on the line reported for it. *)
Theorem C32_built : forall e text opp so tabWidth pixels area count lay,
  lays_out e text opp so tabWidth pixels area count lay -> left_to_right e count -> 0 < count ->
  exists doc y, doc_ok doc /\ stored doc y lay /\
  forall c, 0 <= cp_get_position c <= count ->
  exists run line, get_run_containing_cursor lay c = Ok (Z.of_nat run, line) /\ run_on_line doc run line /\ run_holds doc run (cp_get_position c).
Proof.
  intros e text opp so tabWidth pixels area count lay H LR POS. doc_of H doc y. intros c C.
  pose proof (doc_nonempty _ _ _ _ _ _ _ _ _ EO WC CB LR doc TL POS) as NE.
  assert (RN : (0 < List.length (doc_runs doc))%nat).
  { destruct doc as [|s d]; [contradiction|]. pose proof (line_nonempty _ 0 s DO eq_refl). unfold doc_runs. cbn [flat_map]. rewrite app_length. destruct (sl_runs s); [contradiction|cbn; lia]. }
  destruct (nth_error (doc_runs doc) 0) as [r0|] eqn:R0; [|apply nth_error_None in R0; lia].
  destruct (nth_error (doc_runs doc) (List.length (doc_runs doc) - 1)) as [rn|] eqn:R1; [|apply nth_error_None in R1; lia].
  apply (C32_every_position doc y c r0 rn lay DO ST); auto.
  - exact (doc_joined _ _ _ _ _ _ _ _ _ EO WC CB LR doc TL).
  - exact (laid_ok _ _ _ _ _ _ _ _ EO WC CB doc SH).
  - rewrite (doc_first _ _ _ _ _ _ _ _ _ EO WC CB LR doc TL _ R0), (doc_last _ _ _ _ _ _ _ _ _ EO WC CB LR doc TL _ R1). exact C.
Qed.
Print Assumptions C32_built.

(** ** C33: every position of every run has a caret between the edges of the run, at
    the edge of a glyph where a group of characters begins, and carets move in the
    direction of the run. *)
Theorem C33_built : forall e text opp so tabWidth pixels area count lay,
  lays_out e text opp so tabWidth pixels area count lay -> pen_forward e text false so count tabWidth pixels ->
  exists doc y, doc_ok doc /\ stored doc y lay /\
  forall pre r post, doc_runs doc = pre ++ r :: post ->
  forall p, sr_start r <= p <= sr_end r -> exists x, get_glyph_offset_in_run lay (List.length pre) p = Ok x /\
  (run_first_x r <= x <= sr_end_x r)%Q /\
  (forall k, (k <= run_len r)%nat -> nth k (logical_chars r) (sr_end r) = p ->
     (forall j, (j < k)%nat -> nth j (logical_chars r) (sr_end r) < p) -> (x == nth k (logical_xs r) 0)%Q) /\
  (forall q, p <= q <= sr_end r -> exists z, get_glyph_offset_in_run lay (List.length pre) q = Ok z /\ LayoutSpec.reads r x z).
Proof.
  intros e text opp so tabWidth pixels area count lay H PF. doc_of H doc y. intros pre r post E.
  assert (I : In r (doc_runs doc)) by (rewrite E; apply in_elt).
  exact (C33_caret doc y pre r post lay DO ST E (proj1 (Forall_forall _ _) (laid_ok _ _ _ _ _ _ _ _ EO WC CB doc SH) r I)
    (proj1 (Forall_forall _ _) (laid_forward _ _ _ _ _ _ _ _ doc SH PF) r I)).
Qed.
Print Assumptions C33_built.

(** ** C34: the range of a selection in any run of the layout. *)
Theorem C34_built : forall e text opp so tabWidth pixels area count lay,
  lays_out e text opp so tabWidth pixels area count lay -> pen_forward e text false so count tabWidth pixels ->
  exists doc y, doc_ok doc /\ stored doc y lay /\
  forall pre r post, doc_runs doc = pre ++ r :: post ->
  forall first last, first <= last ->
  let cut p := Z.max (Z.min p (sr_end r)) (sr_start r) in
  exists a b, get_position_range_in_run lay (List.length pre) first last = Ok (a, b) /\
    (run_first_x r <= a)%Q /\ (a <= b)%Q /\ (b <= sr_end_x r)%Q /\
    get_glyph_offset_in_run lay (List.length pre) (cut first) = Ok (if sr_rtl r then b else a) /\
    get_glyph_offset_in_run lay (List.length pre) (cut last) = Ok (if sr_rtl r then a else b).
Proof.
  intros e text opp so tabWidth pixels area count lay H PF. doc_of H doc y. intros pre r post E.
  assert (I : In r (doc_runs doc)) by (rewrite E; apply in_elt).
  exact (C34_position_range doc y pre r post lay DO ST E (proj1 (Forall_forall _ _) (laid_ok _ _ _ _ _ _ _ _ EO WC CB doc SH) r I)
    (proj1 (Forall_forall _ _) (laid_forward _ _ _ _ _ _ _ _ doc SH PF) r I)).
Qed.
Print Assumptions C34_built.

(** ** C35: a click anywhere at any line gives a caret stop of that line. *)
Theorem C35_built_legal : forall e text opp so tabWidth pixels area count lay B following,
  lays_out e text opp so tabWidth pixels area count lay -> walks B following -> stops_at_glyphs e text false so count B ->
  exists doc y, doc_ok doc /\ stored doc y lay /\
  forall k s w al x, nth_error doc k = Some s ->
  exists c r, find_closest_cursor_position following lay w al k x = Ok c /\
    In r (sl_runs s) /\ B (cp_get_position c) /\ sr_start r <= cp_get_position c <= sr_end r.
Proof.
  intros e text opp so tabWidth pixels area count lay B following H WB SG. doc_of H doc y. intros k s w al x N.
  exact (C35_legal B following doc y k s w al x lay DO ST WB N (line_nonempty _ _ _ DO N) (of_line _ _ _ _ (laid_ok _ _ _ _ _ _ _ _ EO WC CB doc SH) N)
    (of_line _ _ _ _ (laid_stops _ _ _ _ _ _ _ _ EO WC doc SH B SG) N)).
Qed.
Print Assumptions C35_built_legal.

(** It is the nearest one, and a click at a caret gives that caret. *)
Theorem C35_built_nearest : forall e text opp so tabWidth pixels area count lay B following,
  lays_out e text opp so tabWidth pixels area count lay -> pen_forward e text false so count tabWidth pixels -> single_glyphs e text false so count ->
  walks B following -> stops_at_glyphs e text false so count B ->
  exists doc y, doc_ok doc /\ stored doc y lay /\
  forall k s w al, nth_error doc k = Some s ->
  let first := List.length (doc_runs (firstn k doc)) in
  let caret j p X := exists r, nth_error (sl_runs s) j = Some r /\ sr_start r <= p <= sr_end r /\ get_glyph_offset_in_run lay (first + j) p = Ok X in
  (forall x, exists x0 c j X, get_line_x_start lay k w al = Ok x0 /\
    find_closest_cursor_position following lay w al k x = Ok c /\ B (cp_get_position c) /\ caret j (cp_get_position c) X /\
    forall i p Y, B p -> caret i p Y -> (Qabs (x - x0 - X) <= Qabs (x - x0 - Y))%Q) /\
  (forall j p X x0, B p -> caret j p X -> get_line_x_start lay k w al = Ok x0 ->
    (forall i q Y, B q -> caret i q Y -> (Y == X)%Q -> q = p) ->
    exists c, find_closest_cursor_position following lay w al k (x0 + X)%Q = Ok c /\ cp_get_position c = p).
Proof.
  intros e text opp so tabWidth pixels area count lay B following H PF SI WB SG. doc_of H doc y. intros k s w al N first caret.
  pose proof (of_line _ _ _ _ (laid_ok _ _ _ _ _ _ _ _ EO WC CB doc SH) N) as H1. pose proof (of_line _ _ _ _ (laid_stops _ _ _ _ _ _ _ _ EO WC doc SH B SG) N) as H2.
  pose proof (of_line _ _ _ _ (laid_single _ _ _ _ _ _ _ _ doc SH SI) N) as H3. pose proof (of_line _ _ _ _ (laid_forward _ _ _ _ _ _ _ _ doc SH PF) N) as H4.
  pose proof (laid_adjacent _ _ _ _ _ _ _ _ doc SH k s N) as H5. pose proof (line_nonempty _ _ _ DO N) as H6. split.
  - intros x. exact (C35_nearest B following doc y k s w al x lay DO ST WB N H6 H1 H2 H3 H4 H5).
  - exact (C35_round_trip B following doc y k s w al lay DO ST WB N H6 H1 H2 H3 H4 H5).
Qed.
Print Assumptions C35_built_nearest.

(** In left-to-right text the cursor is then on the line that was clicked. *)
Theorem C35_built_on_line : forall e text opp so tabWidth pixels area count lay B following,
  lays_out e text opp so tabWidth pixels area count lay -> left_to_right e count -> walks B following -> stops_at_glyphs e text false so count B ->
  exists doc y, doc_ok doc /\ stored doc y lay /\
  forall k s w al x, nth_error doc k = Some s ->
  exists c run, find_closest_cursor_position following lay w al k x = Ok c /\ get_run_containing_cursor lay c = Ok (run, k).
Proof.
  intros e text opp so tabWidth pixels area count lay B following H LR WB SG. doc_of H doc y. intros k s w al x N.
  apply (C35_on_line B following doc y k s w al x lay DO ST WB).
  - exact (doc_joined _ _ _ _ _ _ _ _ _ EO WC CB LR doc TL).
  - exact (laid_ok _ _ _ _ _ _ _ _ EO WC CB doc SH).
  - exact (doc_ltr _ _ _ _ _ _ _ _ _ EO LR doc TL).
  - exact (doc_blank_after _ _ _ _ _ _ _ _ _ EO WC CB LR doc TL).
  - exact N.
  - exact (of_line _ _ _ _ (laid_stops _ _ _ _ _ _ _ _ EO WC doc SH B SG) N).
Qed.
Print Assumptions C35_built_on_line.

(** ** C36: the start of a line is the first position of the run of the line that comes
    first in the text, or its end if that is right to left; likewise the end. *)
Theorem C36_built_partial : forall e text opp so tabWidth pixels area count lay,
  lays_out e text opp so tabWidth pixels area count lay ->
  exists doc y, doc_ok doc /\ stored doc y lay /\
  forall k s, nth_error doc k = Some s ->
  (exists c r, get_line_start_position lay k = Ok c /\ In r (sl_runs s) /\ (forall q, In q (sl_runs s) -> sr_start r <= sr_start q) /\
    (sr_rtl r = false -> cp_get_position c = sr_start r /\ cp_get_affinity c = ADefault) /\ (sr_rtl r = true -> cp_get_position c = sr_end r)) /\
  (exists c r, get_line_end_position lay k = Ok c /\ In r (sl_runs s) /\ (forall q, In q (sl_runs s) -> sr_end q <= sr_end r) /\
    (sr_rtl r = false -> cp_get_position c = sr_end r) /\ (sr_rtl r = true -> cp_get_position c = sr_start r)).
Proof.
  intros e text opp so tabWidth pixels area count lay H. doc_of H doc y. intros k s N.
  pose proof (of_line _ _ _ _ (laid_ok _ _ _ _ _ _ _ _ EO WC CB doc SH) N) as H1. pose proof (line_nonempty _ _ _ DO N) as H6.
  pose proof (nth_error_In _ _ N) as IN. split.
  - apply (C36_line_start_partial doc y k s lay DO ST N H6 H1).
    + exact (proj1 (Forall_forall _ _) (doc_apart _ _ _ _ _ _ _ _ _ EO WC CB doc TL) s IN).
    + intros r. exact (shown_filled _ _ _ _ _ _ _ _ _ s r (proj1 (Forall_forall _ _) SH s IN)).
  - destruct (C36_line_end_partial doc y k s lay DO ST N H6 H1) as (c & j & r & A & B & C & D & E & _). exists c, r. split; [exact A|]. split; [exact (nth_error_In _ _ B)|]. auto.
Qed.
Print Assumptions C36_built_partial.

(** In left-to-right text they are the smallest and the largest position of the line,
    and the cursor put there is on the line. *)
Theorem C36_built_left_to_right : forall e text opp so tabWidth pixels area count lay,
  lays_out e text opp so tabWidth pixels area count lay -> left_to_right e count ->
  exists doc y, doc_ok doc /\ stored doc y lay /\
  forall k s, nth_error doc k = Some s -> exists a b i j,
    get_line_start_position lay k = Ok a /\ get_line_end_position lay k = Ok b /\
    (exists r, In r (sl_runs s) /\ cp_get_position a = sr_start r) /\ (exists r, In r (sl_runs s) /\ cp_get_position b = sr_end r) /\
    (forall r, In r (sl_runs s) -> cp_get_position a <= sr_start r /\ sr_end r <= cp_get_position b) /\
    get_run_containing_cursor lay a = Ok (i, k) /\ get_run_containing_cursor lay b = Ok (j, k).
Proof.
  intros e text opp so tabWidth pixels area count lay H LR. doc_of H doc y. intros k s N.
  pose proof (laid_ok _ _ _ _ _ _ _ _ EO WC CB doc SH) as H0. pose proof (of_line _ _ _ _ H0 N) as H1. pose proof (line_nonempty _ _ _ DO N) as H6.
  pose proof (nth_error_In _ _ N) as IN. pose proof (doc_ltr _ _ _ _ _ _ _ _ _ EO LR doc TL) as LT. pose proof (of_line _ _ _ _ LT N) as LK. rewrite Forall_forall in LK.
  pose proof (doc_joined _ _ _ _ _ _ _ _ _ EO WC CB LR doc TL) as J. pose proof (doc_blank_after _ _ _ _ _ _ _ _ _ EO WC CB LR doc TL) as BA.
  destruct (C36_line_start_partial doc y k s lay DO ST N H6 H1) as (a & r & A1 & A2 & A3 & A4 & _).
  { exact (proj1 (Forall_forall _ _) (doc_apart _ _ _ _ _ _ _ _ _ EO WC CB doc TL) s IN). }
  { intros r. exact (shown_filled _ _ _ _ _ _ _ _ _ s r (proj1 (Forall_forall _ _) SH s IN)). }
  destruct (C36_line_end_partial doc y k s lay DO ST N H6 H1) as (b & j & q & B1 & B2 & B3 & B4 & _). pose proof (nth_error_In _ _ B2) as B5.
  destruct (A4 (LK r A2)) as [A5 _]. specialize (B4 (LK q B5)).
  destruct (C36_on_line doc y k s a lay DO ST J H0 LT BA N (or_introl A1)) as (i1 & I1). destruct (C36_on_line doc y k s b lay DO ST J H0 LT BA N (or_intror B1)) as (i2 & I2).
  exists a, b, i1, i2. split; [exact A1|]. split; [exact B1|]. split; [exists r; auto|]. split; [exists q; auto|]. split; [|auto].
  intros z Z. rewrite A5, B4. auto.
Qed.
Print Assumptions C36_built_left_to_right.

(** ** C51: left-to-right text that does not end with a separator is drawn as its
    document says, whatever its formatting. *)
Theorem C51_built_partial : forall e text opp so tabWidth pixels area count lay f fm w a,
  lays_out e text opp so tabWidth pixels area count lay -> left_to_right e count -> ~ final_separator e count -> tables_for count f ->
  exists doc y, doc_ok doc /\ stored doc y lay /\
  exists out, draw_text fm lay (views_of f) w a = Ok out /\
    Forall2 draw_eq (filter (fun c => negb (is_rect c)) out) (flat_map (run_calls f) (places w a 0 0 y doc)).
Proof.
  intros e text opp so tabWidth pixels area count lay f fm w a H LR NS TF. doc_of H doc y.
  apply (C51_formatted_partial f count fm doc y w a lay TF DO ST). apply Forall_forall. intros r I.
  destruct (doc_spans _ _ _ _ _ _ _ _ _ EO WC CB LR doc TL) as (body & extra & E & C & X).
  assert (EX : extra = []). { destruct X as [(last & f0 & X1 & X2 & X3 & X4 & _)|X]; [exfalso; apply NS; exists last; auto|exact X]. }
  subst extra. rewrite app_nil_r in E. subst body.
  assert (J : In (span r) (map span (doc_runs doc))) by (apply in_map; exact I). unfold span in J. destruct (chain_in _ _ _ _ _ C J) as (J1 & J2 & J3).
  pose proof (proj1 (Forall_forall _ _) (doc_ltr _ _ _ _ _ _ _ _ _ EO LR doc TL) r I) as RT. pose proof (proj1 (Forall_forall _ _) (laid_ok _ _ _ _ _ _ _ _ EO WC CB doc SH) r I) as RO.
  unfold run_in_text. rewrite RT. split; [lia|]. 
  destruct (in_doc_runs _ _ _ _ _ _ _ _ _ EO doc TL r I) as (s & _ & SS & RS). destruct (shown_range _ _ _ _ _ _ _ _ _ EO CB s r SS RS) as (_ & RE & _).
  destruct RO as (_ & _ & _ & RC & _). eapply Forall_impl; [|exact RC]. cbn. lia.
Qed.
Print Assumptions C51_built_partial.

(** ** C44: the text box lays its text out with the builder.  What was asked of the layouts
    of the box follows from what is asked of the libraries for each text. *)
Definition box_layout (e : list Z -> engine) (so : list Z -> sources) (tabWidth : Z) (pixels : bool) (area : Z) (startY : Q -> Q) (t : list Z) : layout :=
  match run_build (e t) (t ++ [0]) false (so t) tabWidth pixels area (size t) startY lo_empty with Ok l => l | _ => lo_empty end.
Definition box_libraries (e : list Z -> engine) (opp : list Z -> Z -> Z -> Prop) (so : list Z -> sources) (tabWidth : Z) (pixels : bool) (B : list Z -> Z -> Prop) : Prop :=
  forall t, valid_utf8 t -> t <> [] -> size t < 2 ^ 31 - 1 ->
  can_build (e t) (t ++ [0]) (opp t) (so t) (size t) /\ ~ bad_tab (t ++ [0]) tabWidth pixels /\
  whole_clusters (e t) (t ++ [0]) false (opp t) (so t) (size t) /\ stops_at_glyphs (e t) (t ++ [0]) false (so t) (size t) (B t) /\
  forall f, (fo_descent (en_base_info (e t) f) <= fo_ascent (en_base_info (e t) f))%Q.

Lemma box_layouts_good e opp so tabWidth pixels area startY B : box_libraries e opp so tabWidth pixels B -> good_layouts (box_layout e so tabWidth pixels area startY) B.
Proof.
  intros BL t V NE SZ. destruct (BL t V NE SZ) as (CB & NT & WC & SG & HB).
  destruct (C54_defined_partial _ _ false _ _ tabWidth pixels area _ startY lo_empty CB NT) as (_ & _ & l & E & _).
  assert (L : lays_out (e t) (t ++ [0]) (opp t) (so t) tabWidth pixels area (size t) l) by (split; [exact CB|]; split; [exact WC|]; split; [lia|]; exists startY, lo_empty; exact E).
  destruct (laid_out_doc _ _ _ _ _ _ _ _ _ L) as (EO & _ & CC & doc & y & DO & ST & TL & SH). exists doc, y. unfold box_layout. rewrite E.
  split; [exact DO|]. split; [exact ST|]. split.
  - intros ->. assert (0 < size t) by (unfold size; destruct t; [contradiction|cbn [List.length]; lia]).
    destruct (@text_tiled (e t) (t ++ [0]) false (opp t) (so t) tabWidth pixels area (size t) EO 0 [] TL) as (body & extra & ranges & E2 & C & F & _); [constructor|lia|].
    symmetry in E2. apply app_eq_nil in E2. destruct E2 as [-> _]. inversion F; subst. cbn in C. lia.
  - split; [eapply Forall_impl; [|exact SH]; intros s S; exact (shown_height _ _ _ _ _ _ _ _ _ s HB S)|].
    split; [exact (laid_ok _ _ _ _ _ _ _ _ EO WC CC doc SH)|]. exact (laid_stops _ _ _ _ _ _ _ _ EO WC doc SH (B t) SG).
Qed.
Theorem C44_built_partial : forall e opp so tabWidth pixels area startY w al strip tall B following preceding decode white editable multi t clip cs,
  let build (_ : bool) := box_layout e so tabWidth pixels area startY in
  good_stops B following preceding -> box_libraries e opp so tabWidth pixels B ->
  valid_utf8 t -> size t < 2 ^ 31 - 1 -> match clip with Some s => valid_utf8 s | None => True end ->
  allowed_all w al (build false) B following decode white (shows t editable multi) clip cs ->
  exists b clip', steps w al build strip tall following preceding decode white (fresh editable multi, clip) (CReplace t :: cs) = Ok (b, clip') /\
    does_all w al (build false) B following decode white (shows t editable multi) clip cs (view_of b) clip' /\ sound (view_of b).
Proof.
  intros e opp so tabWidth pixels area startY w al strip tall B following preceding decode white editable multi t clip cs build GS BL V SZ CV AL.
  apply C44_history_partial; auto. apply (box_layouts_good e opp). exact BL.
Qed.
Print Assumptions C44_built_partial.

(** ** The contracts are kept by a small engine: one with right-to-left runs, and one for
    left-to-right text of two paragraphs in two fonts. *)
Definition laid (o : outcome layout) : layout := match o with Ok l => l | _ => lo_empty end.
Definition lay1 : layout := laid (run_build engine1 text1 false sources1 1000 true 1500 9 (fun _ => 0%Q) lo_empty).
Lemma laid1 : lays_out engine1 text1 (demo_opp opps1) sources1 1000 true 1500 9 lay1.
Proof.
  split; [exact can_build1|]. split; [apply demo_clusters; exact engine1_ok|]. split; [reflexivity|].
  exists (fun _ => 0%Q), lo_empty. vm_compute. reflexivity.
Qed.
Definition next9 (c : Z) : Z := if c <? 9 then c + 1 else -1.
Example C33_built_used : lays_out engine1 text1 (demo_opp opps1) sources1 1000 true 1500 9 lay1 /\ List.length (lo_lines lay1) = 4%nat /\
  pen_forward engine1 text1 false sources1 9 1000 true.
Proof. split; [exact laid1|]. split; [vm_compute; reflexivity|]. apply demo_forward; [intros; discriminate|right; split; reflexivity]. Qed.
Example C35_built_used : single_glyphs engine1 text1 false sources1 9 /\
  walks (fun x => 0 <= x <= 9) next9 /\ stops_at_glyphs engine1 text1 false sources1 9 (fun x => 0 <= x <= 9) /\
  omap cp_get_position (find_closest_cursor_position next9 lay1 100 XLeft 0 13) = Ok 3 /\ omap cp_get_position (find_closest_cursor_position next9 lay1 100 XLeft 1 13) = Ok 5.
Proof.
  split; [apply demo_single|]. split.
  { intros c C. unfold next9. destruct (Z.ltb_spec c 9); [right|left]; repeat split; intros; lia. }
  split; [apply demo_stops; [exact engine1_ok|lia]|]. split; vm_compute; reflexivity.
Qed.
Definition lay2 : layout := laid (run_build engine2 text2 false sources2 1000 true 1500 5 (fun _ => 0%Q) lo_empty).
Example C36_built_used : lays_out engine2 text2 (demo_opp (fun _ => [])) sources2 1000 true 1500 5 lay2 /\ left_to_right engine2 5 /\ 0 < 5 /\ ~ final_separator engine2 5 /\
  List.length (lo_lines lay2) = 3%nat /\ List.length (lo_runs lay2) = 4%nat.
Proof.
  split; [|split; [|split; [reflexivity|split; [|split; vm_compute; reflexivity]]]].
  - split; [exact can_build2|]. split; [apply demo_clusters; exact (proj1 can_build2)|]. split; [reflexivity|]. exists (fun _ => 0%Q), lo_empty. vm_compute. reflexivity.
  - intros ps pe a b _ _ _ _. exists 0. split; reflexivity.
  - intros (off & P & L & E & S). destruct (starts2 _ P) as [E0|[E0|E0]]; subst off; vm_compute in E, S; try discriminate; lia.
Qed.
Example C44_built_used : good_stops (fun t => on_char t) e_following e_preceding /\ box_libraries box_engine (fun _ _ _ => False) box_sources 1000 true (fun t => on_char t) /\
  List.length (lo_lines (box_layout box_engine box_sources 1000 true 2000 (fun _ => 0%Q) [104; 195; 169; 108; 111])) = 2%nat.
Proof.
  split; [exact e_stops|]. split; [|vm_compute; reflexivity]. intros t V NE SZ. split; [exact (box_can_build t NE)|]. split; [apply C54_tabs; right; split; [reflexivity|discriminate]|].
  split; [exact (box_whole t V)|]. split; [exact (box_stops t NE V)|]. intros f. vm_compute. discriminate.
Qed.
Example C51_built_used : tables_for 5 sample_tables /\ lays_out engine2 text2 (demo_opp (fun _ => [])) sources2 1000 true 1500 5 lay2 /\ left_to_right engine2 5 /\ ~ final_separator engine2 5.
Proof. split; [exact sample_tables_for|]. destruct C36_built_used as (A & B & _ & C & _). exact (conj A (conj B C)). Qed.
