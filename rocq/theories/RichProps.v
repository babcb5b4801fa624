(** C106: markup appears on the screen as its tags say. *)
From Coq Require Import Permutation ZifyBool ZifyNat.
From Verif Require Import Base BaseFacts ValueRunsModel ValueRunsSpec PackingModel FloatModel ColorModel FormattingModel FormattingSpec FormattingIterModel FormattingIterSpec FormattingProps FormattingIterProps.
From Verif Require Import LayoutModel LayoutSpec LayoutProofs LayoutProps DrawModel DrawSpec DrawProps ClipModel ScreenModel DrawProofs ScreenSpec ScreenProps ImmediateModel.
From Verif Require Import BuilderModel BuilderSpec BuilderTileProofs BuilderDocProofs BuilderLineProofs BuilderDemo BuilderProps BuiltSpec BuiltProofs BuiltDemo BuiltProps RichModel RichSpec RichProofs.
Open Scope Z_scope.

Lemma segment_holds ss : forall a b i, segments_tile a b ss -> a <= i < b -> exists x, In x ss /\ se_start x <= i < se_end x.
Proof.
  unfold segments_tile. induction ss as [|x ss IH]; intros a b i T I; cbn [map chain] in T; [lia|]. destruct T as (T1 & T2 & T3).
  destruct (Z_lt_le_dec i (se_end x)); [exists x; split; [left; reflexivity|lia]|]. destruct (IH _ _ i T3 ltac:(lia)) as (y & Y1 & Y2). exists y. split; [right; exact Y1|exact Y2].
Qed.

Lemma not_nil {A B} (l : list A) (x y : B) : l <> [] -> match l with [] => x | _ => y end = y.
Proof. destruct l; [congruence|reflexivity]. Qed.

(** ** C106.  Full statement: whatever the markup, every displayed character is on the screen in
    the font, the colour and the outline its innermost tags ask for, and underlined and struck
    through as they say.  Proved for left-to-right text that does not end with a paragraph
    separator and has no tabs, if memory behind the tables of the builder can be read there (C54),
    and for lines that do not begin where the colour changes (C53). *)
Theorem C106_markup_partial : forall get_family ff handle e m b d,
  is_markup_of get_family ff (ta_text b) d -> ta_rich b = true ->
  let shown := displayed d in let t := map code shown in let n := Z.of_nat (List.length shown) in
  0 < n < 2 ^ 31 -> n < fst (be_font m) -> (forall k, n < br_word_limit (be_flag m k)) -> ~ In 9 t ->
  forall area, to_fixed (if ta_wrapped b then ta_w b else 0) = Ok area ->
  exists runs, parse_inline_formatting get_family ff (ta_text b) (ta_font b) (ta_color b) no_outline = Ok (shown, runs) /\
  forall opp, let so := given handle m runs in
  engine_ok (e t) opp n -> whole_clusters (e t) (t ++ [0]) false opp so n -> pen_forward (e t) (t ++ [0]) false so n (8 * 64) false ->
  left_to_right (e t) n -> ~ final_separator (e t) n ->
  forall vars glyph_info stroke_info plain fm old anchor cursor flash caret, cp_is_valid anchor = false ->
  exists lay doc y segs pieces aids, let ps := places (ta_w b) (ta_xalign b) 0 0 y doc in
    recalc get_family ff handle e m b old = Ok (rich_views runs, lay) /\ doc_ok doc /\ stored doc y lay /\
    tiled (e t) n doc /\ Forall (font_looks get_family d (ta_font b) handle (e t)) (doc_runs doc) /\
    draw_text fm lay (rich_views runs) (ta_w b) (ta_xalign b) = Ok (List.concat segs) /\
    Forall2 (fun p seg => Forall2 draw_eq (filter (fun c => negb (is_rect c)) seg) (run_looks d (ta_color b) no_outline p) /\
      forall strike, steady d (ta_color b) strike (pl_of p) -> lines_look d (ta_color b) (fm (sr_font (pl_of p))) p strike seg) ps segs /\
    show_area get_family ff handle e m vars glyph_info stroke_info plain fm b old anchor cursor flash caret = Ok (List.concat pieces ++ aids) /\
    Forall2 (fun rc ds => exists p, nth_error ps (fst rc) = Some p /\
      call_drawn vars glyph_info stroke_info plain lay (ta_x b) (ta_y b) None p (snd rc) ds) (under 0 (List.concat segs)) pieces /\
    outlines_only aids /\ (cv_run_outlines vars = false -> cv_boundaries vars = false -> aids = []).
Proof.
  intros gf ff handle e m b d M RI shown t n N MF MW NT area AR.
  destruct (parsed gf d (ta_font b) (ta_color b) no_outline ff (ta_text b) M) as (runs & PE & RL). exists runs. split; [exact PE|].
  intros opp so EO WC PF LR NS vars gi si plain fm old anchor cursor flash caret AV.
  assert (LT : Z.of_nat (List.length t) = n) by (unfold t; rewrite map_length; reflexivity).
  pose proof (given_ok gf d (ta_font b) (ta_color b) no_outline handle m runs N RL MF MW) as SO. fold n so in SO.
  pose proof (given_padded gf d (ta_font b) (ta_color b) no_outline handle m runs RL MF MW) as SP. fold so in SP.
  assert (CN : can_build (e t) (t ++ [0]) opp so n).
  { split; [exact EO|]. split; [exact SO|]. split; [|left; exact SP]. split; [lia|]. exists 0. split; [|lia]. unfold zget. destruct (Z.ltb_spec n 0); [lia|].
    unfold vget. rewrite <- LT, Nat2Z.id, nth_error_app2, Nat.sub_diag by apply le_n. reflexivity. }
  assert (NT' : ~ In 9 (t ++ [0])). { rewrite in_app_iff. intros [H|[H|[]]]; [exact (NT H)|discriminate]. }
  destruct (C54_defined_partial _ _ false _ _ (8 * 64) false area _ (aligned_start_y (ta_yalign b) (ta_h b)) old CN (C54_tabs _ _ _ (or_introl NT'))) as (_ & _ & lay & BE & _).
  assert (LO : lays_out (e t) (t ++ [0]) opp so (8 * 64) false area n lay) by (split; [exact CN|]; split; [exact WC|]; split; [lia|]; eauto).
  assert (NE : shown <> []) by (intros H; unfold n in N; rewrite H in N; cbn in N; lia).
  assert (RE : recalc gf ff handle e m b old = Ok (rich_views runs, lay)).
  { unfold recalc, content. rewrite RI, PE. cbn [obind]. fold shown. rewrite (not_nil shown _ _ NE).
    cbv zeta. fold t. rewrite AR. cbn [obind]. change (to_fixed 8) with (Ok (8 * 64)). cbn [obind]. rewrite LT. unfold run_build in BE. cbn [so given so_view so_small so_sub so_super flag_source st_view] in BE. rewrite BE. reflexivity. }
  destruct (laid_out_doc _ _ _ _ _ _ _ _ _ LO) as (_ & _ & CB & doc & y & DO & ST & TL & SHN).
  pose proof (laid_ok _ _ _ _ _ _ _ _ EO WC CB doc SHN) as RO. pose proof (laid_forward _ _ _ _ _ _ _ _ doc SHN PF) as FW.
  pose proof (doc_ltr _ _ _ _ _ _ _ _ _ EO LR doc TL) as RT. rewrite Forall_forall in RT.
  assert (RG : forall r, In r (doc_runs doc) -> 0 <= sr_start r /\ sr_start r < n /\ sr_end r <= n).
  { intros r I. destruct (doc_spans _ _ _ _ _ _ _ _ _ EO WC CB LR doc TL) as (body & extra & E & C & X).
    assert (EX : extra = []). { destruct X as [(last & f0 & X1 & X2 & X3 & X4 & _)|X]; [exfalso; apply NS; exists last; auto|exact X]. }
    subst extra. rewrite app_nil_r in E. subst body.
    assert (J : In (span r) (map span (doc_runs doc))) by (apply in_map; exact I). unfold span in J. destruct (chain_in _ _ _ _ _ C J) as (J1 & J2 & J3).
    destruct (in_doc_runs _ _ _ _ _ _ _ _ _ EO doc TL r I) as (s & _ & SS & RS). destruct (shown_range _ _ _ _ _ _ _ _ _ EO CB s r SS RS) as (_ & RE' & _). lia. }
  assert (IT : Forall (run_in_text n) (doc_runs doc)).
  { apply Forall_forall. intros r I. unfold run_in_text. rewrite (RT r I). destruct (RG r I) as (R1 & R2 & R3). split; [lia|].
    rewrite Forall_forall in RO. destruct (RO r I) as (_ & _ & _ & RC & _). eapply Forall_impl; [|exact RC]. cbn. lia. }
  assert (IC : forall r, In r (doc_runs doc) -> Forall (fun x => 0 <= x < n) (run_chars r)).
  { intros r I. rewrite Forall_forall in RO. destruct (RO r I) as (_ & _ & _ & RC & _). destruct (RG r I) as (R1 & R2 & R3). eapply Forall_impl; [|exact RC]. cbn. lia. }
  pose proof (drawn_for gf d (ta_font b) (ta_color b) no_outline handle runs N RL) as TF. pose proof (drawn_views gf d (ta_font b) (ta_color b) no_outline runs RL) as VE. fold n in TF.
  destruct (C53_lines_partial _ _ fm doc y (ta_w b) (ta_xalign b) lay TF DO ST IT) as (segs & DE & DS).
  assert (SE : selects anchor cursor None) by (left; auto).
  destruct (C91_screen_partial vars gi si plain fm _ _ doc y (ta_w b) (ta_xalign b) lay (ta_x b) (ta_y b) anchor cursor None TF DO ST IT RO FW SE) as (calls & boxes & pieces & aids & E1 & E2 & E3 & E4 & E5 & E6).
  rewrite <- VE in *. rewrite DE in E1. injection E1 as E1. subst calls boxes.
  exists lay, doc, y, segs, pieces, aids. split; [exact RE|]. split; [exact DO|]. split; [exact ST|]. split; [|split; [|split; [exact DE|split; [|split; [|split; [exact E4|auto]]]]]].
  - destruct (@text_tiled _ _ _ _ _ _ _ _ _ EO 0 doc TL (start_first _ _) ltac:(lia)) as (body & extra & ranges & E & C & F & PS & X).
    assert (EX : extra = []). { destruct (X (proj1 N)) as [(last & f0 & X1 & X2 & X3 & X4 & _)|[X' _]]; [exfalso; apply NS; exists last; auto|exact X']. }
    subst extra. rewrite app_nil_r in E. subst body. exists ranges. split; [exact C|]. split; [exact F|].
    intros off P. apply PS; [exact P|]. pose proof (start_bounds EO P). lia.
  - apply Forall_forall. intros r I. destruct (in_doc_runs _ _ _ _ _ _ _ _ _ EO doc TL r I) as (s & _ & SS & RS).
    destruct SS as [(f0 & pos & sep & -> & _)|SS].
    { exists (en_default (e t) f0). cbn in RS. destruct RS as [<-|[]]. split; [reflexivity|]. cbn. intros i HI. lia. }
    destruct SS as (ps & pe & ss & ws0 & ws & ls & le & IP & T & SOK & _ & L1 & L2 & _ & _ & _ & LG & _).
    destruct LG as (TI & _ & _ & LG). rewrite Forall_forall in LG. destruct (LG r RS) as (_ & sx & nx & lv & pre & g & en & post & _ & _ & E & EF & B1 & B2).
    exists g. split; [exact EF|]. intros i HI.
    assert (IR : ls <= sr_start r /\ sr_end r <= le).
    { destruct TI as (l & P & C). assert (J : In (sr_start r, sr_end r) l) by (eapply Permutation_in; [apply Permutation_sym; exact P|]; apply in_map_iff; eauto). destruct (chain_in _ _ _ _ _ C J) as (J1 & J2 & J3). lia. }
    destruct (segment_holds ss ps pe i T ltac:(lia)) as (x & IX & XI). rewrite Forall_forall in SOK. destruct (SOK x IX) as (base & sc & sb & sp & limit & LE & _ & _ & ES & A).
    destruct (A i ltac:(lia)) as (A1 & _ & A3 & A4 & A5 & _). destruct (RG r I) as (R1 & R2 & R3). assert (NI : 0 <= i < n) by lia.
    pose proof (given_font gf d (ta_font b) (ta_color b) no_outline handle m runs RL i NI) as GF. fold so in GF. rewrite GF in A1. injection A1 as <-.
    cbn [so given so_small so_sub so_super] in A3, A4, A5.
    apply (given_flag gf d (ta_font b) (ta_color b) no_outline m runs RL _ _ _ NI) in A3, A4, A5. subst sc sb sp.
    exists (se_font x), (se_start x), (se_end x), limit, (se_script x). split; [exact ES|]. split; [lia|]. apply same_face.
    cbn [with_widths pa_runs para_of] in E. apply (merged_fonts ss ps pe T pre g en post E x IX); lia.
  - assert (PL : forall p, In p (places (ta_w b) (ta_xalign b) 0 0 y doc) -> In (pl_of p) (doc_runs doc)) by (intros p I; rewrite <- (places_of (ta_w b) (ta_xalign b) doc 0 0 y); apply in_map; exact I).
    clear E4 DE. revert PL DS. generalize (places (ta_w b) (ta_xalign b) 0 0 y doc). intros pls PL DS. induction DS as [|p seg pls segs0 (H1 & H2) DS IH]; constructor; [|apply IH].
    + pose proof (IC _ (PL p (or_introl eq_refl))) as C. split; [rewrite (looks_run gf d (ta_font b) (ta_color b) no_outline runs RL p C) in H1; exact H1|].
      intros strike S. eapply looks_lines; eauto. apply H2. eapply looks_steady; eauto.
    + intros q Q. apply PL. right. exact Q.
  - unfold show_area. rewrite RE. cbn [obind fst snd]. unfold render_box. rewrite E2. cbn [obind andb]. rewrite app_nil_r. reflexivity.
Qed.
Print Assumptions C106_markup_partial.

(** "abcdef" with nested tags meets the hypotheses. *)
Definition one_line (t : list Z) : engine := plain_engine (t ++ [0]) (Z.of_nat (List.length t)) [] (fun _ => 640) (fun _ => 0).
Definition font_number (f : font) : Z := f_family f + 10 * f_weight f + 100 * f_style f + 1000 * f_size f.
Definition far_behind : behind := {| be_font := (1000, 0); be_flag := fun _ => 1000 |}.
Definition rich_box (text : bytes) : text_area :=
  {| ta_text := text; ta_rich := true; ta_font := sample_font; ta_color := {| c_r := f32_0; c_g := f32_0; c_b := f32_0; c_a := f32_1 |}; ta_wrapped := false;
     ta_x := 5; ta_y := 20; ta_w := 100; ta_h := 50; ta_xalign := XLeft; ta_yalign := YTop |}.
Example C106_used : let b := rich_box sample_text in let t := map code (displayed sample_doc) in
  is_markup_of sample_family sample_float (ta_text b) sample_doc /\ ta_rich b = true /\ displayed sample_doc = bs "abcdef" /\ ~ In 9 t /\
  6 < fst (be_font far_behind) /\ (forall k, 6 < br_word_limit (be_flag far_behind k)) /\
  to_fixed (if ta_wrapped b then ta_w b else 0) = Ok 0 /\
  engine_ok (one_line t) (fun _ o => In o []) 6 /\ (forall so, whole_clusters (one_line t) (t ++ [0]) false (fun _ o => In o []) so 6) /\
  (forall so, pen_forward (one_line t) (t ++ [0]) false so 6 (8 * 64) false) /\ left_to_right (one_line t) 6 /\ ~ final_separator (one_line t) 6 /\
  map (flag_at sample_doc Sub) [0; 5] = [false; false] /\ map (fun i => font_number (font_at sample_family sample_doc sample_font i)) [0; 1; 3; 4]
    <> map (fun _ => font_number sample_font) [0; 1; 3; 4] /\
  map (fun i => color_eqb (color_at sample_doc (ta_color b) i) (ta_color b)) [0; 1; 5] = [true; false; true] /\
  map (fun i => stroke_visible (stroke_at sample_doc no_outline i)) [0; 1; 5] = [false; false; true].
Proof.
  cbv zeta. split; [exact C14_sample_is_markup|]. split; [reflexivity|]. split; [reflexivity|].
  assert (NT : forall x, In 9 (map code (displayed sample_doc) ++ x) -> In 9 x) by (intros x H; vm_compute in H; intuition discriminate).
  split; [intros H; destruct (NT []); rewrite app_nil_r; exact H|]. split; [cbn; lia|]. split; [intros k; cbn; vm_compute; reflexivity|]. split; [reflexivity|].
  assert (EO : engine_ok (one_line (map code (displayed sample_doc))) (fun _ o => In o []) 6).
  { apply (plain_ok _ 6 []); [split; vm_compute; reflexivity|constructor]. }
  split; [exact EO|]. split; [intros so; apply demo_clusters; exact EO|]. split.
  { intros so. apply demo_forward; [intros; discriminate|]. left. intros H. apply NT in H. destruct H as [H|[]]. discriminate. }
  split; [intros ps pe a b _ _ _ _; exists 0; split; reflexivity|]. split.
  { intros (off & P & L & E & S). cbn in S. lia. }
  split; [reflexivity|]. split; [vm_compute; discriminate|]. split; vm_compute; reflexivity.
Qed.

(** What is on the screen: the font of the run, the character, where it is, and whether it is black. *)
Example C106_screen : let b := rich_box (bs "a<font color=""#ff8000"" size=""20"">b<u>c</u></font><s>d</s>") in
  let fam := sample_family in
  omap (map (fun r => (dr_image r, Qred (r_x (dr_rect r)), Qred (r_w (dr_rect r)), color_eqb (dr_color r) (ta_color b))))
    (show_area fam sample_float font_number one_line far_behind no_aids letter rim 7 sample_metrics b lo_empty (cp_set_invalid 0) 0 0 {| ci_x := 0; ci_y := 0; ci_height := 0; ci_line := 0 |})
  = Ok [(25097, 5%Q, 10%Q, true); (25098, 15%Q, 10%Q, false); (25099, 25%Q, 10%Q, false); (7, 25%Q, 10%Q, false);
        (25100, 35%Q, 10%Q, true); (7, 35%Q, 10%Q, true)].
Proof. vm_compute. reflexivity. Qed.

Lemma nothing_before : exists runs lay, recalc sample_family sample_float font_number one_line far_behind (rich_box (bs "a")) lo_empty = Ok (rich_views runs, lay) /\
  forall fm, exists none, content sample_family sample_float (rich_box (bs "<i></i>")) = Ok ([], none) /\ draw_text fm lay (rich_views none) 100 XLeft = UB /\ exists rs, for_each_run lay 100 XLeft = Ok rs.
Proof.
  assert (L : exists lay, omap snd (recalc sample_family sample_float font_number one_line far_behind (rich_box (bs "a")) lo_empty) = Ok lay /\
    forall fm, exists none, content sample_family sample_float (rich_box (bs "<i></i>")) = Ok ([], none) /\ draw_text fm lay (rich_views none) 100 XLeft = UB /\ exists rs, for_each_run lay 100 XLeft = Ok rs).
  { eexists. split; [vm_compute; reflexivity|]. intros fm. eexists. split; [vm_compute; reflexivity|]. split; [vm_compute; reflexivity|]. eexists. vm_compute. reflexivity. }
  destruct L as (lay & L & D). assert (C : exists r, content sample_family sample_float (rich_box (bs "a")) = Ok (bs "a", r)) by (eexists; vm_compute; reflexivity). destruct C as (r & C).
  exists r, lay. split; [|exact D]. clear D. unfold recalc in *. rewrite C in *. cbn [obind bs list_ascii_of_string] in *. cbv zeta in *.
  repeat match type of L with omap _ (obind ?x _) = _ => destruct x; [cbn [obind] in *|discriminate L..] end. unfold omap, obind in L. cbn in L. congruence.
Qed.
(** Markup that displays nothing: the layout of the text before it stays, and drawing it reads
    behind the end of the table of colours. *)
Theorem C106_nothing_refuted : exists get_family ff handle e m b before d lay v,
  is_markup_of get_family ff (ta_text b) d /\ ta_rich b = true /\ displayed d = [] /\
  recalc get_family ff handle e m before lo_empty = Ok (v, lay) /\
  forall vars glyph_info stroke_info plain fm anchor cursor flash caret, cp_is_valid anchor = false ->
  show_area get_family ff handle e m vars glyph_info stroke_info plain fm b lay anchor cursor flash caret = UB.
Proof.
  destruct nothing_before as (r & lay & E & U).
  exists sample_family, sample_float, font_number, one_line, far_behind, (rich_box (bs "<i></i>")), (rich_box (bs "a")), (DTag TItalic DEnd DEnd), lay, (rich_views r).
  split; [split; [cbn; tauto|left; reflexivity]|]. split; [reflexivity|]. split; [reflexivity|]. split; [exact E|].
  intros vars gi si plain fm anchor cursor flash caret AV. destruct (U fm) as (runs & E2 & U2 & rs & E3). unfold show_area, recalc. rewrite E2. cbn [obind fst snd].
  unfold render_box, draw_formatted, selection. rewrite AV. cbn [ta_w ta_xalign rich_box]. rewrite U2, E3. reflexivity.
Qed.
Print Assumptions C106_nothing_refuted.
