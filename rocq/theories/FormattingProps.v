(** C11-C16: inline markup.  [get_family] (the font registry's lookup) and
    [from_chars_float] (the standard library's float parser) are arbitrary. *)
From Verif Require Import Base ValueRunsModel ValueRunsSpec FloatModel ColorModel FormattingModel FormattingSpec
  FormattingLexProofs FormattingAttrProofs FormattingProofs.
Open Scope Z_scope.

(** Sample arguments for the examples. *)
Definition sample_family (name : bytes) : Z := if bytes_eqb name (bs "Mono") then 3 else 65535.
Definition sample_float (s : bytes) : option f32 := if bytes_eqb s (bs "0.5") then Some (f32_div f32_1 (f32_of_Z 2)) else None.
Definition sample_font : font := {| f_family := 0; f_weight := 3; f_style := 0; f_size := 12 |}.
Definition sample_parse (s : bytes) := parse_inline_formatting sample_family sample_float s sample_font color_zero stroke_init.

(** ** C11 *)

(** Every text is the markup of some document, or is returned as it is with the
    default values, or makes the parser overrun a buffer (see C15). *)
Theorem C11_rejected_markup_verbatim :
  forall get_family from_chars_float text f c k,
  ~ (exists d, is_markup_of get_family from_chars_float text d) ->
  ~ long_weight text -> ~ three_digit_channel text ->
  exists runs, parse_inline_formatting get_family from_chars_float text f c k = Ok (text, runs) /\
    let n := Z.of_nat (List.length text) in
    fr_fonts runs = build [(n, f)] /\ fr_colors runs = build [(n, c)] /\ fr_strokes runs = build [(n, k)] /\
    forall b, fr_flags runs b = build [(n, false)].
Proof.
  intros gf ff text f c k H N1 N2.
  destruct (parse_cases gf ff f c k text) as [[_ [B|B]]|[H1|[H1 _]]]; try contradiction.
  eexists. split; [exact H1|]. cbn. auto.
Qed.
Print Assumptions C11_rejected_markup_verbatim.

(** An unclosed tag. *)
Example C11_example :
  omap fst (sample_parse (bs "a<i>b")) = Ok (bs "a<i>b") /\
  omap (fun r => fr_fonts (snd r)) (sample_parse (bs "a<i>b")) = Ok (build [(5, sample_font)]).
Proof. split; vm_compute; reflexivity. Qed.

(** ** C12 *)

Theorem C12_tables_cover_text :
  forall get_family from_chars_float text f c k d,
  is_markup_of get_family from_chars_float text d ->
  exists out runs, parse_inline_formatting get_family from_chars_float text f c k = Ok (out, runs) /\
    let covers := fun T (r : value_runs T) =>
      exists t, r = build t /\ t <> [] /\ sorted t /\
        (forall q, In q t -> 0 <= fst q <= Z.of_nat (List.length out)) /\
        final_limit t 0 = Z.of_nat (List.length out) in
    covers _ (fr_fonts runs) /\ covers _ (fr_colors runs) /\ covers _ (fr_strokes runs) /\
    forall b, covers _ (fr_flags runs b).
Proof.
  intros gf ff text f c k d M.
  destruct (parse_markup gf ff f c k text d M) as (runs & -> & G1 & G2 & G3 & G4).
  eexists _, runs. split; [reflexivity|]. cbn zeta.
  assert (H : forall T (g : style -> T) r, table_gives r (map g (map snd (styled gf (base_style f c k) d))) ->
    exists t, r = build t /\ t <> [] /\ sorted t /\
      (forall q, In q t -> 0 <= fst q <= Z.of_nat (List.length (map fst (styled gf (base_style f c k) d)))) /\
      final_limit t 0 = Z.of_nat (List.length (map fst (styled gf (base_style f c k) d)))).
  { intros T g r (t & A & B & C & D & E & _). exists t. rewrite !map_length in *. auto. }
  split; [eapply H, G1|]. split; [eapply H, G2|]. split; [eapply H, G3|]. intros b. eapply H, (G4 b).
Qed.
Print Assumptions C12_tables_cover_text.

Example C12_example :
  omap (fun r => fr_flags (snd r) Strike) (sample_parse (bs "ab<s>c</s>d<s>ef</s>"))
  = Ok (build [(2, false); (3, true); (4, false); (6, true)]).
Proof. vm_compute. reflexivity. Qed.

(** ** C13 *)

(** The text of document [d] is displayed as the characters of [d]: the markup is
    what [text_of] adds to them. *)
Theorem C13_displayed_text :
  forall get_family from_chars_float text f c k d,
  is_markup_of get_family from_chars_float text d ->
  exists runs, parse_inline_formatting get_family from_chars_float text f c k
               = Ok (map fst (paths [] d), runs) /\
    subseq (map fst (paths [] d)) text /\ ~ In "<"%char (map fst (paths [] d)).
Proof.
  intros gf ff text f c k d M.
  destruct (parse_markup gf ff f c k text d M) as (runs & E & _).
  destruct (inner_style gf (base_style f c k) d) as [Hf _]. rewrite <- Hf.
  exists runs. split; [exact E|]. destruct M as (W & T). split.
  - destruct T as [->|(j & ->)]; [|apply subseq_app_r]; apply styled_subseq.
  - eapply styled_no_lt; eauto.
Qed.
Print Assumptions C13_displayed_text.

(** Whatever is returned is either displayed verbatim or comes from a document. *)
Theorem C13_subsequence :
  forall get_family from_chars_float text f c k out runs,
  parse_inline_formatting get_family from_chars_float text f c k = Ok (out, runs) ->
  subseq out text /\ (out = text \/ ~ In "<"%char out).
Proof.
  intros gf ff text f c k out runs E.
  destruct (parse_cases gf ff f c k text) as [[H _]|[(d & M)|[H _]]]; [congruence| |].
  - destruct (C13_displayed_text gf ff text f c k d M) as (r & E2 & H1 & H2).
    rewrite E in E2. injection E2 as -> ->. auto.
  - rewrite E in H. injection H as -> _. split; [apply subseq_refl|auto].
Qed.
Print Assumptions C13_subsequence.

Theorem C13_plain_text_unchanged :
  forall get_family from_chars_float text f c k,
  ~ In "<"%char text -> ~ In (ch 255) text ->
  exists runs, parse_inline_formatting get_family from_chars_float text f c k = Ok (text, runs) /\
    runs_give runs (map (fun _ => base_style f c k) text).
Proof.
  intros gf ff text f c k H1 H2.
  destruct (parse_markup gf ff f c k text (plain_doc text)) as (runs & E & G).
  { split; [now apply plain_wf|]. left. symmetry. apply plain_text_of. }
  rewrite plain_styled, !map_map in *. cbn [fst snd] in *. rewrite map_id in E. eauto.
Qed.
Print Assumptions C13_plain_text_unchanged.

Example C13_example :
  omap fst (sample_parse (bs "x<!-- note --><font face=""Mono"" size=""20"">y<u>z</u></font>&amp;<s>!</s>"))
  = Ok (bs "xyz&amp;!").
Proof. vm_compute. reflexivity. Qed.
Example C13_plain_example : omap fst (sample_parse (bs "no > markup")) = Ok (bs "no > markup").
Proof. vm_compute. reflexivity. Qed.

(** ** C14 *)

Theorem C14_innermost_tag_wins :
  forall get_family from_chars_float text f c k d,
  is_markup_of get_family from_chars_float text d ->
  exists out runs, parse_inline_formatting get_family from_chars_float text f c k = Ok (out, runs) /\
    out = map fst (paths [] d) /\
    forall i x path, nth_error (paths [] d) i = Some (x, path) ->
    let at_i := fun T (r : value_runs T) => get_value (vr_view r) (Z.of_nat i) in
    at_i _ (fr_fonts runs)
      = Ok {| f_family := innermost (sets_family get_family) path (f_family f);
              f_weight := innermost sets_weight path (f_weight f);
              f_style := innermost sets_slant path (f_style f);
              f_size := innermost sets_size path (f_size f) |} /\
    at_i _ (fr_colors runs) = Ok (innermost sets_color path c) /\
    at_i _ (fr_strokes runs) = Ok (innermost sets_stroke path k) /\
    forall b, at_i _ (fr_flags runs b) = Ok (innermost (sets_flag b) path false).
Proof.
  intros gf ff text f c k d M.
  destruct (parse_markup gf ff f c k text d M) as (runs & E & G1 & G2 & G3 & G4).
  destruct (inner_style gf (base_style f c k) d) as [Hf Hi].
  eexists _, runs. split; [exact E|]. split; [exact Hf|]. intros i x path Hn at_i.
  destruct (Hi i x path Hn) as (s & Hs & A1 & A2 & A3 & A4 & A5 & A6 & A7).
  assert (H : forall T (g : style -> T) r, table_gives r (map g (map snd (styled gf (base_style f c k) d))) ->
    get_value (vr_view r) (Z.of_nat i) = Ok (g s)).
  { intros T g r (t & _ & _ & _ & _ & _ & B). apply B. now rewrite !nth_error_map, Hs. }
  split; [|split; [|split]].
  - unfold at_i. rewrite (H _ _ _ G1). cbn [base_style s_font] in *. destruct (s_font s). cbn in *. congruence.
  - unfold at_i. rewrite (H _ _ _ G2). now rewrite A5.
  - unfold at_i. rewrite (H _ _ _ G3). now rewrite A6.
  - intros b. unfold at_i. rewrite (H _ _ _ (G4 b)). now rewrite A7.
Qed.
Print Assumptions C14_innermost_tag_wins.

(** The parser accepts nothing but markup of documents: what it returns is either
    the verbatim default or the meaning of a document. *)
Theorem C14_accepts_only_documents :
  forall get_family from_chars_float text f c k r,
  parse_inline_formatting get_family from_chars_float text f c k = Ok r ->
  (exists d, is_markup_of get_family from_chars_float text d) \/ r = make_default_formatting_runs text f c k.
Proof.
  intros gf ff text f c k r E.
  destruct (parse_cases gf ff f c k text) as [[H _]|[H|[H _]]]; [congruence|auto|]. right. congruence.
Qed.
Print Assumptions C14_accepts_only_documents.

(** A document with nested tags meets the hypotheses. *)
Definition sample_doc : doc :=
  DChar "a"%char (DTag (TFont [FASpace; FAColor (bs "#ff8000") 255 128 0; FASpace; FASize (bs "20") 20])
    (DChar "b"%char (DTag (TFont [FASpace; FAFace (bs "Mono"); FASpace; FAWeight (bs "Bold") 6])
       (DChar "c"%char (DTag TItalic (DChar "d"%char DEnd) DEnd)) (DChar "e"%char DEnd)))
    (DTag (TStroke [FormattingSpec.SASpace; SAThickness (bs "3") 3; SATransparency (bs "0.5") (f32_div f32_1 (f32_of_Z 2))])
       (DChar "f"%char DEnd) DEnd)).
Definition sample_text : bytes :=
  bs "a<font color=""#ff8000"" size=""20"">b<font face=""Mono"" weight=""Bold"">c<i>d</i></font>e</font><stroke thickness=""3""transparency=""0.5"">f</stroke>".
Example C14_sample_is_markup : is_markup_of sample_family sample_float sample_text sample_doc.
Proof.
  split; [|left; reflexivity].
  assert (U : forall a b, decimal a -> decimal b -> uint_syntax (2 ^ 32) [a; b] (number [a; b])).
  { intros a b Ha Hb. exists [a; b], []. repeat split; auto; try discriminate.
    pose proof Ha; pose proof Hb. unfold decimal in *. cbn -[code Z.mul Z.add Z.sub Z.pow].
    change (10 ^ Z.of_nat 1) with 10. change (10 ^ Z.of_nat 0) with 1. change (2 ^ 32) with 4294967296. nia. }
  assert (Q : forall s, forallb (fun c => negb (code c =? 34) && negb (code c =? 255)) s = true -> quotable s).
  { intros s Hs. rewrite forallb_forall in Hs. apply Forall_forall. intros x Hx. specialize (Hs x Hx). lia. }
  assert (W1 : weight_syntax (bs "Bold") 6).
  { split; [cbn; lia|]. right. exists (bs "bold").
    split; [unfold weight_name; cbn; auto 10|left; vm_compute; reflexivity]. }
  assert (T3 : uint_syntax 256 (bs "3") 3).
  { exists (bs "3"), []. repeat split; auto; try discriminate. constructor; [split; vm_compute; discriminate|constructor]. }
  assert (C1 : color_syntax (bs "#ff8000") 255 128 0).
  { exact (CS_hex "f" "f" "8" "0" "0" "0" 15 15 8 0 0 0 eq_refl eq_refl eq_refl eq_refl eq_refl eq_refl). }
  assert (D1 : uint_syntax (2 ^ 32) (bs "20") 20) by (apply (U "2"%char "0"%char); split; vm_compute; discriminate).
  cbn [doc_wf sample_doc tag_wf].
  repeat (match goal with
          | |- _ /\ _ => split
          | |- Forall _ (_ :: _) => apply Forall_cons
          | |- Forall _ [] => apply Forall_nil
          | |- quotable _ => apply Q; reflexivity
          end || assumption || exact Logic.I || (vm_compute; discriminate) || cbn [font_attr_wf stroke_attr_wf]).
  reflexivity.
Qed.
Example C14_example :
  omap (fun r => (fst r, fr_fonts (snd r))) (sample_parse sample_text)
  = Ok (bs "abcdef",
        build [(1, sample_font);
               (2, {| f_family := 0; f_weight := 3; f_style := 0; f_size := 20 |});
               (3, {| f_family := 3; f_weight := 6; f_style := 0; f_size := 20 |});
               (4, {| f_family := 3; f_weight := 6; f_style := 1; f_size := 20 |});
               (5, {| f_family := 0; f_weight := 3; f_style := 0; f_size := 20 |});
               (6, sample_font)]).
Proof. vm_compute. reflexivity. Qed.

(** ** C15 *)

(** Full statement: [forall text, parse ... <> UB].  Proved for texts without the
    two attribute shapes that overrun a buffer; refuted for both. *)
Theorem C15_memory_safe_partial :
  forall get_family from_chars_float text f c k,
  ~ long_weight text -> ~ three_digit_channel text ->
  parse_inline_formatting get_family from_chars_float text f c k <> UB.
Proof.
  intros gf ff text f c k N1 N2 E.
  destruct (parse_cases gf ff f c k text) as [[_ [B|B]]|[(d & M)|[H _]]]; try contradiction.
  - destruct (parse_markup gf ff f c k text d M) as (r & H & _). congruence.
  - congruence.
Qed.
Print Assumptions C15_memory_safe_partial.

(** Well-formed documents are always safe. *)
Theorem C15_documents_safe :
  forall get_family from_chars_float text f c k d,
  is_markup_of get_family from_chars_float text d ->
  exists r, parse_inline_formatting get_family from_chars_float text f c k = Ok r.
Proof.
  intros gf ff text f c k d M. destruct (parse_markup gf ff f c k text d M) as (r & H & _). eauto.
Qed.
Print Assumptions C15_documents_safe.

(** A weight attribute of 17 bytes writes past a 16-byte array. *)
Theorem C15_weight_overflow_refuted :
  exists text, forall get_family from_chars_float f c k,
    parse_inline_formatting get_family from_chars_float text f c k = UB.
Proof.
  exists (bs "<font weight=""extra extra light"">x</font>"). intros. vm_compute. reflexivity.
Qed.
Print Assumptions C15_weight_overflow_refuted.

(** So does an ordinary three-digit colour channel. *)
Theorem C15_rgb_overflow_refuted :
  exists text, forall get_family from_chars_float f c k,
    parse_inline_formatting get_family from_chars_float text f c k = UB.
Proof.
  exists (bs "<font color=""rgb(255,0,0)"">x</font>"). intros. vm_compute. reflexivity.
Qed.
Print Assumptions C15_rgb_overflow_refuted.

(** ** C16 *)

(** The loops of the parser are bounded by one more than the input length; the
    bound is never exhausted. *)
Theorem C16_terminates :
  forall get_family from_chars_float text f c k,
  parse_inline_formatting get_family from_chars_float text f c k <> OutOfFuel.
Proof.
  intros gf ff text f c k E.
  destruct (parse_cases gf ff f c k text) as [[H _]|[(d & M)|[H _]]]; try congruence.
  destruct (parse_markup gf ff f c k text d M) as (r & H & _). congruence.
Qed.
Print Assumptions C16_terminates.

Example C16_example : sample_parse (bs "<s><u><i>") <> OutOfFuel.
Proof. vm_compute. discriminate. Qed.
