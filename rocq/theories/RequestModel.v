(** Model of what is asked of HarfBuzz for each run of text.

    Oracles: the names of scripts and languages, ICU's mapping to upper case. HarfBuzz's buffer is modelled after its
    documentation and its function hb_buffer_add_utf8. The text is well-formed UTF-8, given as characters with their
    numbers of bytes. *)
From Verif Require Import Base BuilderModel.
Open Scope Z_scope.

(** HB_DIRECTION_LTR, RTL, TTB, BTT. *)
Inductive hb_direction := DirLTR | DirRTL | DirTTB | DirBTT.
(** hb_buffer_t: script, language, direction, the flags BOT and EOT, the characters with their clusters, the characters before
    (nearest first) and after them, and whether the buffer holds glyphs already. *)
Record hb_buffer := HbBuffer {
  hf_script : Z; hf_language : Z; hf_direction : hb_direction; hf_bot : bool; hf_eot : bool;
  hf_items : list (Z * Z); hf_pre : list Z; hf_post : list Z; hf_glyphs : bool
}.
(** hb_feature_t: tag, value, first cluster, end of the clusters. *)
Record hb_feature := HbFeature { ff_tag : Z; ff_value : Z; ff_start : Z; ff_end : Z }.

(** HB_TAG of four characters. *)
Definition hb_tag (a b c d : Z) : Z := ((a * 256 + b) * 256 + c) * 256 + d.
Definition SMCP : Z := hb_tag 115 109 99 112.
Definition SUBS : Z := hb_tag 115 117 98 115.
Definition SUPS : Z := hb_tag 115 117 112 115.

(** The first [n] bytes of a text and the rest; [UB] if the text is shorter or the place is inside of a character. *)
Fixpoint cut (n : Z) (cs : list (Z * Z)) : outcome (list (Z * Z) * list (Z * Z)) :=
  if n =? 0 then Ok ([], cs)
  else if n <? 0 then UB
  else match cs with
       | [] => UB
       | c :: cs' => do (a, b) <- cut (n - snd c) cs'; Ok (c :: a, b)
       end.
(** Characters with their clusters, the first at [at]. *)
Fixpoint numbered (at_ : Z) (cs : list (Z * Z)) : list (Z * Z) :=
  match cs with [] => [] | c :: cs' => (fst c, at_) :: numbered (at_ + snd c) cs' end.

(** HarfBuzz: hb_buffer_clear_contents. Flags, script, language and direction are left alone here: they are set afterwards. *)
Definition hb_clear (b : hb_buffer) : hb_buffer :=
  HbBuffer (hf_script b) (hf_language b) (hf_direction b) (hf_bot b) (hf_eot b) [] [] [] false.
(** HarfBuzz: hb_buffer_add_utf8. The text before is taken if the buffer is still empty and the item does not start the text; the text after is
    replaced each time. At most five characters of each are kept. *)
Definition hb_add_utf8 (b : hb_buffer) (text : list (Z * Z)) (textLength itemOffset itemLength : Z) : outcome hb_buffer :=
  if hf_glyphs b then UB
  else
    do (txt, _) <- cut textLength text;
    do (before, rest) <- cut itemOffset txt;
    do (item, after) <- cut itemLength rest;
    let pre := match hf_items b with [] => if 0 <? itemOffset then firstn 5 (rev (map fst before)) else hf_pre b | _ => hf_pre b end in
    Ok (HbBuffer (hf_script b) (hf_language b) (hf_direction b) (hf_bot b) (hf_eot b)
          (hf_items b ++ numbered itemOffset item) pre (firstn 5 (map fst after)) false).
(** HarfBuzz: hb_buffer_set_script, hb_buffer_set_language, hb_buffer_set_direction, hb_buffer_set_flags. *)
Definition hb_set (b : hb_buffer) (script language : Z) (d : hb_direction) (bot eot : bool) : hb_buffer :=
  HbBuffer script language d bot eot (hf_items b) (hf_pre b) (hf_post b) (hf_glyphs b).

(** src/layout_builder.cpp:688-699 [maybe_add_tag_runs] *)
Definition maybe_add_tag_runs (features : list hb_feature) (tag count : Z) (needs synthesizing : bool) : list hb_feature :=
  if negb needs || synthesizing then features else features ++ [HbFeature tag 1 0 (wrap32 count)].

Definition text_bytes (cs : list (Z * Z)) : Z := fold_right (fun c n => snd c + n) 0 cs.

Section Request.
(** [hb_script_from_string(uscript_getShortName(script))]; [hb_language_from_string(locale.getLanguage())]; [CaseMap::utf8ToUpper]
    for a script. *)
Variable script_tag : Z -> Z.
Variable language : Z.
Variable to_upper : Z -> list (Z * Z) -> list (Z * Z).

(** src/layout_builder.cpp:376-420: everything up to [hb_shape]. [paragraph] is the text from [paragraphText] on; offset and count are relative
    to it. Result: the buffer and the features. *)
Definition shape_request (b : hb_buffer) (font : ssfont) (paragraph : list (Z * Z)) (offset count paragraphLength script : Z)
    (reversed vertical : bool) : outcome (hb_buffer * list hb_feature) :=
  let direction := if vertical then (if reversed then DirBTT else DirTTB) else (if reversed then DirRTL else DirLTR) in
  let b := hb_clear b in
  let b := hb_set b (script_tag script) language direction (offset =? 0) (offset + count =? paragraphLength) in
  do (b, count) <-
    (if sf_syn_small font then
       do (_, rest) <- cut offset paragraph;
       do (run, _) <- cut count rest;
       let upper := to_upper script run in
       do b <- hb_add_utf8 b upper (text_bytes upper) 0 (text_bytes upper);
       Ok (b, text_bytes upper)
     else
       do b <- hb_add_utf8 b paragraph paragraphLength offset 0;
       do (_, rest) <- cut offset paragraph;
       do b <- hb_add_utf8 b rest (paragraphLength - offset) 0 count;
       Ok (b, count));
  let fs := maybe_add_tag_runs [] SMCP count (sf_small font) (sf_syn_small font) in
  let fs := maybe_add_tag_runs fs SUBS count (sf_sub font) (sf_syn_sub font) in
  let fs := maybe_add_tag_runs fs SUPS count (sf_super font) (sf_syn_super font) in
  Ok (b, fs).

(** One run after the other with the builder's one buffer; [shape] is what [hb_shape] leaves in it: glyphs. *)
Record run_request := RunRequest { rq_font : ssfont; rq_paragraph : list (Z * Z); rq_offset : Z; rq_count : Z; rq_length : Z; rq_script : Z; rq_reversed : bool; rq_vertical : bool }.
Variable shape : hb_buffer -> list hb_feature -> hb_buffer.
Definition leave_glyphs (b : hb_buffer) : hb_buffer :=
  HbBuffer (hf_script b) (hf_language b) (hf_direction b) (hf_bot b) (hf_eot b) (hf_items b) (hf_pre b) (hf_post b) true.
Fixpoint shape_requests (b : hb_buffer) (qs : list run_request) : outcome (list (hb_buffer * list hb_feature)) :=
  match qs with
  | [] => Ok []
  | q :: qs' =>
      do (b, fs) <- shape_request b (rq_font q) (rq_paragraph q) (rq_offset q) (rq_count q) (rq_length q) (rq_script q) (rq_reversed q) (rq_vertical q);
      do rest <- shape_requests (leave_glyphs (shape b fs)) qs';
      Ok ((b, fs) :: rest)
  end.
End Request.
