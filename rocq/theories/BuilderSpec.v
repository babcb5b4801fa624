(** Specification of [LayoutBuilder]: shaped paragraphs as lists of glyphs, the
    visual runs and lines they must give, line breaking and tab stops. *)
From Coq Require Export Permutation.
From Verif Require Import Base ValueRunsModel ValueRunsSpec ScriptRunSpec LayoutModel LayoutSpec BuilderModel.
Open Scope Z_scope.

(** ** Shaped paragraphs *)

(** A glyph of a paragraph in logical order: identifier, character, width along the
    line, position across it. *)
Record lglyph := { lg_id : Z; lg_char : Z; lg_width : Z; lg_sec : Z }.
(** A paragraph: its glyphs in logical order, the position across the line after
    the last, and its pieces of one font as (font, end). *)
Record para := { pa_glyphs : list lglyph; pa_end_sec : Z; pa_runs : list (ssfont * Z) }.

Definition count_below (c : Z) (gs : list lglyph) : nat := length (filter (fun g => lg_char g <? c) gs).
Definition lrun_of (p : para) (fe : ssfont * Z) : lrun :=
  {| lr_font := fst fe; lr_end := snd fe; lr_gend := count_below (snd fe) (pa_glyphs p) |}.
(** The builder's arrays for a paragraph. *)
Definition shaped_of (p : para) (cursor : Z) : shaped :=
  {| sh_glyphs := map lg_id (pa_glyphs p); sh_chars := map lg_char (pa_glyphs p); sh_width := map lg_width (pa_glyphs p);
     sh_sec := map lg_sec (pa_glyphs p) ++ [pa_end_sec p]; sh_cursor := cursor; sh_runs := map (lrun_of p) (pa_runs p) |}.

(** The paragraph [ps, pe): glyphs in the order of their characters, font pieces
    that tile it. *)
Definition para_ok (ps pe : Z) (p : para) : Prop :=
  0 <= ps /\ nondecreasing (map lg_char (pa_glyphs p)) /\ Forall (fun g => ps <= lg_char g < pe) (pa_glyphs p) /\
  increasing (ps :: map snd (pa_runs p)) /\ last (map snd (pa_runs p)) ps = pe.

(** The glyphs of the characters [a, b). *)
Definition glyphs_in (p : para) (a b : Z) : list lglyph :=
  filter (fun g => (a <=? lg_char g) && (lg_char g <? b)) (pa_glyphs p).

(** [a, b) cut where the font changes. *)
Fixpoint pieces (runs : list (ssfont * Z)) (a b : Z) : list (ssfont * Z * Z) :=
  match runs with
  | [] => []
  | (f, e) :: runs' =>
      if e <=? a then pieces runs' a b
      else if b <=? e then [(f, a, b)]
      else (f, a, e) :: pieces runs' e b
  end.

(** ** Visual order *)

(** A piece of text to be laid out: font, [start, end), right to left. *)
Definition vpiece : Type := ssfont * Z * Z * bool.
Definition vp_font (v : vpiece) : ssfont := fst (fst (fst v)).
Definition vp_start (v : vpiece) : Z := snd (fst (fst v)).
Definition vp_end (v : vpiece) : Z := snd (fst v).
Definition vp_rtl (v : vpiece) : bool := snd v.

(** The pieces of one bidi run (start, length, level) from left to right, and of a
    line. *)
Definition bidi_pieces (p : para) (r : Z * Z * Z) : list vpiece :=
  let '(s, n, level) := r in
  let ps := pieces (pa_runs p) s (s + n) in
  map (fun x => (x, Z.odd level)) (if Z.odd level then rev ps else ps).
Definition line_pieces (p : para) (rs : list (Z * Z * Z)) : list vpiece := flat_map (bidi_pieces p) rs.

(** The glyphs of a piece from left to right. *)
Definition piece_glyphs (p : para) (v : vpiece) : list lglyph :=
  let gs := glyphs_in p (vp_start v) (vp_end v) in if vp_rtl v then rev gs else gs.

Definition total (gs : list lglyph) : Z := fold_right (fun g w => lg_width g + w) 0 gs.
(** Each glyph is placed after the sum of the widths before it. *)
Fixpoint placed (vertical : bool) (w : Z) (gs : list lglyph) : list sglyph :=
  match gs with
  | [] => []
  | g :: gs' =>
      {| sg_id := lg_id g; sg_char := lg_char g;
         sg_x := fixed (if vertical then lg_sec g else w); sg_y := fixed (if vertical then w else lg_sec g) |}
      :: placed vertical (w + lg_width g) gs'
  end.
(** Position across the line at character [c]. *)
Definition sec_at (p : para) (c : Z) : Z := nth (count_below c (pa_glyphs p)) (map lg_sec (pa_glyphs p) ++ [pa_end_sec p]) 0.

Definition visual_run (code : ssfont -> Z) (vertical : bool) (p : para) (w : Z) (v : vpiece) : srun :=
  let gs := piece_glyphs p v in
  let ex := w + total gs in let es := sec_at p (vp_end v) in
  {| sr_font := code (vp_font v); sr_start := vp_start v; sr_end := vp_end v; sr_offset := 0; sr_rtl := vp_rtl v;
     sr_glyphs := placed vertical w gs;
     sr_end_x := fixed (if vertical then es else ex); sr_end_y := fixed (if vertical then ex else es) |}.
(** The runs of a line, the first starting at [w]. *)
Fixpoint visual_runs (code : ssfont -> Z) (vertical : bool) (p : para) (w : Z) (vs : list vpiece) : list srun :=
  match vs with
  | [] => []
  | v :: vs' => visual_run code vertical p w v :: visual_runs code vertical p (w + total (piece_glyphs p v)) vs'
  end.

(** The highest ascent, not below zero, and the lowest descent, not above. *)
Definition higher (a b : Q) : Q := if Qle_bool b a then a else b.
Definition lower (a b : Q) : Q := if Qle_bool a b then a else b.
Definition line_metrics (info : ssfont -> font_info) (vs : list vpiece) : Q * Q :=
  (fold_left higher (map (fun v => fo_ascent (info (vp_font v))) vs) 0%Q, fold_left lower (map (fun v => fo_descent (info (vp_font v))) vs) 0%Q).
(** [a] is zero or one of [l], and not below either; [d] likewise and not above. *)
Definition top_of (l : list Q) (a : Q) : Prop := (0 <= a)%Q /\ Forall (fun x => (x <= a)%Q) l /\ (a = 0%Q \/ In a l).
Definition bottom_of (l : list Q) (d : Q) : Prop := (d <= 0)%Q /\ Forall (fun x => (d <= x)%Q) l /\ (d = 0%Q \/ In d l).
(** A line reaches from the highest ascent to the lowest descent of the fonts of its
    runs. *)
Definition line_size (code : ssfont -> Z) (info : ssfont -> font_info) (s : sline) : Prop :=
  exists fs d, map sr_font (sl_runs s) = map code fs /\
    top_of (map (fun f => fo_ascent (info f)) fs) (sl_ascent s) /\ bottom_of (map (fun f => fo_descent (info f)) fs) d /\ sl_height s = (sl_ascent s - d)%Q.

Definition line_of (code : ssfont -> Z) (info : ssfont -> font_info) (vertical : bool) (p : para) (rs : list (Z * Z * Z)) : sline :=
  let vs := line_pieces p rs in
  let m := line_metrics info vs in
  {| sl_runs := visual_runs code vertical p 0 vs; sl_height := (fst m - snd m)%Q; sl_ascent := fst m |}.

(** Bidi runs of the line [a, b) in any order: in the order of the text each starts
    where the one before ends. *)
Fixpoint consecutive (a b : Z) (rs : list (Z * Z * Z)) : Prop :=
  match rs with
  | [] => a = b
  | (s, n, _) :: rs' => s = a /\ 0 < n /\ consecutive (a + n) b rs'
  end.
Definition bidi_partition (a b : Z) (rs : list (Z * Z * Z)) : Prop := exists rs', Permutation rs' rs /\ consecutive a b rs'.

(** Among the runs [rs], the first of which has number [n], [high] is one that
    ends last, after character [hend]. *)
Definition highest (n : nat) (rs : list srun) (high : nat) (hend : Z) : Prop :=
  match rs with
  | [] => high = O /\ hend = INT_MIN
  | _ => exists r, nth_error rs (high - n) = Some r /\ (n <= high)%nat /\ sr_end r - 1 = hend /\
           Forall (fun q => sr_end q <= sr_end r) rs
  end.

(** ** Line breaking *)

(** The paragraph with other widths. *)
Fixpoint set_widths (gs : list lglyph) (ws : list Z) : list lglyph :=
  match gs, ws with
  | g :: gs', w :: ws' => {| lg_id := lg_id g; lg_char := lg_char g; lg_width := w; lg_sec := lg_sec g |} :: set_widths gs' ws'
  | _, _ => []
  end.
Definition with_widths (p : para) (ws : list Z) : para :=
  {| pa_glyphs := set_widths (pa_glyphs p) ws; pa_end_sec := pa_end_sec p; pa_runs := pa_runs p |}.

(** The lines [ls, e1), [e1, e2) .. tile [ls, pe) and none is empty. *)
Fixpoint line_ends (ls pe : Z) (es : list Z) : Prop :=
  match es with [] => ls = pe | e :: es' => ls < e /\ line_ends e pe es' end.

(** Only tabs get another width. *)
Definition same_but_tabs (text : list Z) (p : para) (ws : list Z) : Prop :=
  length ws = length (pa_glyphs p) /\
  forall i g, nth_error (pa_glyphs p) i = Some g -> zget text (lg_char g) <> Ok 9 -> nth_error ws i = Some (lg_width g).

(** From [a] to [b] there are only hanging characters. *)
Inductive hanging (next_char : Z -> Z -> Z * Z) (hangs : Z -> bool) (pe : Z) : Z -> Z -> Prop :=
| hanging_nil a : hanging next_char hangs pe a a
| hanging_cons a b : a < pe -> hangs (fst (next_char a pe)) = true ->
    hanging next_char hangs pe (snd (next_char a pe)) b -> hanging next_char hangs pe a b.

(** The glyphs stay within [area] one after the other, or one glyph follows others
    that take no room, or all belong to one character. *)
Definition fits (area : Z) (gs : list lglyph) : Prop :=
  (forall gs1 gs2, gs = gs1 ++ gs2 -> gs1 <> [] -> total gs1 <= area) \/
  (exists gs' g, gs = gs' ++ [g] /\ total gs' = 0) \/
  (forall g1 g2, In g1 gs -> In g2 gs -> lg_char g1 = lg_char g2).
(** Up to hanging characters at its end the line [ls, le) fits. *)
Definition line_fits (next_char : Z -> Z -> Z * Z) (hangs : Z -> bool) (area : Z) (p : para) (pe ls le : Z) : Prop :=
  exists c h, fits area (glyphs_in p ls (Z.min c le)) /\ hanging next_char hangs pe c h /\ le <= h.
(** The line ends at an opportunity, or with the paragraph, or at the start of a glyph
    when there is no opportunity in it at the start of any glyph after the first
    character. *)
Definition breaks_well (opp : Z -> Prop) (p : para) (pe ls le : Z) : Prop :=
  opp le \/ le = pe \/
  (In le (map lg_char (pa_glyphs p)) /\ forall g, In g (pa_glyphs p) -> ls < lg_char g < le -> ~ opp (lg_char g)).
(** No glyph has a negative width. *)
Definition rightward (p : para) : Prop := Forall (fun g => 0 <= lg_width g) (pa_glyphs p).

(** [BreakIterator::preceding] for a set of boundaries: the last one before the
    offset, if there is one. *)
Definition is_preceding (opp : Z -> Prop) (x r : Z) : Prop :=
  (forall o, opp o -> o < x -> o <= r) /\ (opp r /\ r < x \/ r < 0).

(** A tab ends at the next multiple of [base] from the start of the line. *)
Definition tab_stops (text : list Z) (base : Z) (gs : list lglyph) : Prop :=
  forall gs1 g gs2, gs = gs1 ++ g :: gs2 -> zget text (lg_char g) = Ok 9 -> 0 <= total gs1 ->
  total gs1 + lg_width g = base * (total gs1 / base + 1).
(** Up to hanging characters at its end the tabs of the line [ls, le) do so. *)
Definition line_tabs (text : list Z) (next_char : Z -> Z -> Z * Z) (hangs : Z -> bool) (base : Z) (p : para) (pe ls le : Z) : Prop :=
  exists c h, tab_stops text base (glyphs_in p ls (Z.min c le)) /\ hanging next_char hangs pe c h /\ le <= h.

(** The lines of a wrapped paragraph: each has its end and the widths that hold for
    it; [good] is what is asked of each, given the paragraph before and with these
    widths. *)
Fixpoint wrapped (good : para -> para -> Z -> Z -> Prop) (text : list Z) (p : para) (pe ls : Z) (bs : list (Z * list Z)) : Prop :=
  match bs with
  | [] => ls = pe
  | (le, ws) :: bs' =>
      ls < le <= pe /\ same_but_tabs text p ws /\ good p (with_widths p ws) ls le /\ wrapped good text (with_widths p ws) pe le bs'
  end.
(** The lines they give; [runs] are the bidi runs of a line. *)
Fixpoint wrapped_lines (code : ssfont -> Z) (info : ssfont -> font_info) (vertical : bool) (runs : Z -> Z -> list (Z * Z * Z))
  (p : para) (ls : Z) (bs : list (Z * list Z)) : list sline :=
  match bs with
  | [] => []
  | (le, ws) :: bs' =>
      line_of code info vertical (with_widths p ws) (runs ls le) :: wrapped_lines code info vertical runs (with_widths p ws) le bs'
  end.

(** ** Coverage *)

(** Non-empty ranges laid end to end from [a] to [b]. *)
Fixpoint chain (a b : Z) (l : list (Z * Z)) : Prop :=
  match l with
  | [] => a = b
  | (s, e) :: l' => s = a /\ s < e /\ chain e b l'
  end.
(** In some order the runs lie end to end: every character of [a, b) is in exactly
    one of them. *)
Definition runs_tile (a b : Z) (rs : list srun) : Prop :=
  exists l, Permutation l (map (fun r => (sr_start r, sr_end r)) rs) /\ chain a b l.

(** The run that ends with the paragraph also stands for its separator. *)
Definition with_separator (pe sep : Z) (r : srun) : srun :=
  if sr_end r =? pe
  then {| sr_font := sr_font r; sr_start := sr_start r; sr_end := sr_end r; sr_offset := sep; sr_rtl := sr_rtl r;
          sr_glyphs := sr_glyphs r; sr_end_x := sr_end_x r; sr_end_y := sr_end_y r |}
  else r.
Definition separated (pe sep : Z) (lines : list sline) : list sline :=
  map (fun s => {| sl_runs := map (with_separator pe sep) (sl_runs s); sl_height := sl_height s; sl_ascent := sl_ascent s |}) lines.

(** ** What a line shows *)

(** The glyphs of a line from left to right: those of each bidi run, backwards if it
    is right to left. *)
Definition visual_order (p : para) (rs : list (Z * Z * Z)) : list lglyph :=
  flat_map (fun '(s, n, level) => if Z.odd level then rev (glyphs_in p s (s + n)) else glyphs_in p s (s + n)) rs.
Definition keys (gs : list lglyph) : list (Z * Z) := map (fun g => (lg_id g, lg_char g)) gs.
Definition stored_keys (gs : list sglyph) : list (Z * Z) := map (fun g => (sg_id g, sg_char g)) gs.

(** A stored run has the glyphs of its characters in its direction.  Its characters are
    those that one bidi run, whose direction it has, and one piece of a font share. *)
Definition run_shows (code : ssfont -> Z) (ps : Z) (p : para) (rs : list (Z * Z * Z)) (r : srun) : Prop :=
  (let gs := glyphs_in p (sr_start r) (sr_end r) in stored_keys (sr_glyphs r) = keys (if sr_rtl r then rev gs else gs)) /\
  exists s n level pre f e post, In (s, n, level) rs /\ sr_rtl r = Z.odd level /\ pa_runs p = pre ++ (f, e) :: post /\ sr_font r = code f /\
    sr_start r = Z.max s (last (map snd pre) ps) /\ sr_end r = Z.min (s + n) e.
(** The line shows every character of [ls, le) in one run and every glyph once, in
    visual order. *)
Definition line_glyphs (code : ssfont -> Z) (ps : Z) (p : para) (rs : list (Z * Z * Z)) (ls le : Z) (s : sline) : Prop :=
  runs_tile ls le (sl_runs s) /\
  stored_keys (flat_map sr_glyphs (sl_runs s)) = keys (visual_order p rs) /\
  Permutation (visual_order p rs) (glyphs_in p ls le) /\
  Forall (run_shows code ps p rs) (sl_runs s).

(** Along the line each glyph stands after the widths of those before it, and each
    run ends after those of its glyphs too. *)
Definition line_positions (vertical : bool) (p : para) (rs : list (Z * Z * Z)) (ls le : Z) (s : sline) : Prop :=
  (forall gs1 g gs2, visual_order p rs = gs1 ++ g :: gs2 -> exists q, nth_error (flat_map sr_glyphs (sl_runs s)) (length gs1) = Some q /\
     (if vertical then sg_y q else sg_x q) = fixed (total gs1) /\ (if vertical then sg_x q else sg_y q) = fixed (lg_sec g)) /\
  (forall rs1 r rs2, sl_runs s = rs1 ++ r :: rs2 ->
     (if vertical then sr_end_y r else sr_end_x r) = fixed (total (firstn (count_glyphs (rs1 ++ [r])) (visual_order p rs)))) /\
  (vertical = false -> line_width s = fixed (total (glyphs_in p ls le))).

(** ** Itemisation and shaping *)

(** A stretch of text given to the shaper at once. *)
Record segment := { se_start : Z; se_end : Z; se_font : ssfont; se_script : Z; se_level : Z }.

(** A table in memory: [t] are its runs, [pad] what can be read after them. *)
Definition reads {T} (rv : runs_view T) (t pad : table T) : Prop :=
  rv_count rv = length t /\
  (forall i, rv_limit rv i = vget (map fst (t ++ pad)) i) /\ (forall i, rv_value rv i = vget (map snd (t ++ pad)) i).

(** An optional style: off where there is no table. *)
Definition style_is (t : option (table bool)) (x : Z) (b : bool) : Prop :=
  match t with None => b = false | Some t => lookup t x = Some b end.

(** The script of the character at [x] of the text [items] that starts at [ps]. *)
Definition script_is (script : Z -> Z) (items : list (Z * Z)) (ps x s : Z) : Prop :=
  exists a b, In (a, b, s) (laid_out 0 (script_groups script items)) /\ ps + a <= x < ps + b.

Section Segments.
Variables (info : ssfont -> font_info) (text : list Z) (hb_shape : ssfont -> Z -> bool -> Z -> Z -> list hb_glyph) (vertical : bool).

(** How far a glyph moves the pen along and across the line, and how far it is drawn
    from the pen. *)
Definition along (g : hb_glyph) : Z := if vertical then hb_yadv g else hb_xadv g.
Definition off_along (g : hb_glyph) : Z := if vertical then hb_yoff g else hb_xoff g.
Definition aside (g : hb_glyph) : Z := if vertical then hb_xadv g else hb_yadv g.
Definition off_aside (g : hb_glyph) : Z := if vertical then hb_xoff g else hb_yoff g.
Definition is_tab (x : Z) : bool := match zget text x with Ok b => b =? 9 | _ => false end.
Definition next_off (l : list hb_glyph) : Z := match l with [] => 0 | h :: _ => off_along h end.

(** The glyphs of a segment as the shaper gives them: tabs look like spaces; a glyph
    is as wide as its advance, corrected by the offsets of itself and the next. *)
Fixpoint shaped_glyphs (font : ssfont) (start across : Z) (l : list hb_glyph) : list lglyph :=
  match l with
  | [] => []
  | g :: l' =>
      let tab := is_tab (start + hb_cluster g) in
      let adv := if tab && negb vertical then fo_space_advance (info font) else along g in
      let w := adv - off_along g + next_off l' in
      {| lg_id := if tab then fo_space_glyph (info font) else hb_id g; lg_char := hb_cluster g + start;
         lg_width := if vertical then - w else w; lg_sec := across + off_aside g |}
      :: shaped_glyphs font start (across + aside g) l'
  end.
Definition hb_of (s : segment) : list hb_glyph :=
  hb_shape (se_font s) (se_script s) (Z.odd (se_level s)) (se_start s) (se_end s - se_start s).
(** In logical order. *)
Definition segment_glyphs (across : Z) (s : segment) : list lglyph :=
  let gs := shaped_glyphs (se_font s) (se_start s) across (hb_of s) in if Z.odd (se_level s) then rev gs else gs.
Definition across_after (across : Z) (s : segment) : Z := fold_left (fun c g => c + aside g) (hb_of s) across.

Fixpoint segments_glyphs (across : Z) (ss : list segment) : list lglyph :=
  match ss with [] => [] | s :: ss' => segment_glyphs across s ++ segments_glyphs (across_after across s) ss' end.

(** The same face, with the same weight and style, at the same size. *)
Definition same_font (f g : ssfont) : bool :=
  (fh_handle (sf_face f) =? fh_handle (sf_face g)) && (fh_weight (sf_face f) =? fh_weight (sf_face g)) &&
  (fh_style (sf_face f) =? fh_style (sf_face g)) && (sf_size f =? sf_size g).
(** Neighbours of the same face and size are one run. *)
Fixpoint merge_from (f : ssfont) (e : Z) (ss : list segment) : list (ssfont * Z) :=
  match ss with
  | [] => [(f, e)]
  | s :: ss' => if same_font f (se_font s) then merge_from f (se_end s) ss'
                else (f, e) :: merge_from (se_font s) (se_end s) ss'
  end.
Definition merged (ss : list segment) : list (ssfont * Z) :=
  match ss with [] => [] | s :: ss' => merge_from (se_font s) (se_end s) ss' end.

Definition para_of (ss : list segment) : para :=
  {| pa_glyphs := segments_glyphs 0 ss; pa_end_sec := fold_left across_after ss 0; pa_runs := merged ss |}.
End Segments.

(** The segments lie end to end. *)
Definition segments_tile (a b : Z) (ss : list segment) : Prop := chain a b (map (fun s => (se_start s, se_end s)) ss).

(** What the shaper may answer: clusters inside the text it was given, in order. *)
Definition shaper_ok (hb_shape : ssfont -> Z -> bool -> Z -> Z -> list hb_glyph) : Prop :=
  forall f scr rtl a n, 0 < n ->
  Forall (fun g => 0 <= hb_cluster g < n) (hb_shape f scr rtl a n) /\
  nondecreasing (map hb_cluster (if rtl then rev (hb_shape f scr rtl a n) else hb_shape f scr rtl a n)).
(** [get_sub_font] makes progress and stays within the limit. *)
Definition sub_font_ok (sub_font : Z -> Z -> Z -> Z -> bool -> bool -> bool -> ssfont * Z) : Prop :=
  forall base a limit scr sc sb sp, a < limit -> a < snd (sub_font base a limit scr sc sb sp) <= limit.

(** ** The whole text *)

(** What the builder takes from SheenBidi, HarfBuzz, ICU and the font registry. *)
Record engine := {
  en_script : Z -> Z;
  en_info : ssfont -> font_info;
  en_shape : ssfont -> Z -> bool -> Z -> Z -> list hb_glyph;
  en_sub : Z -> Z -> Z -> Z -> bool -> bool -> bool -> ssfont * Z;
  en_runs : Z -> Z -> Z -> list (Z * Z * Z);
  en_code : ssfont -> Z;
  en_next : Z -> Z -> Z * Z;
  en_hangs : Z -> bool;
  en_preceding : Z -> Z -> Z -> Z;
  en_levels : Z -> list Z;
  en_items : Z -> Z -> list (Z * Z);
  en_bound : Z -> Z * Z;
  en_base_info : Z -> font_info;
  en_default : Z -> ssfont
}.
Definition build_text (e : engine) (text : list Z) (vertical : bool) (fonts : runs_view Z) (small sub super : option (runs_view bool))
  (tabWidth : Z) (pixels : bool) (area count : Z) (startY : Q -> Q) (l : layout) : outcome layout :=
  build_layout_info (en_script e) (en_info e) text (en_shape e) vertical (en_sub e) (en_runs e) (en_code e) (en_next e) (en_hangs e)
    (en_preceding e) (en_levels e) (en_items e) (en_bound e) (en_base_info e) (en_default e)
    fonts small sub super tabWidth pixels area count startY l.

(** The starts of the paragraphs; the last one is the end of the text. *)
Inductive para_start (e : engine) (count : Z) : Z -> Prop :=
| start_first : para_start e count 0
| start_next off : para_start e count off -> off < count -> para_start e count (off + fst (en_bound e off)).
(** Paragraphs that tile [0, count): content, then a separator; only the last may
    do without. *)
Definition bounds_ok (e : engine) (count : Z) : Prop :=
  forall off, para_start e count off -> off < count -> let '(plen, sep) := en_bound e off in
  0 < plen /\ 0 <= sep <= plen /\ off + plen <= count /\ (sep = 0 -> off + plen = count).
(** The content of a paragraph is [ps, pe). *)
Definition is_para (e : engine) (count ps pe : Z) : Prop :=
  para_start e count ps /\ ps < count /\ pe = ps + fst (en_bound e ps) - snd (en_bound e ps) /\ ps < pe.
(** The other contracts, for a text of [count] bytes; [opp ps] are the line break
    opportunities of the paragraph at [ps]. *)
Definition engine_ok (e : engine) (opp : Z -> Z -> Prop) (count : Z) : Prop :=
  shaper_ok (en_shape e) /\ sub_font_ok (en_sub e) /\ bounds_ok e count /\
  (forall ps pe, is_para e count ps pe ->
     (forall a b, ps <= a -> a < b -> b <= pe -> bidi_partition a b (en_runs e ps a (b - a))) /\
     (forall a, ps <= a < pe -> a < snd (en_next e a pe) <= pe) /\
     (forall x, is_preceding (fun o => opp ps (ps + o)) x (en_preceding e ps (pe - ps) x)) /\
     (forall o, opp ps o -> o <= pe) /\
     (forall o a, opp ps o -> ps <= a < o -> snd (en_next e a pe) <= o) /\
     pe - ps <= Z.of_nat (length (en_levels e ps)) /\
     decoded (en_items e ps (pe - ps)) /\ bytes (en_items e ps (pe - ps)) = pe - ps).

(** The tables of fonts and styles of a text. *)
Record style_source := { st_view : option (runs_view bool); st_table : table bool; st_pad : table bool }.
Record sources := { so_view : runs_view Z; so_table : table Z; so_pad : table Z; so_small : style_source; so_sub : style_source; so_super : style_source }.
Definition table_ok {T} (rv : runs_view T) (t pad : table T) (count : Z) : Prop :=
  reads rv t pad /\ (length pad <= 1)%nat /\ sorted (t ++ pad) /\ t <> [] /\ Forall (fun l => 0 <= l) (map fst t) /\ final_limit t 0 = count.
Definition style_ok (s : style_source) (count : Z) : Prop :=
  match st_view s with None => True | Some rv => table_ok rv (st_table s) (st_pad s) count end.
Definition sources_ok (so : sources) (count : Z) : Prop :=
  table_ok (so_view so) (so_table so) (so_pad so) count /\ style_ok (so_small so) count /\ style_ok (so_sub so) count /\ style_ok (so_super so) count.
(** After the tables there is a larger limit to read. *)
Definition padded (so : sources) : Prop :=
  so_pad so <> [] /\ (forall s, In s [so_small so; so_sub so; so_super so] -> st_view s <> None -> st_pad s <> []) /\
  (forall l, In l (map fst (so_pad so)) -> final_limit (so_table so) 0 < l) /\
  (forall s l, In s [so_small so; so_sub so; so_super so] -> In l (map fst (st_pad s)) -> final_limit (st_table s) 0 < l).
(** The text ends with a paragraph separator. *)
Definition ends_separated (e : engine) (count : Z) : Prop :=
  forall off, para_start e count off -> off < count -> 0 < snd (en_bound e off).

(** The width of [n] spaces as wide as [w], both in 64ths: a 32-bit number. *)
Definition spaces (w n : Z) : Z := to_int32 (w * n / 64).
(** A tab somewhere in the text, and a tab width that is zero or, when it is in spaces,
    could be. *)
Definition bad_tab (text : list Z) (tabWidth : Z) (pixels : bool) : Prop :=
  exists c old, zget text c = Ok 9 /\ (if pixels then tabWidth else spaces old tabWidth) = 0.

Definition source_table (s : style_source) : option (table bool) := match st_view s with Some _ => Some (st_table s) | None => None end.

Section Text.
Variables (e : engine) (text : list Z) (vertical : bool) (opp : Z -> Z -> Prop) (so : sources) (tabWidth : Z) (pixels : bool) (area count : Z).

(** The attributes of the character at [y] of the paragraph [ps, pe).  The script is
    only promised for the first paragraph and for paragraphs of one script. *)
Definition attributes (ps pe y font scr level : Z) (sc sb sp : bool) : Prop :=
  let groups := script_groups (en_script e) (en_items e ps (pe - ps)) in
  lookup (so_table so) y = Some font /\
  nth_error (en_levels e ps) (Z.to_nat (y - ps)) = Some level /\
  style_is (source_table (so_small so)) y sc /\ style_is (source_table (so_sub so)) y sb /\ style_is (source_table (so_super so)) y sp /\
  In scr (map snd groups) /\
  (ps = 0 \/ length groups = 1%nat -> script_is (en_script e) (en_items e ps (pe - ps)) ps y scr).
(** Where an attribute may change: the paragraph ends, or a run of fonts, of styles, of
    a script or of a level does. *)
Definition edge (ps pe m : Z) : Prop :=
  m = pe \/ In m (map fst (so_table so)) \/
  (exists s, In s [so_small so; so_sub so; so_super so] /\ st_view s <> None /\ In m (map fst (st_table s))) \/
  (exists a b scr, In (a, b, scr) (laid_out 0 (script_groups (en_script e) (en_items e ps (pe - ps)))) /\ m = ps + b) \/
  (ps < m < pe /\ nth_error (en_levels e ps) (Z.to_nat (m - 1 - ps)) <> nth_error (en_levels e ps) (Z.to_nat (m - ps))).
(** All characters of a segment, up to the next edge, have the same attributes, and its
    font is the one the registry gives for them. *)
Definition segment_ok (ps pe : Z) (x : segment) : Prop :=
  exists base sc sb sp limit, se_end x <= limit /\ limit <= pe /\ edge ps pe limit /\
  en_sub e base (se_start x) limit (se_script x) sc sb sp = (se_font x, se_end x) /\
  forall y, se_start x <= y < limit -> attributes ps pe y base (se_script x) (se_level x) sc sb sp.

(** Without wrapping every tab ends at a multiple of the tab width: in pixels, or in
    spaces as wide as the tab was. *)
Definition all_tabs (p p' : para) : Prop :=
  forall gs1 g gs2 g0, pa_glyphs p' = gs1 ++ g :: gs2 -> nth_error (pa_glyphs p) (length gs1) = Some g0 ->
  zget text (lg_char g) = Ok 9 -> 0 <= total gs1 ->
  let base := if pixels then tabWidth else spaces (lg_width g0) tabWidth in
  0 < base -> total gs1 + lg_width g = base * (total gs1 / base + 1).
Definition good_line (ps pe : Z) (p p' : para) (ls le : Z) : Prop :=
  (pixels = true -> 0 < tabWidth -> rightward p -> rightward p') /\
  if area =? 0 then le = pe /\ all_tabs p p'
  else line_fits (en_next e) (en_hangs e) area p' pe ls le /\ breaks_well (opp ps) p' pe ls le /\
       (pixels = true -> 0 < tabWidth -> line_tabs text (en_next e) (en_hangs e) tabWidth p' pe ls le).

Definition paragraph_lines (ps pe sep : Z) (lines : list sline) : Prop :=
  exists ss bs, let p := para_of (en_info e) text (en_shape e) vertical ss in
  segments_tile ps pe ss /\ Forall (segment_ok ps pe) ss /\ para_ok ps pe p /\
  wrapped (good_line ps pe) text p pe ps bs /\
  lines = separated pe sep (wrapped_lines (en_code e) (en_info e) vertical (fun a b => en_runs e ps a (b - a)) p ps bs).

(** An empty line in base font [f] at [pos], standing for [sep] bytes. *)
Definition blank (f pos sep : Z) : sline :=
  let r := empty_run (en_code e (en_default e f)) pos in
  {| sl_runs := [{| sr_font := sr_font r; sr_start := pos; sr_end := pos; sr_offset := sep; sr_rtl := false; sr_glyphs := [];
                    sr_end_x := 0; sr_end_y := 0 |}];
     sl_height := fo_ascent (en_base_info e f) - fo_descent (en_base_info e f); sl_ascent := fo_ascent (en_base_info e f) |}.

(** The lines of the text from [off]: those of each paragraph, a blank line for an
    empty one, and another after a separator that ends the text. *)
Inductive text_lines : Z -> list sline -> Prop :=
| text_end : text_lines count []
| text_para off plen sep f lines extra rest :
    off < count -> en_bound e off = (plen, sep) -> lookup (so_table so) off = Some f ->
    (if 0 <? plen - sep then paragraph_lines off (off + plen - sep) sep lines else lines = [blank f off sep]) ->
    extra = (if (off + plen =? count) && (0 <? sep) then [blank f count 0] else []) ->
    text_lines (off + plen) rest -> text_lines off (lines ++ extra ++ rest).

(** A line starts and ends with the paragraph, at an opportunity or at a glyph. *)
Definition cut_at (ps pe : Z) (p : para) (c : Z) : Prop := c = ps \/ c = pe \/ opp ps c \/ In c (map lg_char (pa_glyphs p)).

(** A stored line: blank where a paragraph starts or the text ends, or characters [ls, le) of a paragraph whose segments were
    shaped with their own attributes; [ws0] are the widths before its tabs were set,
    [ws] those after. *)
Definition shown_line (s : sline) : Prop :=
  (exists f pos sep, s = blank f pos sep /\ para_start e count pos /\ 0 <= sep) \/
  exists ps pe ss ws0 ws ls le, let p0 := para_of (en_info e) text (en_shape e) vertical ss in let p := with_widths p0 ws in
    is_para e count ps pe /\ segments_tile ps pe ss /\ Forall (segment_ok ps pe) ss /\
    same_but_tabs text p0 ws /\ ps <= ls < le /\ le <= pe /\
    same_but_tabs text p0 ws0 /\ (area = 0 -> ls = ps /\ ws0 = map lg_width (pa_glyphs p0)) /\ good_line ps pe (with_widths p0 ws0) p ls le /\
    line_glyphs (en_code e) ps p (en_runs e ps ls (le - ls)) ls le s /\
    line_positions vertical p (en_runs e ps ls (le - ls)) ls le s /\ line_size (en_code e) (en_info e) s /\
    cut_at ps pe p0 ls /\ cut_at ps pe p0 le /\ (pixels = true -> 0 < tabWidth -> rightward p0 -> rightward p) /\
    Forall (fun r => 0 <= sr_offset r) (sl_runs s) /\
    (forall level, en_runs e ps ls (le - ls) = [(ls, le - ls, level)] -> Z.odd level = false -> increasing (map sr_start (sl_runs s))) /\
    para_ok ps pe p0.

(** The runs of a line, separators included, tile [a, b). *)
Definition covers (a b : Z) (s : sline) : Prop :=
  exists l, Permutation l (map (fun r => (sr_start r, sr_end r + sr_offset r)) (sl_runs s)) /\ chain a b l.
(** Lines that tile the text; where a paragraph ends, a line ends. *)
Definition tiled (body : list sline) : Prop :=
  exists ranges, chain 0 count ranges /\ Forall2 (fun r s => covers (fst r) (snd r) s) ranges body /\
  forall off, para_start e count off -> off = 0 \/ In off (map snd ranges).
(** The text ends with a separator. *)
Definition final_separator : Prop :=
  exists off, para_start e count off /\ off < count /\ off + fst (en_bound e off) = count /\ 0 < snd (en_bound e off).
End Text.

(** The byte at a position starts no sequence of several bytes: the null byte after a
    [std::string], say, or the line feed that ends a paragraph. *)
Definition single_byte_at (text : list Z) (i : Z) : Prop := exists b, zget text i = Ok b /\ 0 <= b < 128.
(** Enough is known to build: contracts, tables, a single byte after the text, and either
    readable memory after the tables or a separator at the end. *)
Definition can_build (e : engine) (text : list Z) (opp : Z -> Z -> Prop) (so : sources) (count : Z) : Prop :=
  engine_ok e opp count /\ sources_ok so count /\ (0 <= count /\ single_byte_at text count) /\ (padded so \/ ends_separated e count).
Definition run_build (e : engine) (text : list Z) (vertical : bool) (so : sources) (tabWidth : Z) (pixels : bool) (area count : Z) (startY : Q -> Q) (l : layout) : outcome layout :=
  build_text e text vertical (so_view so) (st_view (so_small so)) (st_view (so_sub so)) (st_view (so_super so)) tabWidth pixels area count startY l.
