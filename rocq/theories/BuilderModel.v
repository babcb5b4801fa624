(** Model of [LayoutBuilder].

    Oracles (section variables): SheenBidi (paragraph boundaries, levels, visual
    runs of a line), HarfBuzz (the shaped glyphs of a run, with the small-capital
    case mapping and [remap_char_indices] folded in), ICU (script of a code point,
    decoding, white space, [BreakIterator::preceding]), and the font registry
    ([get_sub_font], font metrics).
    Simplifications: signed 32-bit sums of widths are not wrapped ([mul_fixed] is);
    26.6 fixed-point numbers become exact rationals where the source converts them to
    [float]; the conversion of the parameters to fixed point is left to the caller. *)
From Coq Require Export QArith.
From Verif Require Import Base BinarySearchModel ValueRunsModel ScriptRunModel LayoutModel.
Open Scope Z_scope.

(** src/font_common.hpp:51-75 [FaceDataHandle]; src/font.hpp:75-85 [SingleScriptFont]. *)
Record face_handle := { fh_handle : Z; fh_weight : Z; fh_style : Z }.
Record ssfont := {
  sf_face : face_handle; sf_size : Z; sf_weight : Z; sf_style : Z;
  sf_sub : bool; sf_super : bool; sf_small : bool;
  sf_syn_sub : bool; sf_syn_super : bool; sf_syn_small : bool
}.
(** src/font_common.hpp:60-62, src/font.hpp:96-98: the two [operator==]. *)
Definition face_eqb (a b : face_handle) : bool :=
  (fh_handle a =? fh_handle b) && (fh_weight a =? fh_weight b) && (fh_style a =? fh_style b).
Definition ssfont_eqb (a b : ssfont) : bool := face_eqb (sf_face a) (sf_face b) && (sf_size a =? sf_size b).

(** src/font_data.hpp:31-60 [FontData]: what the builder reads of it. *)
Record font_info := { fo_ascent : Q; fo_descent : Q; fo_space_glyph : Z; fo_space_advance : Z }.

(** hb_glyph_info_t and hb_glyph_position_t. *)
Record hb_glyph := { hb_id : Z; hb_cluster : Z; hb_xadv : Z; hb_yadv : Z; hb_xoff : Z; hb_yoff : Z }.

(** src/layout_builder.hpp:54-58 [LogicalRun]. *)
Record lrun := { lr_font : ssfont; lr_end : Z; lr_gend : nat }.
(** src/layout_builder.hpp:62-71.  [sh_width] is [m_glyphPositions[primaryAxis]],
    [sh_sec] the other one. *)
Record shaped := {
  sh_glyphs : list Z; sh_chars : list Z; sh_width : list Z; sh_sec : list Z; sh_cursor : Z; sh_runs : list lrun
}.
(** src/layout_builder.cpp:650-665 [reset]. *)
Definition sh_empty : shaped :=
  {| sh_glyphs := []; sh_chars := []; sh_width := []; sh_sec := []; sh_cursor := 0; sh_runs := [] |}.
Definition with_width (s : shaped) (w : list Z) : shaped :=
  {| sh_glyphs := sh_glyphs s; sh_chars := sh_chars s; sh_width := w; sh_sec := sh_sec s;
     sh_cursor := sh_cursor s; sh_runs := sh_runs s |}.

(** src/layout_builder.cpp:95-98 [mul_fixed]. *)
Definition mul_fixed (a b : Z) : Z := to_int32 (Z.shiftr (a * b) 6).

(** ** Iterators of the itemisation *)

(** src/layout_builder.cpp:26-50 [ScriptRunValueIterator]. *)
Record script_iter := { st_iter : siter; st_start : Z; st_limit : Z; st_value : Z }.
(** src/layout_builder.cpp:52-83 [LevelsIterator]: [lv_rest] are the levels from
    [m_levels] to [m_end]. *)
Record level_iter := { lv_rest : list Z; lv_value : Z; lv_limit : Z }.

(** src/layout_builder.cpp:59-62, 74-77: the loop over equal levels. *)
Fixpoint skip_level (v : Z) (rest : list Z) (i : Z) : list Z * Z :=
  match rest with
  | x :: rest' => if x =? v then skip_level v rest' (i + 1) else (rest, i)
  | [] => ([], i)
  end.
(** src/layout_builder.cpp:54-63. *)
Definition lv_make (levels : list Z) (start : Z) : outcome level_iter :=
  do v <- vget levels 0;
  let '(rest, i) := skip_level v levels start in
  Ok {| lv_rest := rest; lv_value := v; lv_limit := i |}.
(** src/layout_builder.cpp:68-77 [advance_to]; every turn drops a level. *)
Fixpoint lv_advance_loop (fuel : nat) (it : level_iter) (index : Z) : outcome level_iter :=
  match lv_rest it with
  | [] => Ok it
  | v :: _ =>
      if lv_limit it <=? index then
        match fuel with
        | O => OutOfFuel
        | S fuel' =>
            let '(rest, i) := skip_level v (lv_rest it) (lv_limit it) in
            lv_advance_loop fuel' {| lv_rest := rest; lv_value := v; lv_limit := i |} index
        end
      else Ok it
  end.
Definition lv_advance_to (it : level_iter) (index : Z) : outcome level_iter :=
  lv_advance_loop (length (lv_rest it)) it index.

(** The iterators of one paragraph and their values, as sum types. *)
Inductive biter :=
| IFont (rv : runs_view Z) (i : nat)
| IScript (it : script_iter)
| ILevel (it : level_iter)
| IBool (it : maybe_iter bool).
Inductive bval := VFont (f : Z) | VScript (s : Z) | VLevel (l : Z) | VBool (b : bool).

Section Builder.
(** ICU [uscript_getScript]. *)
Variable script : Z -> Z.

(** src/layout_builder.cpp:28-34: constructor; [next] on exhausted text leaves the
    fields at zero. *)
Definition st_make (items : list item) (start : Z) : outcome script_iter :=
  do (r, s) <- si_next script (si_make items);
  match r with
  | Some (_, limit, v) => Ok {| st_iter := s; st_start := start; st_limit := limit; st_value := v |}
  | None => Ok {| st_iter := s; st_start := start; st_limit := 0; st_value := 0 |}
  end.
(** src/layout_builder.cpp:39-44 [advance_to]. *)
Definition st_advance_to (it : script_iter) (index : Z) : outcome script_iter :=
  if st_limit it <=? index then
    do (r, s) <- si_next script (st_iter it);
    match r with
    | Some (_, limit, v) => Ok {| st_iter := s; st_start := st_start it; st_limit := limit; st_value := v |}
    | None => Ok {| st_iter := s; st_start := st_start it; st_limit := st_limit it; st_value := st_value it |}
    end
  else Ok it.

(** [get_limit], [get_value], [advance_to] of the four kinds
    (src/layout_builder.cpp:36-37, 65-66; src/value_runs_iterator.hpp). *)
Definition b_limit (it : biter) : outcome Z :=
  match it with
  | IFont rv i => it_get_limit rv i
  | IScript s => Ok (st_limit s + st_start s)
  | ILevel l => Ok (lv_limit l)
  | IBool m => mi_get_limit m
  end.
Definition b_value (it : biter) : outcome bval :=
  match it with
  | IFont rv i => omap VFont (it_get_value rv i)
  | IScript s => Ok (VScript (st_value s))
  | ILevel l => Ok (VLevel (lv_value l))
  | IBool m => omap VBool (mi_get_value m)
  end.
Definition b_advance (it : biter) (index : Z) : outcome biter :=
  match it with
  | IFont rv i => omap (IFont rv) (it_advance_to rv i index)
  | IScript s => omap IScript (st_advance_to s index)
  | ILevel l => omap ILevel (lv_advance_to l index)
  | IBool m => omap IBool (mi_advance_to m index)
  end.

(** ** Shaping *)

(** [FontRegistry::get_font_data]. *)
Variable info : ssfont -> font_info.
(** The readable bytes of the text. *)
Variable text : list Z.
(** hb_shape: font, script, right-to-left, start and length of the run; clusters are
    relative to the start. *)
Variable hb_shape : ssfont -> Z -> bool -> Z -> Z -> list hb_glyph.
Variable vertical : bool.

Definition prim_adv (g : hb_glyph) : Z := if vertical then hb_yadv g else hb_xadv g.
Definition prim_off (g : hb_glyph) : Z := if vertical then hb_yoff g else hb_xoff g.
Definition sec_adv (g : hb_glyph) : Z := if vertical then hb_xadv g else hb_yadv g.
Definition sec_off (g : hb_glyph) : Z := if vertical then hb_xoff g else hb_yoff g.

Definition TAB : Z := 9.

(** src/layout_builder.cpp:448-459: secondary positions; tabs become spaces.
    [start] is [offset + paragraphStart]. *)
Fixpoint hb_pass (font : ssfont) (start cursor : Z) (gs : list hb_glyph) : outcome (list hb_glyph * list Z * Z) :=
  match gs with
  | [] => Ok ([], [], cursor)
  | g :: gs' =>
      do b <- zget text (start + hb_cluster g);
      let g' := if b =? TAB
                then {| hb_id := fo_space_glyph (info font); hb_cluster := hb_cluster g;
                        hb_xadv := fo_space_advance (info font); hb_yadv := hb_yadv g;
                        hb_xoff := hb_xoff g; hb_yoff := hb_yoff g |}
                else g in
      do (gs'', secs, cursor') <- hb_pass font start (cursor + sec_adv g) gs';
      Ok (g' :: gs'', (cursor + sec_off g) :: secs, cursor')
  end.
(** src/layout_builder.cpp:461-489: widths in the order of the shaper. *)
Fixpoint hb_widths (gs : list hb_glyph) : list Z :=
  match gs with
  | [] => []
  | g :: gs' =>
      ((prim_adv g - prim_off g + match gs' with [] => 0 | h :: _ => prim_off h end) * (if vertical then -1 else 1))
      :: hb_widths gs'
  end.

(** src/layout_builder.cpp:376-490 [shape_logical_run]; [start] is absolute. *)
Definition shape_logical_run (s : shaped) (font : ssfont) (start count scr : Z) (reversed : bool) : outcome shaped :=
  do (gs, secs, cursor) <- hb_pass font start (sh_cursor s) (hb_shape font scr reversed start count);
  let order {A} (l : list A) := if reversed then rev l else l in
  Ok {| sh_glyphs := sh_glyphs s ++ order (map hb_id gs);
        sh_chars := sh_chars s ++ order (map (fun g => hb_cluster g + start) gs);
        sh_width := sh_width s ++ order (hb_widths gs);
        sh_sec := sh_sec s ++ order secs;
        sh_cursor := cursor; sh_runs := sh_runs s |}.

(** src/layout_builder.cpp:270-280: extend the last logical run or start one. *)
Definition add_logical_run (s : shaped) (font : ssfont) (end_ : Z) : shaped :=
  let new := {| lr_font := font; lr_end := end_; lr_gend := length (sh_glyphs s) |} in
  let runs :=
    match rev (sh_runs s) with
    | r :: rest => if ssfont_eqb (lr_font r) font
                   then rev rest ++ [{| lr_font := lr_font r; lr_end := end_; lr_gend := length (sh_glyphs s) |}]
                   else sh_runs s ++ [new]
    | [] => sh_runs s ++ [new]
    end in
  {| sh_glyphs := sh_glyphs s; sh_chars := sh_chars s; sh_width := sh_width s; sh_sec := sh_sec s;
     sh_cursor := sh_cursor s; sh_runs := runs |}.

(** [FontRegistry::get_sub_font]: base font, offset, limit, script, small capitals,
    subscript, superscript; the font and the new offset. *)
Variable sub_font : Z -> Z -> Z -> Z -> bool -> bool -> bool -> ssfont * Z.

(** src/layout_builder.cpp:262-281: the loop of the callback. *)
Fixpoint shape_segment (fuel : nat) (s : shaped) (off limit base scr level : Z) (sc sb sp : bool) : outcome (shaped * Z) :=
  if off <? limit then
    match fuel with
    | O => OutOfFuel
    | S fuel' =>
        let '(font, off') := sub_font base off limit scr sc sb sp in
        do s <- shape_logical_run s font off (off' - off) scr (Z.odd level);
        shape_segment fuel' (add_logical_run s font off') off' limit base scr level sc sb sp
    end
  else Ok (s, off).

(** The callback for each intersection. *)
Fixpoint shape_calls (s : shaped) (off : Z) (calls : list (Z * list bval)) : outcome shaped :=
  match calls with
  | [] => Ok s
  | (limit, [VFont base; VScript scr; VLevel level; VBool sc; VBool sb; VBool sp]) :: calls' =>
      do (s, off) <- shape_segment (Z.to_nat (limit - off)) s off limit base scr level sc sb sp;
      shape_calls s off calls'
  | _ => UB (* the iterators are passed in this order *)
  end.

(** ** Visual runs *)

(** SBParagraphCreateLine, SBLineGetRunsPtr: (offset, length, level). *)
Variable line_runs : Z -> Z -> Z -> list (Z * Z * Z).
(** The font as the layout table keeps it. *)
Variable font_code : ssfont -> Z.

(** [scalbnf(w, -6)]. *)
Definition fixed (w : Z) : Q := w # 64.

Definition append_pos (l : layout) (w sec : Z) : layout :=
  if vertical then append_glyph_position l (fixed sec) (fixed w) else append_glyph_position l (fixed w) (fixed sec).

(** src/layout_builder.cpp:601-628: the glyphs with the given indices, one after the
    other; the width so far. *)
Fixpoint emit_glyphs (s : shaped) (l : layout) (idx : list nat) (w : Z) : outcome (layout * Z) :=
  match idx with
  | [] => Ok (l, w)
  | i :: idx' =>
      do g <- vget (sh_glyphs s) i;
      do c <- vget (sh_chars s) i;
      do sec <- vget (sh_sec s) i;
      let l := append_pos (append_char_index (append_glyph l g) c) w sec in
      do gw <- vget (sh_width s) i;
      emit_glyphs s l idx' (w + gw)
  end.

(** What the walk over a line carries: the layout, the width so far, the run with
    the highest character end and that end. *)
Record walk := { wk_lay : layout; wk_w : Z; wk_high : nat; wk_high_end : Z }.

(** First and last glyph of logical run [run]. *)
Definition run_first_glyph (s : shaped) (run : nat) : outcome nat :=
  match run with O => Ok O | S j => omap lr_gend (vget (sh_runs s) j) end.

(** src/layout_builder.cpp:577-631 [append_visual_run]. *)
Definition append_visual_run (s : shaped) (k : walk) (run : nat) (cs ce : Z) (reversed : bool) : outcome walk :=
  do first <- run_first_glyph s run;
  do r <- vget (sh_runs s) run;
  let last := lr_gend r in
  let '(high, highEnd) := if wk_high_end k <? ce then (length (lo_runs (wk_lay k)), ce) else (wk_high k, wk_high_end k) in
  do vf <- binary_search first (last - first) (fun i => omap (fun c => c <? cs) (vget (sh_chars s) i));
  do vl <- binary_search vf (last - vf) (fun i => omap (fun c => c <=? ce) (vget (sh_chars s) i));
  let idx := seq vf (vl - vf) in
  do (l, w) <- emit_glyphs s (wk_lay k) (if reversed then rev idx else idx) (wk_w k);
  do sec <- vget (sh_sec s) vl;
  Ok {| wk_lay := append_run (append_pos l w sec) (font_code (lr_font r)) cs (ce + 1) reversed;
        wk_w := w; wk_high := high; wk_high_end := highEnd |}.

(** src/layout_builder.cpp:519-525, 550-556: the largest ascent and lowest descent. *)
Definition grow (m : Q * Q) (f : font_info) : Q * Q :=
  (if qltb (fst m) (fo_ascent f) then fo_ascent f else fst m, if qltb (fo_descent f) (snd m) then fo_descent f else snd m).

(** src/layout_builder.cpp:515-537: a left-to-right bidi run [.., re]. *)
Fixpoint walk_ltr (fuel : nat) (s : shaped) (k : walk) (m : Q * Q) (run : nat) (c re : Z) : outcome (walk * (Q * Q)) :=
  match fuel with
  | O => OutOfFuel
  | S fuel' =>
      do r <- vget (sh_runs s) run;
      let m := grow m (info (lr_font r)) in
      if re <? lr_end r then do k <- append_visual_run s k run c re false; Ok (k, m)
      else do k <- append_visual_run s k run c (lr_end r - 1) false; walk_ltr fuel' s k m (run + 1) (lr_end r) re
  end.
(** src/layout_builder.cpp:545-568: a right-to-left bidi run [rs, ..]; [--run] below
    zero would be undefined at the next access. *)
Fixpoint walk_rtl (fuel : nat) (s : shaped) (k : walk) (m : Q * Q) (run : nat) (c rs : Z) : outcome (walk * (Q * Q)) :=
  match fuel with
  | O => OutOfFuel
  | S fuel' =>
      do start <- (match run with O => Ok 0 | S j => omap lr_end (vget (sh_runs s) j) end);
      do r <- vget (sh_runs s) run;
      let m := grow m (info (lr_font r)) in
      if start <=? rs then do k <- append_visual_run s k run rs c true; Ok (k, m)
      else do k <- append_visual_run s k run start c true;
           match run with O => UB | S j => walk_rtl fuel' s k m j (start - 1) rs end
  end.
(** src/layout_builder.cpp:502-570: the loop over the bidi runs. *)
Fixpoint walk_bidi (s : shaped) (k : walk) (m : Q * Q) (runs : list (Z * Z * Z)) : outcome (walk * (Q * Q)) :=
  match runs with
  | [] => Ok (k, m)
  | (rs, len, level) :: runs' =>
      let re := rs + len - 1 in
      let n := length (sh_runs s) in
      do (k, m) <-
        (if Z.odd level
         then do run <- binary_search 0 n (fun i => omap (fun r => lr_end r <=? re) (vget (sh_runs s) i));
              walk_rtl (S n) s k m run re rs
         else do run <- binary_search 0 n (fun i => omap (fun r => lr_end r <=? rs) (vget (sh_runs s) i));
              walk_ltr (S n) s k m run rs re);
      walk_bidi s k m runs'
  end.
(** src/layout_builder.cpp:492-575 [compute_line_visual_runs]; [ps] names the
    paragraph.  Result: layout, highest run, its end. *)
Definition compute_line_visual_runs (s : shaped) (ps : Z) (l : layout) (ls le : Z) (high : nat) (highEnd : Z)
  : outcome (layout * nat * Z) :=
  do (k, m) <- walk_bidi s {| wk_lay := l; wk_w := 0; wk_high := high; wk_high_end := highEnd |} (0%Q, 0%Q)
    (line_runs ps ls (le - ls));
  do l <- append_line (wk_lay k) (fst m - snd m)%Q (fst m);
  Ok (l, wk_high k, wk_high_end k).

(** ** Tabs and line breaking *)

(** The width of a tab when the line is [w] wide so far (src/layout_builder.cpp:321-323,
    361-363, 641-642); the remainder of a division by zero is undefined. *)
Definition tab_stop (tabWidth : Z) (pixels : bool) (old w : Z) : outcome Z :=
  let base := if pixels then tabWidth else mul_fixed old tabWidth in
  if base =? 0 then UB else Ok (base - Z.rem w base).

(** src/layout_builder.cpp:320-324: the width of glyph [i], set first if it is a tab. *)
Definition tab_width (s : shaped) (tabWidth : Z) (pixels : bool) (widths : list Z) (i : nat) (w : Z) : outcome (list Z * Z) :=
  do c <- vget (sh_chars s) i;
  do b <- zget text c;
  do old <- vget widths i;
  if b =? TAB then do new <- tab_stop tabWidth pixels old w; do widths <- vset widths i new; Ok (widths, new)
  else Ok (widths, old).

(** src/layout_builder.cpp:359-367, 637-647: set the tab widths of the [n] glyphs
    from [i]. *)
Fixpoint apply_tabs (n : nat) (s : shaped) (tabWidth : Z) (pixels : bool) (widths : list Z) (i : nat) (w : Z) : outcome (list Z) :=
  match n with
  | O => Ok widths
  | S n' => do (widths, gw) <- tab_width s tabWidth pixels widths i w; apply_tabs n' s tabWidth pixels widths (S i) (w + gw)
  end.

(** src/layout_builder.cpp:638: [m_logicalRuns[runIndex]] is read for each glyph. *)
Fixpoint check_runs (n : nat) (s : shaped) (i runIndex : nat) : outcome unit :=
  match n with
  | O => Ok tt
  | S n' => do r <- vget (sh_runs s) runIndex; check_runs n' s (S i) (if (lr_gend r =? i)%nat then S runIndex else runIndex)
  end.
(** src/layout_builder.cpp:633-648 [apply_tab_widths_no_line_break]. *)
Definition apply_tab_widths_no_line_break (s : shaped) (tabWidth : Z) (pixels : bool) : outcome (list Z) :=
  do _ <- check_runs (length (sh_chars s)) s 0 0;
  apply_tabs (length (sh_chars s)) s tabWidth pixels (sh_width s) 0 0.

(** src/layout_builder.cpp:319-332: glyphs up to the first that does not fit. *)
Fixpoint fill_line (fuel : nat) (s : shaped) (tabWidth : Z) (pixels : bool) (area : Z) (widths : list Z) (g : nat) (w : Z)
  : outcome (list Z * nat * Z) :=
  if (g <? length (sh_glyphs s))%nat then
    match fuel with
    | O => OutOfFuel
    | S fuel' =>
        do (widths, gw) <- tab_width s tabWidth pixels widths g w;
        if area <? w + gw then Ok (widths, g, w)
        else fill_line fuel' s tabWidth pixels area widths (S g) (w + gw)
    end
  else Ok (widths, g, w).

(** [U8_NEXT_OR_FFFD] at an absolute position, for a text that ends at the given
    one: the code point and the next position; [u_isWhitespace] or [u_iscntrl];
    [BreakIterator::preceding] on the paragraph at a start, of a length, for a
    relative offset. *)
Variable next_char : Z -> Z -> Z * Z.
Variable hangs : Z -> bool.
Variable preceding : Z -> Z -> Z -> Z.

(** src/layout_builder.cpp:673-679: over white space and control characters. *)
Fixpoint skip_hanging (fuel : nat) (ps count c : Z) : outcome (option Z * Z) :=
  if c <? count then
    match fuel with
    | O => OutOfFuel
    | S fuel' =>
        let '(chr, nx) := next_char (ps + c) (ps + count) in
        let c := nx - ps in
        if hangs chr then skip_hanging fuel' ps count c else Ok (Some c, c)
    end
  else Ok (None, c).
(** The macro [U8_FWD_1(s, i, length)] (src/layout_builder.cpp:683), with its reads:
    the byte at [i] and, after a lead byte, those that may continue the sequence.
    Bytes are 0 - 255.  The macro tests [i != length], not [i < length]. *)
Definition u8_lead (b : Z) : bool := (194 <=? b) && (b <=? 244).
Definition u8_trail (b : Z) : bool := (128 <=? b) && (b <=? 191).
Definition u8_lead3_t1 (b t : Z) : bool :=
  u8_trail t && (if b =? 224 then 160 <=? t else if b =? 237 then t <=? 159 else true).
Definition u8_lead4_t1 (b t : Z) : bool :=
  u8_trail t && (if b =? 240 then 144 <=? t else if b =? 244 then t <=? 143 else true).
Definition u8_fwd_1 (ps i length : Z) : outcome Z :=
  do b <- zget text (ps + i);
  let i := i + 1 in
  if u8_lead b && negb (i =? length) then
    do t <- zget text (ps + i);
    if (224 <=? b) && (b <? 240) then
      if u8_lead3_t1 b t then
        let i := i + 1 in
        if i =? length then Ok i else do u <- zget text (ps + i); Ok (if u8_trail u then i + 1 else i)
      else Ok i
    else if b <? 224 then Ok (if u8_trail t then i + 1 else i)
    else if u8_lead4_t1 b t then
      let i := i + 1 in
      if i =? length then Ok i
      else
        do u <- zget text (ps + i);
        if u8_trail u then
          let i := i + 1 in
          if i =? length then Ok i else do v <- zget text (ps + i); Ok (if u8_trail v then i + 1 else i)
        else Ok i
    else Ok i
  else Ok i.

(** src/layout_builder.cpp:669-686 [find_previous_line_break].  At the end of the
    paragraph [U8_FWD_1] reads the bytes after it. *)
Definition find_previous_line_break (ps count c : Z) : outcome Z :=
  do (stop, c) <- skip_hanging (Z.to_nat (count - c)) ps count c;
  match stop with
  | Some c => Ok (preceding ps count c)
  | None => do c <- u8_fwd_1 ps c count; Ok (preceding ps count c)
  end.

(** src/layout_builder.cpp:350-352. *)
Fixpoint retry_break (fuel : nat) (s : shaped) (ls le : Z) (g : nat) : outcome (Z * nat) :=
  if (le <=? ls) && (g <? length (sh_glyphs s))%nat then
    match fuel with
    | O => OutOfFuel
    | S fuel' => do c <- vget (sh_chars s) g; retry_break fuel' s ls c (S g)
    end
  else Ok (le, g).

(** src/layout_builder.cpp:311-367: one line: its end and the widths. *)
Definition break_line (s : shaped) (tabWidth : Z) (pixels : bool) (area ps len ls : Z) : outcome (Z * list Z) :=
  let n := length (sh_glyphs s) in
  do g0 <- binary_search 0 (length (sh_chars s)) (fun i => omap (fun c => c <? ls) (vget (sh_chars s) i));
  do (widths, g1, w) <- fill_line n s tabWidth pixels area (sh_width s) g0 0;
  let g2 := if (w =? 0) && (g1 <? n)%nat then S g1 else g1 in
  do c <- (if (g2 =? n)%nat then Ok (len + ps) else vget (sh_chars s) g2);
  do b <- find_previous_line_break ps len (c - ps);
  do (le, g3) <- retry_break n s ls (b + ps) g2;
  let le := if (le <=? ls) && (g3 =? n)%nat then ps + len else le in
  do widths <- apply_tabs (g3 - g1) s tabWidth pixels widths g1 w;
  Ok (le, widths).

(** src/layout_builder.cpp:310-371: the loop over the lines. *)
Fixpoint break_lines (fuel : nat) (s : shaped) (tabWidth : Z) (pixels : bool) (area ps len : Z) (l : layout) (le : Z)
  (high : nat) (highEnd : Z) : outcome (layout * nat) :=
  if le <? ps + len then
    match fuel with
    | O => OutOfFuel
    | S fuel' =>
        do (le', widths) <- break_line s tabWidth pixels area ps len le;
        let s := with_width s widths in
        do (l, high, highEnd) <- compute_line_visual_runs s ps l le le' high highEnd;
        break_lines fuel' s tabWidth pixels area ps len l le' high highEnd
    end
  else Ok (l, high).

(** ** Paragraphs *)

(** [SBParagraphGetLevelsPtr] of the paragraph at a start; the decoded characters
    of a paragraph. *)
Variable levels : Z -> list Z.
Variable items : Z -> Z -> list item.

Definition INT_MIN : Z := - 2 ^ 31.

(** src/layout_builder.cpp:243-288: itemise and shape the paragraph [ps, ps + len);
    the font and style iterators go on to the next paragraph. *)
Definition shape_paragraph (its : biter * biter * biter * biter) (ps len : Z)
  : outcome (shaped * (biter * biter * biter * biter)) :=
  let '(itf, it1, it2, it3) := its in
  do lv <- lv_make (firstn (Z.to_nat len) (levels ps)) ps;
  do st <- st_make (items ps len) ps;
  do (calls, its) <- iter_intersect_loop b_limit b_value b_advance (S (Z.to_nat (ps + len))) ps (ps + len)
    [itf; IScript st; ILevel lv; it1; it2; it3];
  do s <- shape_calls sh_empty ps calls;
  let s := {| sh_glyphs := sh_glyphs s; sh_chars := sh_chars s; sh_width := sh_width s;
              sh_sec := sh_sec s ++ [sh_cursor s]; sh_cursor := sh_cursor s; sh_runs := sh_runs s |} in
  match its with
  | [itf; _; _; it1; it2; it3] => Ok (s, (itf, it1, it2, it3))
  | _ => UB
  end.

(** src/layout_builder.cpp:287-374: lay the shaped paragraph out. *)
Definition layout_paragraph (s : shaped) (tabWidth : Z) (pixels : bool) (area ps len : Z) (l : layout) : outcome (layout * nat) :=
  if area =? 0 then
    do widths <- apply_tab_widths_no_line_break s tabWidth pixels;
    do (l, high, _) <- compute_line_visual_runs (with_width s widths) ps l ps (ps + len) 0 INT_MIN;
    Ok (l, high)
  else break_lines (Z.to_nat len) s tabWidth pixels area ps len l ps 0 INT_MIN.

(** ** The whole text *)

(** SBAlgorithmGetParagraphBoundary: length with and of the separator. *)
Variable para_bound : Z -> Z * Z.
(** [FontRegistry::get_font_data] and [get_default_single_script_font] of a base font. *)
Variable base_info : Z -> font_info.
Variable default_font : Z -> ssfont.

Definition empty_line (fonts : runs_view Z) (l : layout) (at_ pos : Z) : outcome layout :=
  do f <- get_value fonts at_;
  let i := base_info f in
  Ok (append_empty_line l (font_code (default_font f)) pos (fo_ascent i - fo_descent i)%Q (fo_ascent i)).

(** src/layout_builder.cpp:193-234: the loop over the paragraphs.  The test
    [paragraphOffset == count] at 208 and 223 is always false in the loop. *)
Fixpoint paragraphs (fuel : nat) (fonts : runs_view Z) (tabWidth : Z) (pixels : bool) (area count : Z)
  (its : biter * biter * biter * biter) (l : layout) (off : Z) : outcome layout :=
  if off <? count then
    match fuel with
    | O => OutOfFuel
    | S fuel' =>
        let '(plen, sep) := para_bound off in
        do (l, high, its) <-
          (if 0 <? plen - sep
           then do (s, its) <- shape_paragraph its off (plen - sep);
                do (l, high) <- layout_paragraph s tabWidth pixels area off (plen - sep) l;
                Ok (l, high, its)
           else do l' <- empty_line fonts l off off; Ok (l', length (lo_runs l), its));
        do l <- set_run_char_end_offset l high sep;
        do l <- (if (off + plen =? count) && (0 <? sep)
                 then do l <- empty_line fonts l off (off + plen);
                      set_run_char_end_offset l (length (lo_runs l) - 1) 0
                 else Ok l);
        paragraphs fuel' fonts tabWidth pixels area count its l (off + plen)
    end
  else Ok l.

(** src/layout_builder.cpp:159-241 [build_layout_info]; [startY] is the position the
    vertical alignment asks for, given the text height. *)
Definition build_layout_info (fonts : runs_view Z) (small sub super : option (runs_view bool))
  (tabWidth : Z) (pixels : bool) (area count : Z) (startY : Q -> Q) (l : layout) : outcome layout :=
  do l <- paragraphs (Z.to_nat count) fonts tabWidth pixels area count
    (IFont fonts 0, IBool (mi_make small false count), IBool (mi_make sub false count), IBool (mi_make super false count))
    (lo_clear l) 0;
  Ok (set_text_start_y l (startY (get_text_height l))).
End Builder.
