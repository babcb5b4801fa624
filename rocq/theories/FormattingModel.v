(** Model of the inline-markup parser (src/formatting.cpp).

    Bytes are [ascii]; [m_iter] is the list of bytes still to be read.  The font
    registry lookup and [std::from_chars] for [float] are parameters.  C++ stack
    exhaustion by very deep nesting is not modelled. *)
From Coq Require Export Ascii String.
From Verif Require Import Base ValueRunsModel RunBuilderModel FloatModel ColorModel.
Open Scope Z_scope.

Notation bytes := (list ascii) (only parsing).
Definition bs (s : string) : bytes := list_ascii_of_string s.
Definition ch (n : nat) : ascii := ascii_of_nat n.
Definition code (c : ascii) : Z := Z.of_nat (nat_of_ascii c).
Notation "c =c d" := (Ascii.eqb c d) (at level 70).

(** src/formatting.cpp:15 [SENTINEL] = (char)255. *)
Definition SENTINEL : ascii := ascii_of_nat 255.

Definition c_lt : ascii := "<"%char.
Definition c_gt : ascii := ">"%char.
Definition c_quote : ascii := ascii_of_nat 34.

(** src/formatting.cpp:17-19 [is_space]: blank, tab, CR, LF. *)
Definition is_space (c : ascii) : bool :=
  (c =c ch 32) || (c =c ch 9) || (c =c ch 13) || (c =c ch 10).

(** ** Values *)

(** src/font.hpp:47-72 [Font]: family handle, weight, style and size.  The packing
    of the first three into one word is C09. *)
Record font := { f_family : Z; f_weight : Z; f_style : Z; f_size : Z }.

(** src/font_common.hpp:29-49 [FontFamily]. *)
Definition INVALID_FAMILY : Z := 65535.
Definition family_ok (f : Z) : bool := negb (f =? INVALID_FAMILY).

(** src/font_common.hpp:7-24. *)
Definition ITALIC : Z := 1.
Definition W_REGULAR : Z := 3.

(** src/stroke_type.hpp:7-12. *)
Inductive stroke_type := ST_NONE | ST_ROUND | ST_BEVEL | ST_MITER.

(** src/formatting.hpp:12-16 [StrokeState]. *)
Record stroke := { k_color : color; k_thickness : Z; k_joins : stroke_type }.

Definition color_zero : color := {| c_r := f32_0; c_g := f32_0; c_b := f32_0; c_a := f32_0 |}.

(** src/formatting.cpp:23-31 [FontAttributes]. *)
Record font_attrs := {
  fa_family : Z; fa_size : Z; fa_color : color; fa_weight : Z;
  fa_color_change : bool; fa_size_change : bool; fa_weight_change : bool
}.
Definition fa_empty : font_attrs :=
  {| fa_family := INVALID_FAMILY; fa_size := 0; fa_color := color_zero; fa_weight := W_REGULAR;
     fa_color_change := false; fa_size_change := false; fa_weight_change := false |}.

(** ** Reading characters

    [lx] is the pair of [m_iter] and [m_error]. *)
Notation lx := (list ascii * bool)%type (only parsing).

(** src/formatting.cpp:778-780 [next_char]. *)
Definition next_char (r : bytes) : ascii * bytes :=
  match r with
  | [] => (SENTINEL, [])
  | c :: r' => (c, r')
  end.

(** src/formatting.cpp:786-788 [raise_error]. *)
Definition raise_lx (l : lx) : lx := (fst l, true).

(** src/formatting.cpp:759-766 [consume_char]. *)
Definition consume_char (c : ascii) (l : lx) : bool * lx :=
  let '(d, r) := next_char (fst l) in
  if d =c c then (true, (r, snd l)) else (false, (r, true)).

(** src/formatting.cpp:768-776 [consume_word]. *)
Fixpoint consume_word (w : bytes) (l : lx) : bool * lx :=
  match w with
  | [] => (true, l)
  | c :: w' => let '(ok, l') := consume_char c l in
               if ok then consume_word w' l' else (false, l')
  end.

(** [std::from_chars] for unsigned integers: the value of the longest prefix of
    digits, and the number of characters consumed; [None] for an empty prefix or a
    value that does not fit (below [bound]). *)
Definition digit_val (base : Z) (c : ascii) : option Z :=
  let v := code c in
  let d := if (48 <=? v) && (v <=? 57) then v - 48
           else if (65 <=? v) && (v <=? 90) then v - 55
           else if (97 <=? v) && (v <=? 122) then v - 87
           else 255 in
  if d <? base then Some d else None.

Fixpoint scan (base : Z) (s : bytes) (acc : Z) (n : nat) : Z * nat :=
  match s with
  | [] => (acc, n)
  | c :: s' => match digit_val base c with
               | Some d => scan base s' (acc * base + d) (S n)
               | None => (acc, n)
               end
  end.

Definition from_chars (base bound : Z) (s : bytes) : option Z * nat :=
  let '(v, n) := scan base s 0 0%nat in
  match n with
  | O => (None, O)
  | _ => (if v <? bound then Some v else None, n)
  end.

Section Parser.
(** [FontRegistry::get_family]; [INVALID_FAMILY] for an unknown name. *)
Variable get_family : bytes -> Z.
(** [std::from_chars] for [float]: [None] when it reports an error. *)
Variable from_chars_float : bytes -> option f32.

(** src/formatting.cpp:565-576 and 529-555: read up to the closing quote.  The
    view into [m_text] is modelled by the bytes it covers; [None] when the input
    ends first. *)
Fixpoint read_quoted (r : bytes) : option bytes * bytes :=
  match r with
  | [] => (None, [])
  | c :: r' =>
      if c =c c_quote then (Some [], r')
      else if c =c SENTINEL then (None, r')
      else let '(o, r'') := read_quoted r' in (option_map (cons c) o, r'')
  end.

(** src/formatting.cpp:558-577 [parse_attribute(name)]: an empty view on failure. *)
Definition parse_attribute (name : bytes) (l : lx) : bytes * lx :=
  let '(ok, l) := consume_word name l in
  if ok then
    match read_quoted (fst l) with
    | (Some v, r) => (v, (r, snd l))
    | (None, r) => ([], (r, true))
    end
  else ([], l).

(** src/formatting.cpp:579-586 for an unsigned type with values below [bound]. *)
Definition parse_attribute_uint (bound : Z) (name : bytes) (old : Z) (l : lx) : Z * lx :=
  let '(a, l) := parse_attribute name l in
  match fst (from_chars 10 bound a) with
  | Some v => (v, l)
  | None => (old, raise_lx l)
  end.

(** src/formatting.cpp:579-586 for [float]. *)
Definition parse_attribute_float (name : bytes) (old : f32) (l : lx) : f32 * lx :=
  let '(a, l) := parse_attribute name l in
  match from_chars_float a with
  | Some v => (v, l)
  | None => (old, raise_lx l)
  end.

Definition is_digit (c : ascii) : bool := (48 <=? code c) && (code c <=? 57).
Definition is_hex (c : ascii) : bool :=
  is_digit c || ((65 <=? code c) && (code c <=? 70)) || ((97 <=? code c) && (code c <=? 102)).

(** src/formatting.cpp:684-694: fill the six-character buffer. *)
Fixpoint read_hex (n : nat) (r : bytes) : option bytes * bytes :=
  match n with
  | O => (Some [], r)
  | S n' =>
      let '(c, r') := next_char r in
      if is_hex c then
        let '(o, r'') := read_hex n' r' in (option_map (cons c) o, r'')
      else (None, r')
  end.

(** src/formatting.cpp:681-702 [parse_color_hex]. *)
Definition parse_color_hex (l : lx) : option Z * lx :=
  match read_hex 6 (fst l) with
  | (Some buf, r) =>
      let '(v, n) := from_chars 16 (2 ^ 32) buf in
      if (n =? 6)%nat then (Some (match v with Some w => w | None => 0 end), (r, snd l))
      else (None, (r, true))
  | (None, r) => (None, (r, true))
  end.

(** src/formatting.cpp:719-721: skip leading white space; [c] is the character
    already read. *)
Fixpoint skip_leading (c : ascii) (r : bytes) : ascii * bytes :=
  if is_space c then
    match r with
    | [] => (SENTINEL, [])
    | d :: r' => skip_leading d r'
    end
  else (c, r).

(** src/formatting.cpp:731-738: skip trailing white space up to the stop. *)
Fixpoint skip_trailing (stop : ascii) (r : bytes) : bool * bytes :=
  match r with
  | [] => (false, [])
  | c :: r' => if c =c stop then (true, r')
               else if is_space c then skip_trailing stop r'
               else (false, r')
  end.

(** src/formatting.cpp:714, 728: the three-byte number buffer, zero filled, and
    the range [numberBuffer, numberBuffer + i + 1) given to [from_chars].  A range
    that ends beyond the array is undefined behaviour. *)
Definition number_buffer (digits : bytes) : bytes := firstn 3 (digits ++ repeat (ch 0) 3).
Definition channel_value (digits : bytes) : outcome Z :=
  let i := List.length digits in
  if (i + 1 <=? 3)%nat then
    Ok (match fst (from_chars 10 256 (firstn (i + 1) (number_buffer digits))) with
        | Some v => v | None => 0 end)
  else UB.

(** src/formatting.cpp:723-749: the loop over one channel.  [digits] are the
    characters stored so far ([i] is their number), [c] the current character,
    [n] bounds the number of further digits ([i < 3]). *)
Fixpoint channel_loop (n : nat) (stop c : ascii) (digits : bytes) (r : bytes)
  : outcome (option Z * bytes) :=
  let other :=
    if is_space c || (c =c stop) then
      do v <- channel_value digits;
      let '(ok, r') := if c =c stop then (true, r) else skip_trailing stop r in
      Ok (if ok then Some v else None, r')
    else Ok (None, r) in
  match n with
  | O => other
  | S n' =>
      if is_digit c then
        let '(c', r') := next_char r in channel_loop n' stop c' (digits ++ [c]) r'
      else other
  end.

(** src/formatting.cpp:713-749: one channel. *)
Definition parse_channel (stop : ascii) (r : bytes) : outcome (option Z * bytes) :=
  let '(c, r) := next_char r in
  let '(c, r) := skip_leading c r in
  channel_loop 3 stop c [] r.

(** src/formatting.cpp:704-757 [parse_color_rgb]. *)
Definition parse_color_rgb (l : lx) : outcome (option Z * lx) :=
  let '(ok, l) := consume_word (bs "gb(") l in
  if ok then
    do (v0, r) <- parse_channel ","%char (fst l);
    match v0 with None => Ok (None, (r, true)) | Some v0 =>
    do (v1, r) <- parse_channel ","%char r;
    match v1 with None => Ok (None, (r, true)) | Some v1 =>
    do (v2, r) <- parse_channel ")"%char r;
    match v2 with None => Ok (None, (r, true)) | Some v2 =>
    Ok (Some (Z.lor (Z.lor (Z.shiftl v0 16) (Z.shiftl v1 8)) v2), (r, snd l))
    end end end
  else Ok (None, l).

(** src/formatting.cpp:669-679 [parse_color]. *)
Definition parse_color (l : lx) : outcome (option Z * lx) :=
  let '(c, r) := next_char (fst l) in
  let l := (r, snd l) in
  if c =c "#"%char then Ok (parse_color_hex l)
  else if c =c "r"%char then parse_color_rgb l
  else Ok (None, raise_lx l).

(** src/formatting.cpp:588-604 [parse_attribute(name, Color&)]. *)
Definition parse_attribute_color (name : bytes) (old : color) (l : lx) : outcome (color * lx) :=
  let '(ok, l) := consume_word name l in
  if ok then
    do (o, l) <- parse_color l;
    match o with
    | None => Ok (old, l)
    | Some w =>
        let '(ok, l) := consume_char c_quote l in
        if ok then
          let v := from_abgr_uint w in
          Ok ({| c_r := c_r v; c_g := c_g v; c_b := c_b v; c_a := f32_1 |}, l)
        else Ok (old, l)
    end
  else Ok (old, l).

(** src/formatting.cpp:617-624: the lower-cased copy of one byte. *)
Definition lower (c : ascii) : ascii :=
  if (65 <=? code c) && (code c <=? 90) then ascii_of_nat (nat_of_ascii c + 32) else c.

(** [std::strcmp(buf, name) == 0], reading byte by byte up to the first mismatch;
    reading past the end of [buf] is undefined.  [name] has no NUL inside. *)
Fixpoint strcmp_eq (buf name : bytes) : outcome bool :=
  match buf, name with
  | [], _ => UB
  | b :: buf', [] => Ok (b =c ch 0)
  | b :: buf', c :: name' => if b =c c then strcmp_eq buf' name' else Ok false
  end.

(** src/formatting.cpp:637-666: the chain of named weights. *)
Fixpoint named_weight (buf : bytes) (names : list (bytes * Z)) : outcome (option Z) :=
  match names with
  | [] => Ok None
  | (n, w) :: names' => do e <- strcmp_eq buf n;
                        if e : bool then Ok (Some w) else named_weight buf names'
  end.
Definition weight_names : list (bytes * Z) :=
  [(bs "thin", 0); (bs "extra light", 1); (bs "light", 2); (bs "regular", 3); (bs "medium", 4);
   (bs "semi bold", 5); (bs "bold", 6); (bs "extra bold", 7); (bs "black", 8)].

(** src/formatting.cpp:606-667 [parse_attribute(name, FontWeight&)].  The attribute
    is copied into a 16-byte zero-filled array before (and whatever) its length
    check says: a longer one is written past the end. *)
Definition parse_attribute_weight (name : bytes) (old : Z) (l : lx) : outcome (Z * lx) :=
  let '(a, l) := parse_attribute name l in
  let l := if (16 <=? List.length a)%nat then raise_lx l else l in
  do buf <- (if (List.length a <=? 16)%nat
             then Ok (map lower a ++ repeat (ch 0) (16 - List.length a)) else UB);
  match fst (from_chars 10 (2 ^ 32) a) with
  | Some v =>
      if (100 <=? v) && (v <=? 900) && (v mod 100 =? 0) then Ok (v / 100 - 1, l)
      else Ok (old, raise_lx l)
  | None =>
      do w <- named_weight buf weight_names;
      match w with
      | Some w => Ok (w, l)
      | None => Ok (old, raise_lx l)
      end
  end.

(** src/formatting.cpp:413-425 [parse_font_face]. *)
Definition parse_font_face (a : font_attrs) (l : lx) : font_attrs * lx :=
  let '(n, l) := parse_attribute (bs "ace=""") l in
  match n with
  | [] => (a, raise_lx l)
  | _ =>
      let f := get_family n in
      let a := {| fa_family := f; fa_size := fa_size a; fa_color := fa_color a;
                  fa_weight := fa_weight a; fa_color_change := fa_color_change a;
                  fa_size_change := fa_size_change a; fa_weight_change := fa_weight_change a |} in
      (a, if family_ok f then l else raise_lx l)
  end.

(** src/formatting.cpp:380-411 [parse_font_attributes].  [n] bounds the loop. *)
Fixpoint parse_font_attributes (n : nat) (a : font_attrs) (l : lx) : outcome (font_attrs * lx) :=
  match n with
  | O => OutOfFuel
  | S n' =>
      let '(c, r) := next_char (fst l) in
      let l := (r, snd l) in
      if c =c "c"%char then
        do (v, l) <- parse_attribute_color (bs "olor=""") (fa_color a) l;
        parse_font_attributes n'
          {| fa_family := fa_family a; fa_size := fa_size a; fa_color := v;
             fa_weight := fa_weight a; fa_color_change := true;
             fa_size_change := fa_size_change a; fa_weight_change := fa_weight_change a |} l
      else if c =c "f"%char then
        let '(a, l) := parse_font_face a l in parse_font_attributes n' a l
      else if c =c "s"%char then
        let '(v, l) := parse_attribute_uint (2 ^ 32) (bs "ize=""") (fa_size a) l in
        parse_font_attributes n'
          {| fa_family := fa_family a; fa_size := v; fa_color := fa_color a;
             fa_weight := fa_weight a; fa_color_change := fa_color_change a;
             fa_size_change := true; fa_weight_change := fa_weight_change a |} l
      else if c =c "w"%char then
        do (v, l) <- parse_attribute_weight (bs "eight=""") (fa_weight a) l;
        parse_font_attributes n'
          {| fa_family := fa_family a; fa_size := fa_size a; fa_color := fa_color a;
             fa_weight := v; fa_color_change := fa_color_change a;
             fa_size_change := fa_size_change a; fa_weight_change := true |} l
      else if c =c " "%char then parse_font_attributes n' a l
      else if c =c c_gt then Ok (a, l)
      else Ok (a, raise_lx l)
  end.

(** src/formatting.cpp:522-556 [parse_stroke_joins]. *)
Fixpoint bytes_eqb (a b : bytes) : bool :=
  match a, b with
  | [], [] => true
  | x :: a', y :: b' => (x =c y) && bytes_eqb a' b'
  | _, _ => false
  end.
Definition joins_name (v : bytes) : option stroke_type :=
  if bytes_eqb v (bs "round") then Some ST_ROUND
  else if bytes_eqb v (bs "bevel") then Some ST_BEVEL
  else if bytes_eqb v (bs "miter") then Some ST_MITER
  else None.
Definition parse_stroke_joins (k : stroke) (l : lx) : stroke * lx :=
  let '(ok, l) := consume_word (bs "oins=""") l in
  if ok then
    match read_quoted (fst l) with
    | (Some v, r) =>
        match joins_name v with
        | Some j => ({| k_color := k_color k; k_thickness := k_thickness k; k_joins := j |}, (r, snd l))
        | None => (k, (r, true))
        end
    | (None, r) => (k, (r, true))
    end
  else (k, l).

(** src/formatting.cpp:477-481: the initial stroke of a stroke tag. *)
Definition stroke_init : stroke :=
  {| k_color := {| c_r := f32_0; c_g := f32_0; c_b := f32_0; c_a := f32_1 |};
     k_thickness := 1; k_joins := ST_ROUND |}.

Definition set_alpha (c : color) (a : f32) : color :=
  {| c_r := c_r c; c_g := c_g c; c_b := c_b c; c_a := a |}.

(** src/formatting.cpp:476-520 [parse_stroke_attributes].  [n] bounds the loop. *)
Fixpoint parse_stroke_attributes (n : nat) (k : stroke) (l : lx) : outcome (stroke * lx) :=
  match n with
  | O => OutOfFuel
  | S n' =>
      let '(c, r) := next_char (fst l) in
      let l := (r, snd l) in
      if c =c "c"%char then
        do (v, l) <- parse_attribute_color (bs "olor=""") color_zero l;
        parse_stroke_attributes n'
          {| k_color := set_alpha v (c_a (k_color k)); k_thickness := k_thickness k;
             k_joins := k_joins k |} l
      else if c =c "j"%char then
        let '(k, l) := parse_stroke_joins k l in parse_stroke_attributes n' k l
      else if c =c "t"%char then
        let '(c, r) := next_char (fst l) in
        let l := (r, snd l) in
        if c =c "h"%char then
          let '(v, l) := parse_attribute_uint 256 (bs "ickness=""") (k_thickness k) l in
          parse_stroke_attributes n'
            {| k_color := k_color k; k_thickness := v; k_joins := k_joins k |} l
        else if c =c "r"%char then
          let '(v, l) := parse_attribute_float (bs "ansparency=""") (c_a (k_color k)) l in
          parse_stroke_attributes n'
            {| k_color := set_alpha (k_color k) (f32_sub f32_1 v); k_thickness := k_thickness k;
               k_joins := k_joins k |} l
        else parse_stroke_attributes n' k (raise_lx l)
      else if c =c " "%char then parse_stroke_attributes n' k l
      else if c =c c_gt then Ok (k, l)
      else Ok (k, raise_lx l)
  end.

(** src/formatting.cpp:251-269: the loop of [parse_comment]. *)
Fixpoint comment_loop (r : bytes) (e : bool) : lx :=
  match r with
  | [] => ([], true)
  | c :: r' =>
      if c =c SENTINEL then (r', true)
      else if c =c "-"%char then
        let '(ok, l) := consume_char "-"%char (r', e) in
        if ok then snd (consume_char c_gt l) else l
      else comment_loop r' e
  end.

(** src/formatting.cpp:242-270 [parse_comment]. *)
Definition parse_comment (l : lx) : lx :=
  let '(ok, l) := consume_char "-"%char l in
  if ok then
    let '(ok, l) := consume_char "-"%char l in
    if ok then comment_loop (fst l) (snd l) else l
  else l.

(** ** The parser object *)

(** src/formatting.cpp:43-57.  The five [ValueRunBuilder<bool>] are one record. *)
Record bool_builders := {
  b_strike : run_builder bool; b_under : run_builder bool; b_small : run_builder bool;
  b_sub : run_builder bool; b_super : run_builder bool
}.
Record parser := {
  p_lx : lx;
  p_out : bytes;
  p_fonts : run_builder font;
  p_colors : run_builder color;
  p_strokes : run_builder stroke;
  p_bools : bool_builders
}.

(** The yes/no attributes. *)
Inductive flag := Strike | Under | Small | Sub | Super.
Definition get_bb (k : flag) (b : bool_builders) : run_builder bool :=
  match k with
  | Strike => b_strike b | Under => b_under b | Small => b_small b
  | Sub => b_sub b | Super => b_super b
  end.
Definition set_bb (k : flag) (x : run_builder bool) (b : bool_builders) : bool_builders :=
  match k with
  | Strike => {| b_strike := x; b_under := b_under b; b_small := b_small b; b_sub := b_sub b; b_super := b_super b |}
  | Under => {| b_strike := b_strike b; b_under := x; b_small := b_small b; b_sub := b_sub b; b_super := b_super b |}
  | Small => {| b_strike := b_strike b; b_under := b_under b; b_small := x; b_sub := b_sub b; b_super := b_super b |}
  | Sub => {| b_strike := b_strike b; b_under := b_under b; b_small := b_small b; b_sub := x; b_super := b_super b |}
  | Super => {| b_strike := b_strike b; b_under := b_under b; b_small := b_small b; b_sub := b_sub b; b_super := x |}
  end.

Definition with_lx (p : parser) (l : lx) : parser :=
  {| p_lx := l; p_out := p_out p; p_fonts := p_fonts p; p_colors := p_colors p;
     p_strokes := p_strokes p; p_bools := p_bools p |}.
Definition with_fonts (p : parser) (x : run_builder font) : parser :=
  {| p_lx := p_lx p; p_out := p_out p; p_fonts := x; p_colors := p_colors p;
     p_strokes := p_strokes p; p_bools := p_bools p |}.
Definition with_colors (p : parser) (x : run_builder color) : parser :=
  {| p_lx := p_lx p; p_out := p_out p; p_fonts := p_fonts p; p_colors := x;
     p_strokes := p_strokes p; p_bools := p_bools p |}.
Definition with_strokes (p : parser) (x : run_builder stroke) : parser :=
  {| p_lx := p_lx p; p_out := p_out p; p_fonts := p_fonts p; p_colors := p_colors p;
     p_strokes := x; p_bools := p_bools p |}.
Definition with_bool (k : flag) (p : parser) (x : run_builder bool) : parser :=
  {| p_lx := p_lx p; p_out := p_out p; p_fonts := p_fonts p; p_colors := p_colors p;
     p_strokes := p_strokes p; p_bools := set_bb k x (p_bools p) |}.

(** [m_output.put(c)]. *)
Definition put (p : parser) (c : ascii) : parser :=
  {| p_lx := p_lx p; p_out := p_out p ++ [c]; p_fonts := p_fonts p; p_colors := p_colors p;
     p_strokes := p_strokes p; p_bools := p_bools p |}.

Definition p_err (p : parser) : bool := snd (p_lx p).
Definition p_rest (p : parser) : bytes := fst (p_lx p).
Definition raise_error (p : parser) : parser := with_lx p (raise_lx (p_lx p)).

(** [m_output.view().size()]. *)
Definition out_size (p : parser) : Z := Z.of_nat (List.length (p_out p)).

Definition push_font (p : parser) (f : font) : outcome parser :=
  omap (with_fonts p) (rb_push (p_fonts p) (out_size p) f).
Definition pop_font (p : parser) : outcome parser :=
  omap (with_fonts p) (rb_pop (p_fonts p) (out_size p)).
Definition push_color (p : parser) (c : color) : outcome parser :=
  omap (with_colors p) (rb_push (p_colors p) (out_size p) c).
Definition pop_color (p : parser) : outcome parser :=
  omap (with_colors p) (rb_pop (p_colors p) (out_size p)).
Definition push_stroke (p : parser) (k : stroke) : outcome parser :=
  omap (with_strokes p) (rb_push (p_strokes p) (out_size p) k).
Definition pop_stroke (p : parser) : outcome parser :=
  omap (with_strokes p) (rb_pop (p_strokes p) (out_size p)).
Definition push_bool (k : flag) (p : parser) : outcome parser :=
  omap (with_bool k p) (rb_push (get_bb k (p_bools p)) (out_size p) true).
Definition pop_bool (k : flag) (p : parser) : outcome parser :=
  omap (with_bool k p) (rb_pop (get_bb k (p_bools p)) (out_size p)).

(** src/formatting.cpp:790-799 [finalize_runs]. *)
Definition finalize_runs (p : parser) : outcome parser :=
  do p <- pop_font p; do p <- pop_color p; do p <- pop_stroke p;
  do p <- pop_bool Strike p; do p <- pop_bool Under p; do p <- pop_bool Small p;
  do p <- pop_bool Sub p; pop_bool Super p.

(** The functions below call [parse_content] through [pc]; the recursion is tied
    in [parse_content]. *)
Section Open.
Variable pc : bytes -> parser -> outcome parser.

(** src/formatting.cpp:427-431 [parse_bool_tag]. *)
Definition parse_bool_tag (k : flag) (close : bytes) (p : parser) : outcome parser :=
  do p <- push_bool k p; do p <- pc close p; pop_bool k p.

(** src/formatting.cpp:453-459 [parse_smallcaps]. *)
Definition parse_smallcaps (close : bytes) (p : parser) : outcome parser :=
  let '(ok, l) := consume_word (skipn 2 close) (p_lx p) in
  let p := with_lx p l in
  if ok then parse_bool_tag Small close p else Ok p.

(** src/formatting.cpp:433-451 [parse_italic]. *)
Definition parse_italic (p : parser) : outcome parser :=
  let '(ok, l) := consume_char c_gt (p_lx p) in
  let p := with_lx p l in
  if ok then
    do cur <- rb_get_current_value (p_fonts p);
    let change := negb (f_style cur =? ITALIC) in
    do p <- (if change
             then push_font p {| f_family := f_family cur; f_weight := f_weight cur;
                                 f_style := ITALIC; f_size := f_size cur |}
             else Ok p);
    do p <- pc (bs "i>") p;
    if change then pop_font p else Ok p
  else Ok p.

(** src/formatting.cpp:344-378 [parse_font]. *)
Definition parse_font (p : parser) : outcome parser :=
  let '(ok, l) := consume_word (bs "ont") (p_lx p) in
  let p := with_lx p l in
  if ok then
    do (a, l) <- parse_font_attributes (S (List.length (p_rest p))) fa_empty (p_lx p);
    let p := with_lx p l in
    do cur <- rb_get_current_value (p_fonts p);
    let change := (family_ok (fa_family a) && negb (fa_family a =? f_family cur))
                  || (fa_size_change a && negb (fa_size a =? f_size cur))
                  || (fa_weight_change a && negb (fa_weight a =? f_weight cur)) in
    do p <- (if change
             then push_font p
                    {| f_family := if family_ok (fa_family a) then fa_family a else f_family cur;
                       f_weight := if fa_weight_change a then fa_weight a else f_weight cur;
                       f_style := f_style cur;
                       f_size := if fa_size_change a then fa_size a else f_size cur |}
             else Ok p);
    do p <- (if fa_color_change a then push_color p (fa_color a) else Ok p);
    do p <- pc (bs "font>") p;
    do p <- (if change then pop_font p else Ok p);
    if fa_color_change a then pop_color p else Ok p
  else Ok p.

(** src/formatting.cpp:461-474 [parse_stroke]. *)
Definition parse_stroke (p : parser) : outcome parser :=
  let '(ok, l) := consume_word (bs "roke") (p_lx p) in
  let p := with_lx p l in
  if ok then
    do (k, l) <- parse_stroke_attributes (S (List.length (p_rest p))) stroke_init (p_lx p);
    let p := with_lx p l in
    do p <- push_stroke p k;
    do p <- pc (bs "stroke>") p;
    pop_stroke p
  else Ok (raise_error p).

(** src/formatting.cpp:322-342 [parse_su_tag]. *)
Definition parse_su_tag (p : parser) : outcome parser :=
  let '(c, r) := next_char (p_rest p) in
  let p := with_lx p (r, p_err p) in
  if c =c "b"%char then
    let '(ok, l) := consume_char c_gt (p_lx p) in
    let p := with_lx p l in
    if ok then parse_bool_tag Sub (bs "sub>") p else Ok p
  else if c =c "p"%char then
    let '(ok, l) := consume_word (bs "er>") (p_lx p) in
    let p := with_lx p l in
    if ok then parse_bool_tag Super (bs "super>") p else Ok p
  else Ok (raise_error p).

(** src/formatting.cpp:272-293 [parse_s_tag]. *)
Definition parse_s_tag (p : parser) : outcome parser :=
  let '(c, r) := next_char (p_rest p) in
  let p := with_lx p (r, p_err p) in
  if c =c c_gt then parse_bool_tag Strike (bs "s>") p
  else if c =c "c"%char then parse_smallcaps (bs "sc>") p
  else if c =c "m"%char then parse_smallcaps (bs "smallcaps>") p
  else if c =c "t"%char then parse_stroke p
  else if c =c "u"%char then parse_su_tag p
  else Ok (raise_error p).

(** src/formatting.cpp:295-320 [parse_u_tag]: the upper-case tags are read and
    ignored. *)
Definition parse_u_tag (p : parser) : outcome parser :=
  let '(c, r) := next_char (p_rest p) in
  let p := with_lx p (r, p_err p) in
  if c =c c_gt then parse_bool_tag Under (bs "u>") p
  else if c =c "c"%char then
    let '(ok, l) := consume_char c_gt (p_lx p) in
    let p := with_lx p l in
    if ok then Ok p else Ok (raise_error p)
  else if c =c "p"%char then
    let '(ok, l) := consume_word (bs "percase>") (p_lx p) in
    let p := with_lx p l in
    if ok then Ok p else Ok (raise_error p)
  else Ok (raise_error p).

(** src/formatting.cpp:209-240 [parse_open_bracket]; true when the enclosing
    content ends here. *)
Definition parse_open_bracket (close : bytes) (p : parser) : outcome (bool * parser) :=
  let '(c, r) := next_char (p_rest p) in
  let p := with_lx p (r, p_err p) in
  if c =c "!"%char then Ok (false, with_lx p (parse_comment (p_lx p)))
  else if c =c "/"%char then
    match close with
    | [] => Ok (true, raise_error p)
    | _ => Ok (true, with_lx p (snd (consume_word close (p_lx p))))
    end
  else if c =c "f"%char then omap (pair false) (parse_font p)
  else if c =c "i"%char then omap (pair false) (parse_italic p)
  else if c =c "s"%char then omap (pair false) (parse_s_tag p)
  else if c =c "u"%char then omap (pair false) (parse_u_tag p)
  else Ok (true, raise_error p).
End Open.

(** src/formatting.cpp:180-207 [parse_content]; [n] bounds loop and recursion. *)
Fixpoint parse_content (n : nat) (close : bytes) (p : parser) : outcome parser :=
  match n with
  | O => OutOfFuel
  | S n' =>
      let '(c, r) := next_char (p_rest p) in
      let p := with_lx p (r, p_err p) in
      if c =c SENTINEL then
        match close with
        | [] => finalize_runs p
        | _ => Ok (raise_error p)
        end
      else if c =c c_lt then
        do (stop, p) <- parse_open_bracket (parse_content n') close p;
        if stop : bool then Ok p
        else if p_err p then Ok p else parse_content n' close p
      else
        let p := put p c in
        if p_err p then Ok p else parse_content n' close p
  end.

(** src/formatting.hpp:18-27 [FormattingRuns]. *)
Record formatting_runs := {
  fr_fonts : value_runs font;
  fr_colors : value_runs color;
  fr_strokes : value_runs stroke;
  fr_flags : flag -> value_runs bool
}.

(** src/formatting.cpp:109-124 [make_default_formatting_runs], with
    src/value_runs.hpp:87-89, 144-145 for the one-run constructor. *)
Definition one_run {T} (v : T) (limit : Z) : value_runs T := vr_add vr_empty limit v.
Definition make_default_formatting_runs (text : bytes) (f : font) (c : color) (k : stroke)
  : bytes * formatting_runs :=
  let n := Z.of_nat (List.length text) in
  (text, {| fr_fonts := one_run f n; fr_colors := one_run c n; fr_strokes := one_run k n;
            fr_flags := fun _ => one_run false n |}).

(** src/value_run_builder.hpp:32-34 [get_base_value] = [m_stack.front()]. *)
Definition rb_base {T} (b : run_builder T) : outcome T := vback (rb_stack b).

(** src/formatting.cpp:149-170 [get_result]. *)
Definition get_result (text : bytes) (p : parser) : outcome (bytes * formatting_runs) :=
  if p_err p then
    do f <- rb_base (p_fonts p); do c <- rb_base (p_colors p); do k <- rb_base (p_strokes p);
    Ok (make_default_formatting_runs text f c k)
  else
    Ok (p_out p,
        {| fr_fonts := rb_get (p_fonts p); fr_colors := rb_get (p_colors p);
           fr_strokes := rb_get (p_strokes p);
           fr_flags := fun k => rb_get (get_bb k (p_bools p)) |}).

(** src/formatting.cpp:135-147: the constructor. *)
Definition parser_init (text : bytes) (f : font) (c : color) (k : stroke) : parser :=
  let b := rb_make false in
  {| p_lx := (text, false); p_out := []; p_fonts := rb_make f; p_colors := rb_make c;
     p_strokes := rb_make k;
     p_bools := {| b_strike := b; b_under := b; b_small := b; b_sub := b; b_super := b |} |}.

(** src/formatting.cpp:126-131, 176-178 [parse_inline_formatting]. *)
Definition parse_inline_formatting (text : bytes) (f : font) (c : color) (k : stroke)
  : outcome (bytes * formatting_runs) :=
  do p <- parse_content (S (List.length text)) [] (parser_init text f c k);
  get_result text p.

End Parser.
