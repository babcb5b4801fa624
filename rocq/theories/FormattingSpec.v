(** Specification of the markup language: document trees, the text each one is
    written as, and the style of every displayed character. *)
From Verif Require Import Base ValueRunsModel ValueRunsSpec FloatModel ColorModel FormattingModel.
Open Scope Z_scope.

(** ** Attribute values *)

(** Decimal and hexadecimal digits. *)
Definition decimal (c : ascii) : Prop := 48 <= code c <= 57.
Definition hex_value (c : ascii) : option Z :=
  if (48 <=? code c) && (code c <=? 57) then Some (code c - 48)
  else if (65 <=? code c) && (code c <=? 70) then Some (code c - 65 + 10)
  else if (97 <=? code c) && (code c <=? 102) then Some (code c - 97 + 10)
  else None.

(** The number a string of decimal digits denotes. *)
Fixpoint number (ds : bytes) : Z :=
  match ds with
  | [] => 0
  | d :: ds' => (code d - 48) * 10 ^ Z.of_nat (List.length ds') + number ds'
  end.

(** Blank, tab, line feed, carriage return. *)
Definition blank (c : ascii) : Prop := code c = 32 \/ code c = 9 \/ code c = 10 \/ code c = 13.

(** A quoted value contains neither a quote nor the byte 255. *)
Definition quotable (s : bytes) : Prop := Forall (fun c => code c <> 34 /\ code c <> 255) s.

(** A leading number, followed by anything that does not continue it. *)
Definition uint_syntax (bound : Z) (s : bytes) (v : Z) : Prop :=
  exists ds junk, s = ds ++ junk /\ ds <> [] /\ Forall decimal ds /\
    (forall c junk', junk = c :: junk' -> ~ decimal c) /\ v = number ds /\ v < bound.

(** One channel of [rgb(...)]: at most two digits, surrounded by blanks. *)
Definition channel_syntax (stop : ascii) (s : bytes) (v : Z) : Prop :=
  exists w1 ds w2, s = w1 ++ ds ++ w2 ++ [stop] /\ Forall blank w1 /\ Forall blank w2 /\
    Forall decimal ds /\ (List.length ds <= 2)%nat /\ v = number ds.

Inductive color_syntax : bytes -> Z -> Z -> Z -> Prop :=
| CS_hex r1 r0 g1 g0 b1 b0 vr1 vr0 vg1 vg0 vb1 vb0 :
    hex_value r1 = Some vr1 -> hex_value r0 = Some vr0 ->
    hex_value g1 = Some vg1 -> hex_value g0 = Some vg0 ->
    hex_value b1 = Some vb1 -> hex_value b0 = Some vb0 ->
    color_syntax ["#"%char; r1; r0; g1; g0; b1; b0]
      (16 * vr1 + vr0) (16 * vg1 + vg0) (16 * vb1 + vb0)
| CS_rgb s0 s1 s2 r g b :
    channel_syntax ","%char s0 r -> channel_syntax ","%char s1 g -> channel_syntax ")"%char s2 b ->
    color_syntax (bs "rgb(" ++ s0 ++ s1 ++ s2) r g b.

(** The colour with channels [r], [g], [b] out of 255 and the given alpha. *)
Definition rgb_color (r g b : Z) (a : f32) : color :=
  {| c_r := f32_div (f32_of_Z r) f32_255; c_g := f32_div (f32_of_Z g) f32_255;
     c_b := f32_div (f32_of_Z b) f32_255; c_a := a |}.

Definition to_lower (c : ascii) : ascii :=
  if (65 <=? code c) && (code c <=? 90) then ascii_of_nat (nat_of_ascii c + 32) else c.

(** Names of the weights 100, 200, ... 900. *)
Definition weight_name (w : Z) (s : bytes) : Prop :=
  In (w, s) [(0, bs "thin"); (1, bs "extra light"); (2, bs "light"); (3, bs "regular");
             (4, bs "medium"); (5, bs "semi bold"); (6, bs "bold"); (7, bs "extra bold");
             (8, bs "black")].

(** A weight: a multiple of 100 up to 900, or a name in any case (what follows a
    NUL byte is ignored); less than 16 bytes. *)
Definition weight_syntax (s : bytes) (w : Z) : Prop :=
  (List.length s < 16)%nat /\
  ((0 <= w <= 8 /\ uint_syntax (2 ^ 32) s (100 * (w + 1))) \/
   (exists n, weight_name w n /\
      (map to_lower s = n \/ exists junk, map to_lower s = n ++ ch 0 :: junk))).

(** ** Document trees *)

Inductive font_attr :=
| FASpace
| FAColor (src : bytes) (r g b : Z)
| FAFace (name : bytes)
| FASize (src : bytes) (v : Z)
| FAWeight (src : bytes) (w : Z).

Inductive stroke_attr :=
| SASpace
| SAColor (src : bytes) (r g b : Z)
| SAJoins (j : stroke_type)
| SAThickness (src : bytes) (v : Z)
| SATransparency (src : bytes) (x : f32).

Inductive tag :=
| TStrike | TUnder | TSmall (long : bool) | TSub | TSuper | TItalic
| TFont (attrs : list font_attr)
| TStroke (attrs : list stroke_attr).

(** First item of a document and the rest of it. *)
Inductive doc :=
| DEnd
| DChar (c : ascii) (rest : doc)
| DComment (body : bytes) (rest : doc)
| DCase (long : bool) (rest : doc)         (* the unimplemented <uc>, <uppercase> *)
| DTag (t : tag) (body rest : doc).

(** ** The text of a document *)

Definition joins_text (j : stroke_type) : bytes :=
  match j with
  | ST_NONE => bs "none" | ST_ROUND => bs "round" | ST_BEVEL => bs "bevel" | ST_MITER => bs "miter"
  end.

Definition quoted (s : bytes) : bytes := [c_quote] ++ s ++ [c_quote].

Definition font_attr_text (a : font_attr) : bytes :=
  match a with
  | FASpace => bs " "
  | FAColor s _ _ _ => bs "color=" ++ quoted s
  | FAFace s => bs "face=" ++ quoted s
  | FASize s _ => bs "size=" ++ quoted s
  | FAWeight s _ => bs "weight=" ++ quoted s
  end.

Definition stroke_attr_text (a : stroke_attr) : bytes :=
  match a with
  | SASpace => bs " "
  | SAColor s _ _ _ => bs "color=" ++ quoted s
  | SAJoins j => bs "joins=" ++ quoted (joins_text j)
  | SAThickness s _ => bs "thickness=" ++ quoted s
  | SATransparency s _ => bs "transparency=" ++ quoted s
  end.

Definition tag_name (t : tag) : bytes :=
  match t with
  | TStrike => bs "s" | TUnder => bs "u"
  | TSmall long => if long then bs "smallcaps" else bs "sc"
  | TSub => bs "sub" | TSuper => bs "super" | TItalic => bs "i"
  | TFont _ => bs "font" | TStroke _ => bs "stroke"
  end.

Definition tag_attrs (t : tag) : bytes :=
  match t with
  | TFont l => flat_map font_attr_text l
  | TStroke l => flat_map stroke_attr_text l
  | _ => []
  end.

Definition open_tag (t : tag) : bytes := bs "<" ++ tag_name t ++ tag_attrs t ++ bs ">".
Definition close_tag (t : tag) : bytes := bs "</" ++ tag_name t ++ bs ">".

Fixpoint text_of (d : doc) : bytes :=
  match d with
  | DEnd => []
  | DChar c rest => c :: text_of rest
  | DComment b rest => bs "<!--" ++ b ++ bs "-->" ++ text_of rest
  | DCase long rest => (if long then bs "<uppercase>" else bs "<uc>") ++ text_of rest
  | DTag t b rest => open_tag t ++ text_of b ++ close_tag t ++ text_of rest
  end.

Section Meaning.
Variable get_family : bytes -> Z.
Variable from_chars_float : bytes -> option f32.

(** ** Well-formed documents *)

Definition font_attr_wf (a : font_attr) : Prop :=
  match a with
  | FASpace => True
  | FAColor s r g b => color_syntax s r g b
  | FAFace s => quotable s /\ s <> [] /\ get_family s <> 65535
  | FASize s v => quotable s /\ uint_syntax (2 ^ 32) s v
  | FAWeight s w => quotable s /\ weight_syntax s w
  end.

Definition stroke_attr_wf (a : stroke_attr) : Prop :=
  match a with
  | SASpace => True
  | SAColor s r g b => color_syntax s r g b
  | SAJoins j => j <> ST_NONE
  | SAThickness s v => quotable s /\ uint_syntax 256 s v
  | SATransparency s x => quotable s /\ from_chars_float s = Some x
  end.

Definition tag_wf (t : tag) : Prop :=
  match t with
  | TFont l => Forall font_attr_wf l
  | TStroke l => Forall stroke_attr_wf l
  | _ => True
  end.

(** Characters other than '<' and byte 255; comments without '-' inside. *)
Fixpoint doc_wf (d : doc) : Prop :=
  match d with
  | DEnd => True
  | DChar c rest => c <> "<"%char /\ code c <> 255 /\ doc_wf rest
  | DComment b rest => Forall (fun c => c <> "-"%char /\ code c <> 255) b /\ doc_wf rest
  | DCase _ rest => doc_wf rest
  | DTag t b rest => tag_wf t /\ doc_wf b /\ doc_wf rest
  end.

(** ** Styles *)

Record style := { s_font : font; s_color : color; s_stroke : stroke; s_flag : flag -> bool }.

Definition flag_eqb (a b : flag) : bool :=
  match a, b with
  | Strike, Strike | Under, Under | Small, Small | Sub, Sub | Super, Super => true
  | _, _ => false
  end.

Definition set_flag (k : flag) (s : style) : style :=
  {| s_font := s_font s; s_color := s_color s; s_stroke := s_stroke s;
     s_flag := fun k' => if flag_eqb k k' then true else s_flag s k' |}.

(** Attributes apply from left to right; those not given keep their value. *)
Definition font_attr_font (f : font) (a : font_attr) : font :=
  match a with
  | FAFace n => {| f_family := get_family n; f_weight := f_weight f; f_style := f_style f; f_size := f_size f |}
  | FASize _ v => {| f_family := f_family f; f_weight := f_weight f; f_style := f_style f; f_size := v |}
  | FAWeight _ w => {| f_family := f_family f; f_weight := w; f_style := f_style f; f_size := f_size f |}
  | _ => f
  end.
Definition font_attr_color (c : color) (a : font_attr) : color :=
  match a with
  | FAColor _ r g b => rgb_color r g b (f32_of_Z 1)
  | _ => c
  end.

(** A stroke tag starts from an opaque black, round stroke of thickness 1. *)
Definition default_stroke : stroke :=
  {| k_color := {| c_r := f32_of_Z 0; c_g := f32_of_Z 0; c_b := f32_of_Z 0; c_a := f32_of_Z 1 |};
     k_thickness := 1; k_joins := ST_ROUND |}.
Definition stroke_attr_stroke (k : stroke) (a : stroke_attr) : stroke :=
  match a with
  | SASpace => k
  | SAColor _ r g b => {| k_color := rgb_color r g b (c_a (k_color k));
                          k_thickness := k_thickness k; k_joins := k_joins k |}
  | SAJoins j => {| k_color := k_color k; k_thickness := k_thickness k; k_joins := j |}
  | SAThickness _ v => {| k_color := k_color k; k_thickness := v; k_joins := k_joins k |}
  | SATransparency _ x =>
      {| k_color := {| c_r := c_r (k_color k); c_g := c_g (k_color k); c_b := c_b (k_color k);
                       c_a := f32_sub (f32_of_Z 1) x |};
         k_thickness := k_thickness k; k_joins := k_joins k |}
  end.

(** The style inside a tag, from the style around it. *)
Definition apply_tag (t : tag) (s : style) : style :=
  match t with
  | TStrike => set_flag Strike s
  | TUnder => set_flag Under s
  | TSmall _ => set_flag Small s
  | TSub => set_flag Sub s
  | TSuper => set_flag Super s
  | TItalic => {| s_font := {| f_family := f_family (s_font s); f_weight := f_weight (s_font s);
                               f_style := 1; f_size := f_size (s_font s) |};
                  s_color := s_color s; s_stroke := s_stroke s; s_flag := s_flag s |}
  | TFont l => {| s_font := fold_left font_attr_font l (s_font s);
                  s_color := fold_left font_attr_color l (s_color s);
                  s_stroke := s_stroke s; s_flag := s_flag s |}
  | TStroke l => {| s_font := s_font s; s_color := s_color s;
                    s_stroke := fold_left stroke_attr_stroke l default_stroke;
                    s_flag := s_flag s |}
  end.

(** The displayed characters, each with its style. *)
Fixpoint styled (s : style) (d : doc) : list (ascii * style) :=
  match d with
  | DEnd => []
  | DChar c rest => (c, s) :: styled s rest
  | DComment _ rest | DCase _ rest => styled s rest
  | DTag t b rest => styled (apply_tag t s) b ++ styled s rest
  end.

(** ** Innermost tag *)

(** The displayed characters, each with the tags around it, innermost first. *)
Fixpoint paths (path : list tag) (d : doc) : list (ascii * list tag) :=
  match d with
  | DEnd => []
  | DChar c rest => (c, path) :: paths path rest
  | DComment _ rest | DCase _ rest => paths path rest
  | DTag t b rest => paths (t :: path) b ++ paths path rest
  end.

(** What a tag sets; within a tag the last attribute counts. *)
Fixpoint last_some {A B} (f : A -> option B) (l : list A) : option B :=
  match l with
  | [] => None
  | a :: l' => match last_some f l' with Some b => Some b | None => f a end
  end.
Definition sets_family (t : tag) : option Z :=
  match t with
  | TFont l => last_some (fun a => match a with FAFace n => Some (get_family n) | _ => None end) l
  | _ => None
  end.
Definition sets_size (t : tag) : option Z :=
  match t with
  | TFont l => last_some (fun a => match a with FASize _ v => Some v | _ => None end) l
  | _ => None
  end.
Definition sets_weight (t : tag) : option Z :=
  match t with
  | TFont l => last_some (fun a => match a with FAWeight _ w => Some w | _ => None end) l
  | _ => None
  end.
Definition sets_slant (t : tag) : option Z := match t with TItalic => Some 1 | _ => None end.
Definition sets_color (t : tag) : option color :=
  match t with
  | TFont l => last_some (fun a => match a with FAColor _ r g b => Some (rgb_color r g b (f32_of_Z 1)) | _ => None end) l
  | _ => None
  end.
Definition sets_stroke (t : tag) : option stroke :=
  match t with TStroke l => Some (fold_left stroke_attr_stroke l default_stroke) | _ => None end.
Definition sets_flag (k : flag) (t : tag) : option bool :=
  match t, k with
  | TStrike, Strike | TUnder, Under | TSmall _, Small | TSub, Sub | TSuper, Super => Some true
  | _, _ => None
  end.

(** The value set by the first tag of the path that sets one. *)
Fixpoint innermost {A} (f : tag -> option A) (path : list tag) (default : A) : A :=
  match path with
  | [] => default
  | t :: path' => match f t with Some a => a | None => innermost f path' default end
  end.

(** ** Attribute tables *)

(** A table gives character [i] the value [vals[i]], through the lookup of the
    runs interface; it is non-empty, its limits do not decrease and lie within the
    text, and the last one is the text length. *)
Definition table_gives {T} (runs : value_runs T) (vals : list T) : Prop :=
  exists t, runs = build t /\ t <> [] /\ sorted t /\
    (forall q, In q t -> 0 <= fst q <= Z.of_nat (List.length vals)) /\
    final_limit t 0 = Z.of_nat (List.length vals) /\
    (forall i v, nth_error vals i = Some v -> get_value (vr_view runs) (Z.of_nat i) = Ok v).

Definition runs_give (r : formatting_runs) (ss : list style) : Prop :=
  table_gives (fr_fonts r) (map s_font ss) /\
  table_gives (fr_colors r) (map s_color ss) /\
  table_gives (fr_strokes r) (map s_stroke ss) /\
  forall k, table_gives (fr_flags r k) (map (fun s => s_flag s k) ss).

Definition base_style (f : font) (c : color) (k : stroke) : style :=
  {| s_font := f; s_color := c; s_stroke := k; s_flag := fun _ => false |}.

(** The text is the markup of a well-formed document (anything after a byte 255
    is ignored). *)
Definition is_markup_of (text : bytes) (d : doc) : Prop :=
  doc_wf d /\ (text = text_of d \/ exists junk, text = text_of d ++ ch 255 :: junk).

End Meaning.

(** The two places where the parser overruns a buffer. *)
(** A weight attribute of more than 16 bytes. *)
Definition long_weight (text : bytes) : Prop :=
  exists pre v post, text = pre ++ bs "weight=" ++ quoted v ++ post /\ quotable v /\ (16 < List.length v)%nat.
(** An [rgb(...)] channel of three digits. *)
Definition three_digit_channel (text : bytes) : Prop :=
  exists pre mid d1 d2 d3 post,
    text = pre ++ bs "rgb(" ++ mid ++ [d1; d2; d3] ++ post /\
    decimal d1 /\ decimal d2 /\ decimal d3 /\
    Forall (fun c => decimal c \/ blank c \/ c = ","%char) mid.

(** [a] is obtained from [b] by leaving out some elements. *)
Inductive subseq : bytes -> bytes -> Prop :=
| sub_nil : subseq [] []
| sub_keep c a b : subseq a b -> subseq (c :: a) (c :: b)
| sub_drop c a b : subseq a b -> subseq a (c :: b).
