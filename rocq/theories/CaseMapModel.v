(** Model of the character indices of synthesised small capitals: the text of the run is
    mapped to upper case, shaped, and the shaper's byte offsets are mapped back.

    Oracles: ICU's case mapping with its list of edits, HarfBuzz. *)
From Verif Require Import Base BuilderModel.
Open Scope Z_scope.

(** What [icu::Edits::Iterator] tells of one span of [getFineChangesIterator]: the lengths of
    the old and of the new text. *)
Record edit := { ed_old : Z; ed_new : Z }.
(** [findSourceIndex]: the span that contains the given index of the source, as
    ([sourceIndex()], [destinationIndex()]); [s] and [d] are those of the first span. *)
Fixpoint find_source (es : list edit) (i s d : Z) : option (Z * Z) :=
  match es with
  | [] => None
  | e :: es' => if i <? s + ed_old e then Some (s, d) else find_source es' i (s + ed_old e) (d + ed_new e)
  end.
(** The argument is an [int32_t]; negative ones are not found. *)
Definition find_source_index (es : list edit) (cluster : Z) : option (Z * Z) :=
  let i := to_int32 cluster in if i <? 0 then None else find_source es i 0 0.

(** [U8_IS_TRAIL]. *)
Definition is_trail (b : Z) : bool := (128 <=? b) && (b <? 192).
(** src/layout_builder.cpp:708-710: back to the start of a character; [start] is where
    [sourceStr] points to in the text, [n] the index. *)
Fixpoint back_up (text : list Z) (start : Z) (n : nat) : outcome Z :=
  do b <- zget text (start + Z.of_nat n);
  if is_trail b then match n with O => Ok 0 | S n' => back_up text start n' end else Ok (Z.of_nat n).
(** src/layout_builder.cpp:701-714 [remap_char_index]: [cluster] and with it [srcIndex] are
    unsigned. *)
Definition remap_char_index (text : list Z) (start : Z) (es : list edit) (cluster : Z) : outcome Z :=
  match find_source_index es cluster with
  | Some (s, d) => back_up text start (Z.to_nat (wrap32 (s + wrap32 (cluster - d))))
  | None => Ok cluster
  end.
(** src/layout_builder.cpp:716-730 [remap_char_indices].  The answers do not depend on the
    order in which the iterator is asked. *)
Fixpoint remap_char_indices (text : list Z) (start : Z) (es : list edit) (gs : list hb_glyph) : outcome (list hb_glyph) :=
  match gs with
  | [] => Ok []
  | g :: gs' =>
      do c <- remap_char_index text start es (hb_cluster g);
      do gs'' <- remap_char_indices text start es gs';
      Ok ({| hb_id := hb_id g; hb_cluster := c; hb_xadv := hb_xadv g; hb_yadv := hb_yadv g; hb_xoff := hb_xoff g; hb_yoff := hb_yoff g |} :: gs'')
  end.

(** src/layout_builder.cpp:395-407, 419, 425-427: the glyphs of a run in synthesised small capitals.
    [upper] is [CaseMap::utf8ToUpper], [shape] is [hb_shape] for the text it is given. *)
Definition shape_small_caps (upper : list Z -> list Z * list edit) (shape : list Z -> list hb_glyph)
    (text : list Z) (start count : Z) : outcome (list hb_glyph) :=
  let '(u, es) := upper (firstn (Z.to_nat count) (skipn (Z.to_nat start) text)) in
  remap_char_indices text start es (shape u).
