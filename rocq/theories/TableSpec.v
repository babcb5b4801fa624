(** What FreeType promises about a font, and who owns which buffer. *)
From Verif Require Import Base HbFontModel TableModel.
Open Scope Z_scope.

(** FreeType reads a font with these tables.  It may fail, each time. *)
Definition reads (tables : Z -> option (list Z)) (tag : Z) (a : answers) : Prop :=
  (forall n, an_length a = Some n -> exists bs, tables tag = Some bs /\ n = Z.of_nat (length bs)) /\
  (forall bs, an_bytes a = Some bs -> tables tag = Some bs).
Definition reads_use (tables : Z -> option (list Z)) (u : use) : Prop := match u with Ask tag a => reads tables tag a | Drop _ => True end.

(** The buffers that blobs own. *)
Definition owned (bs : uses) : list nat := flat_map (fun p => match bl_buffer (snd p) with Some b => [b] | None => [] end) bs.

(** [FT_Get_Glyph_Name]: nothing for a buffer without room; otherwise the name, cut if need be,
    and a terminator, the rest of the buffer as it was. *)
Definition writes_name (name : list Z) (written : nat -> option (list Z)) : Prop :=
  forall size, match written size with
               | None => size = 0%nat
               | Some bs => (0 < size)%nat /\ exists rest, bs = firstn (size - 1) name ++ 0 :: rest
               end.
