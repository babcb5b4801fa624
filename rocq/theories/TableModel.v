(** Model of how HarfBuzz gets the tables of a font and the names of its glyphs.

    FreeType's answers, allocations and HarfBuzz's own objects are oracles.  Of HarfBuzz's blobs
    (not in /repo) this is used: [hb_blob_create] calls the function it was given for the end at
    once, and gives the empty blob, when the length is 0, is 2^31 or more, or no object can be
    made; otherwise it is called when the last reference to the blob is given back. *)
From Verif Require Import Base HbFontModel.
Open Scope Z_scope.

(** Buffers of [hb_malloc] that were not freed, with their bytes. *)
Record memory := { mm_live : list (nat * list Z); mm_next : nat }.
Definition is_buffer (b : nat) (p : nat * list Z) : bool := Nat.eqb (fst p) b.
(** [hb_free]: of a buffer that is not live it is undefined. *)
Definition free (m : memory) (b : nat) : outcome memory :=
  if existsb (is_buffer b) (mm_live m)
  then Ok {| mm_live := filter (fun p => negb (is_buffer b p)) (mm_live m); mm_next := mm_next m |} else UB.

(** What happens in one call of [face_reference_table].  [an_length]: the length FreeType gives,
    [None] on an error; [an_memory]: there is memory; [an_bytes]: what FreeType writes to the
    buffer, [None] on an error; [an_object]: HarfBuzz can make a blob. *)
Record answers := { an_length : option Z; an_memory : bool; an_bytes : option (list Z); an_object : bool }.
(** A blob: its length, and the buffer unless it is the empty one. *)
Record blob := { bl_length : Z; bl_buffer : option nat }.
(** [hb_blob_create] with a buffer and [hb_free]; the length is an [unsigned]. *)
Definition blob_create (m : memory) (b : nat) (length : Z) (object : bool) : outcome (blob * memory) :=
  let length := wrap32 length in
  if (length =? 0) || (2 ^ 31 <=? length) || negb object
  then do m <- free m b; Ok ({| bl_length := 0; bl_buffer := None |}, m)
  else Ok ({| bl_length := length; bl_buffer := Some b |}, m).

(** src/harfbuzz_font.cpp:222-247 [face_reference_table]; [None]: it returns a null pointer. *)
Definition reference_table (m : memory) (a : answers) : outcome (option blob * memory) :=
  match an_length a with
  | None => Ok (None, m)
  | Some n =>
      if an_memory a then
        let b := mm_next m in
        match an_bytes a with
        | None =>
            do m <- free {| mm_live := (b, []) :: mm_live m; mm_next := S b |} b;
            Ok (None, m)
        | Some bs =>
            do (bl, m) <- blob_create {| mm_live := (b, bs) :: mm_live m; mm_next := S b |} b n (an_object a);
            Ok (Some bl, m)
        end
      else Ok (None, m)
  end.
(** The last reference to a blob is given back. *)
Definition blob_end (m : memory) (bl : blob) : outcome memory := match bl_buffer bl with Some b => free m b | None => Ok m end.
(** The bytes HarfBuzz reads through a blob. *)
Definition blob_bytes (m : memory) (bl : blob) : outcome (list Z) :=
  match bl_buffer bl with
  | None => Ok []
  | Some b => match find (is_buffer b) (mm_live m) with Some p => Ok (firstn (Z.to_nat (bl_length bl)) (snd p)) | None => UB end
  end.

(** src/harfbuzz_font.cpp:186-204 in [harfbuzz_face_create]: a font in memory is one blob of this
    length, not owned; the size FreeType has for the stream is an [unsigned long]. *)
Definition whole_length (size : Z) (object : bool) : Z :=
  let length := wrap32 size in if (length =? 0) || (2 ^ 31 <=? length) || negb object then 0 else length.

(** What HarfBuzz does, while the font is in use: asks for a table, or gives back the [i]-th of
    the blobs it has. *)
Inductive use := Ask (tag : Z) (a : answers) | Drop (i : nat).
Definition uses := list (Z * blob).
Definition step_use (s : uses * memory) (u : use) : outcome (uses * memory) :=
  let '(bs, m) := s in
  match u with
  | Ask tag a => do (r, m) <- reference_table m a; Ok (match r with Some bl => (tag, bl) :: bs | None => bs end, m)
  | Drop i =>
      match nth_error bs i with
      | Some (_, bl) => do m <- blob_end m bl; Ok (firstn i bs ++ skipn (S i) bs, m)
      | None => Ok (bs, m)
      end
  end.
Fixpoint run_uses (s : uses * memory) (us : list use) : outcome (uses * memory) :=
  match us with [] => Ok s | u :: us => do s <- step_use s u; run_uses s us end.
Definition no_memory : memory := {| mm_live := []; mm_next := 0 |}.

(** * Names *)

(** src/harfbuzz_font.cpp:559-570 [hb_ft_get_glyph_name].  [written size]: what
    [FT_Get_Glyph_Name] writes to a buffer of that size, [None] on an error. *)
Definition glyph_name (written : nat -> option (list Z)) (size : nat) : option (list Z) :=
  match written size with
  | None => None
  | Some bs => if negb (Nat.eqb size 0) && (hd 0 bs =? 0) then None else Some bs
  end.
(** src/harfbuzz_font.cpp:447-460 [hb_ft_get_glyph_h_kerning]: [ft fitted] is the horizontal part
    of what [FT_Get_Kerning] gives, with fitting to pixels or without, [None] on an error.  The
    result is an [int]. *)
Definition h_kerning (x_ppem : Z) (ft : bool -> option Z) : Z :=
  match ft (negb (x_ppem =? 0)) with None => 0 | Some x => to_int32 x end.
