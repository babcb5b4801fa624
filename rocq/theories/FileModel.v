(** Model of mapping files into memory on the three platforms.

    The operating system is a list of what the process holds. What a system call answers
    is an argument, so every failure at every point is covered; what a successful call
    acquires, and what a release needs, is the call's documented contract. *)
From Verif Require Import Base.
Open Scope Z_scope.

(** What can be held: a file descriptor, a mapped range, a Windows handle, a mapped
    Windows view, a [FILE] and an allocated block. *)
Inductive held := Fd (n : Z) | Range (addr len : Z) | Handle (n : Z) | View (addr : Z) | Stream (n : Z) | Block (addr : Z).
Definition held_eqb (a b : held) : bool :=
  match a, b with
  | Fd x, Fd y | Handle x, Handle y | View x, View y | Stream x, Stream y | Block x, Block y => x =? y
  | Range a l, Range a' l' => (a =? a') && (l =? l')
  | _, _ => false
  end.
Definition os := list held.
(** Releasing what is not held is undefined (or releases what another part of the program
    holds). *)
Fixpoint release (r : held) (o : os) : outcome os :=
  match o with
  | [] => UB
  | x :: o' => if held_eqb r x then Ok o' else do o' <- release r o'; Ok (x :: o')
  end.

(** src/file_mapping.hpp:11-15 [FileMapping]; [fm_ptr] 0 is [nullptr]. *)
Record mapping := { fm_ptr : Z; fm_size : Z; fm_handle : Z }.
(** [return {};]. *)
Definition no_mapping : mapping := {| fm_ptr := 0; fm_size := 0; fm_handle := 0 |}.

(** ** Linux *)
(** The answers of [open], [fstat] and [mmap]: [None] is failure. *)
Record linux_answers := { la_fd : option Z; la_size : option Z; la_addr : option Z }.
(** src/file_mapping.cpp:81-102 [map_file_default]. The descriptor is copied into the
    low four bytes of the handle. *)
Definition linux_map (a : linux_answers) (o : os) : outcome (os * mapping) :=
  match la_fd a with
  | None => Ok (o, no_mapping)
  | Some fd =>
      let o := Fd fd :: o in
      match la_size a with
      | None => Ok (o, no_mapping)
      | Some size =>
          match la_addr a with
          | None => Ok (o, no_mapping)
          | Some p => Ok (Range p size :: o, {| fm_ptr := p; fm_size := size; fm_handle := wrap32 fd |})
          end
      end
  end.
(** src/file_mapping.cpp:104-110 [unmap_file_default]. *)
Definition linux_unmap (m : mapping) (o : os) : outcome os :=
  do o <- release (Range (fm_ptr m) (fm_size m)) o;
  release (Fd (to_int32 (fm_handle m))) o.

(** ** Windows *)
(** The answers of [CreateFileW] ([None] is [INVALID_HANDLE_VALUE]),
    [CreateFileMappingW] ([None] is a null handle), [MapViewOfFile], [GetFileSize] and
    the address [new] gives. Mapping a view of a null handle fails. *)
Record windows_answers := { wa_file : option Z; wa_view : option Z; wa_addr : option Z; wa_size : Z; wa_block : Z }.
(** src/file_mapping.cpp:29-59. The null handle is number 0; [INVALID_HANDLE_VALUE] is
    number -1. [fm_handle] is the address of the [FileData], whose two handles
    [windows_unmap] gets with it. Simplification: [GetFileSize] is given the file's size
    and answers its low 32 bits. *)
Definition windows_map (a : windows_answers) (o : os) : outcome (os * (mapping * (Z * Z))) :=
  match wa_file a with
  | None => Ok (o, (no_mapping, (0, 0)))
  | Some file =>
      let o := Handle file :: o in
      let view := match wa_view a with Some v => v | None => 0 end in
      let o := match wa_view a with Some v => Handle v :: o | None => o end in
      if view =? -1 then do o <- release (Handle file) o; Ok (o, (no_mapping, (0, 0)))
      else
        match (if view =? 0 then None else wa_addr a) with
        | None =>
            do o <- release (Handle file) o;
            do o <- release (Handle view) o;
            Ok (o, (no_mapping, (0, 0)))
        | Some p => Ok (Block (wa_block a) :: View p :: o, ({| fm_ptr := p; fm_size := wa_size a mod 2 ^ 32; fm_handle := wa_block a |}, (file, view)))
        end
  end.
(** src/file_mapping.cpp:61-69. *)
Definition windows_unmap (m : mapping * (Z * Z)) (o : os) : outcome os :=
  let '(m, (file, view)) := m in
  do o <- release (View (fm_ptr m)) o;
  do o <- release (Handle view) o;
  do o <- release (Handle file) o;
  release (Block (fm_handle m)) o.

(** ** Other platforms *)
(** The answers of [fopen], [ftell] (-1 on failure), [malloc] and [fread] (the number of
    items read, 0 or 1). *)
Record stdio_answers := { sa_file : option Z; sa_tell : Z; sa_block : option Z; sa_read : Z }.
(** src/file_mapping.cpp:119-141. The size is converted to an unsigned 64-bit number.
    The last component says whether the block was filled with the file. *)
Definition stdio_map (a : stdio_answers) (o : os) : outcome (os * (mapping * bool)) :=
  match sa_file a with
  | None => Ok (o, (no_mapping, false))
  | Some f =>
      let o := Stream f :: o in
      let size := sa_tell a mod 2 ^ 64 in
      match sa_block a with
      | None => do o <- release (Stream f) o; Ok (o, (no_mapping, false))
      | Some p => do o <- release (Stream f) (Block p :: o); Ok (o, ({| fm_ptr := p; fm_size := size; fm_handle := 0 |}, sa_read a =? 1))
      end
  end.
(** src/file_mapping.cpp:143-145. *)
Definition stdio_unmap (m : mapping * bool) (o : os) : outcome os := release (Block (fm_ptr (fst m))) o.
