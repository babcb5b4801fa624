(** Model of reading a whole file, and of the text the sample program starts with.

    What the C library answers is an argument, as in FileModel.v. *)
From Verif Require Import Base FileModel.
Open Scope Z_scope.

(** The answers of [fopen], of [ftell] after [fseek] to the end (-1 on failure), of the
    allocation, and the bytes [fread] would deliver if asked for enough. *)
Record read_answers := { ra_file : option Z; ra_tell : Z; ra_memory : bool; ra_data : list Z }.
(** An exception leaves the function: [std::length_error] or [std::bad_alloc]. *)
Inductive read_result := Read (bytes : list Z) | Threw.
(** [std::vector<char>::max_size()]. *)
Definition MAX_SIZE : Z := 2 ^ 63 - 1.

(** src/file_read_bytes.hpp:8-23.  [ftell]'s answer becomes an unsigned 64-bit number; the
    vector is filled with zeros first; [fread] overwrites as much as there is.  An exception
    passes by [fclose]. *)
Definition file_read_bytes (a : read_answers) (o : os) : outcome (os * read_result) :=
  match ra_file a with
  | None => Ok (o, Read [])
  | Some f =>
      let o := Stream f :: o in
      let size := ra_tell a mod 2 ^ 64 in
      if (MAX_SIZE <? size) || negb (ra_memory a) then Ok (o, Threw)
      else
        let got := firstn (Z.to_nat size) (ra_data a) in
        do o <- release (Stream f) o;
        Ok (o, Read (got ++ repeat 0 (Z.to_nat size - List.length got)))
  end.

(** sample/main.cpp:89-98: "Error: Sample.txt must be present in the build directory". *)
Definition MISSING_TEXT : list Z :=
  [69; 114; 114; 111; 114; 58; 32; 83; 97; 109; 112; 108; 101; 46; 116; 120; 116; 32; 109; 117; 115; 116; 32; 98; 101; 32; 112; 114; 101; 115; 101; 110; 116; 32;
   105; 110; 32; 116; 104; 101; 32; 98; 117; 105; 108; 100; 32; 100; 105; 114; 101; 99; 116; 111; 114; 121].
(** The text given to the text box; none: the program ends by the exception. *)
Definition start_text (a : read_answers) (o : os) : outcome (os * option (list Z)) :=
  do (o, r) <- file_read_bytes a o;
  match r with
  | Threw => Ok (o, None)
  | Read [] => Ok (o, Some MISSING_TEXT)
  | Read bytes => Ok (o, Some bytes)
  end.
