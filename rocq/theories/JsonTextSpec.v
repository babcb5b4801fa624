(** Specification of reading families from files and bytes. *)
From Coq Require Import String.
From Verif Require Import Base FontModel JsonModel JsonTextModel ReadModel.
Open Scope Z_scope.

(** A file: its name in the directory and its bytes. *)
Record file := { fi_name : name; fi_bytes : list Z }.
(** The C library on a file that can be opened and read without an error, while nobody changes
    it and memory suffices. *)
Definition readable (f : file) (a : read_answers) : Prop :=
  ra_file a <> None /\ ra_tell a = Z.of_nat (List.length (fi_bytes f)) /\ ra_data a = fi_bytes f /\
  Z.of_nat (List.length (fi_bytes f)) <= MAX_SIZE /\ ra_memory a = true.
(** Its name is something followed by ".json". *)
Definition json_file (f : file) : Prop := exists stem, stem <> [] /\ fi_name f = stem ++ lit ".json".
(** A text: no zero byte. *)
Definition textual (bytes : list Z) : Prop := ~ In 0 bytes.
(** The files among [fs] that are named as JSON files, in order. *)
Inductive json_files : list file -> list file -> Prop :=
| no_files : json_files [] []
| take_file f fs js : json_file f -> json_files fs js -> json_files (f :: fs) (f :: js)
| skip_file f fs js : ~ json_file f -> json_files fs js -> json_files (f :: fs) js.
(** A view of the bytes [t] alone: [rest] is what follows them in memory. *)
Definition view_of (t rest : list Z) : view := {| vw_memory := t ++ rest; vw_size := Z.of_nat (List.length t) |}.
