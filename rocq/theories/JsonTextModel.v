(** Model of the way from files and bytes to the JSON reader (src/font_registry_json.cpp:14-36).

    simdjson's [padded_string_view] and [iterate] are modelled as documented; the tree it reads
    from a text is an argument ([JBad] for what is no JSON), as in JsonModel.v. *)
From Coq Require Import String.
From Verif Require Import Base BuilderModel FontModel FileModel ReadModel JsonModel.
Open Scope Z_scope.

(** A [std::string_view]: the bytes from [data()] on that may be read, and [size()]. *)
Record view := { vw_memory : list Z; vw_size : Z }.
(** [std::strlen], by which a [const char*] becomes a [std::string_view]. *)
Fixpoint strlen (m : list Z) : outcome nat :=
  match m with
  | [] => UB
  | c :: m => if c =? 0 then Ok O else omap S (strlen m)
  end.
(** simdjson's [SIMDJSON_PADDING]. *)
Definition PADDED : Z := 64.
(** src/font_registry_json.cpp:34-36.  The constructors of [padded_string_view] take a pointer, a
    length and a capacity, or a string view and a capacity; the two arguments of line 34 select
    the second, so that the text ends at the first zero byte and [size()] is its capacity.
    [iterate] refuses a text whose [capacity() - length()], in 64 bits, is below the padding, and
    otherwise reads the text and the padding behind it.  [None]: refused. *)
Definition json_text (v : view) : outcome (option (list Z)) :=
  do n <- strlen (vw_memory v);
  if (vw_size v - Z.of_nat n) mod 2 ^ 64 <? PADDED then Ok None
  else if Z.of_nat n + PADDED <=? Z.of_nat (List.length (vw_memory v)) then Ok (Some (firstn n (vw_memory v)))
  else UB.

(** std::filesystem's [path::extension] for a name without a directory: from the last dot on,
    if it is not the first byte. *)
Fixpoint last_dot (n : name) : option name :=
  match n with
  | [] => None
  | c :: n => match last_dot n with Some e => Some e | None => if c =? 46 then Some (c :: n) else None end
  end.
Definition extension (n : name) : name :=
  if name_eqb n (lit "..") then []
  else match n with [] => [] | _ :: n => match last_dot n with Some e => e | None => [] end end.

Section Text.
Variable script_limit : nat.
Variable map_file : nat -> name -> option Z.
Variable script_code : name -> script_answer.
Variable tree : list Z -> json.

(** src/font_registry_json.cpp:33-176 [register_family_from_json_data]. *)
Definition register_data (r : registry) (v : view) : outcome (registry * json_result) :=
  do t <- json_text v;
  match t with
  | None => Ok (r, JInvalid)
  | Some t => register_json script_limit map_file script_code r (tree t)
  end.
(** src/font_registry_json.cpp:27-31 [register_family_from_json_file]: [resize] adds zeros.
    Simplification: [resize] has memory. *)
Definition register_file (r : registry) (a : read_answers) (o : os) : outcome (os * (registry * json_result)) :=
  do (o, f) <- file_read_bytes a o;
  match f with
  | Threw => Ok (o, (r, JThrew))
  | Read bytes =>
      let bytes := bytes ++ repeat 0 (Z.to_nat PADDED) in
      do x <- register_data r {| vw_memory := bytes; vw_size := Z.of_nat (List.length bytes) |};
      Ok (o, x)
  end.
(** src/font_registry_json.cpp:14-25 [register_families_from_path]: the entries of the directory,
    with the name of each and what the C library answers when it is read. *)
Fixpoint register_directory (r : registry) (entries : list (name * read_answers)) (o : os) : outcome (os * (registry * json_result)) :=
  match entries with
  | [] => Ok (o, (r, JDone RNone))
  | (n, a) :: entries =>
      if name_eqb (extension n) (lit ".json") then
        do (o, x) <- register_file r a o;
        let '(r, e) := x in
        match e with JDone RNone => register_directory r entries o | _ => Ok (o, (r, e)) end
      else register_directory r entries o
  end.
End Text.
