(** Model of the registration of families from JSON (src/font_registry_json.cpp).

    Oracles: the tree of JSON values simdjson reads from the bytes, the answers of
    [uscript_getCode], the files of a directory.
    Simplifications: a value simdjson cannot read is [JBad], on which every [get] fails (an
    array that breaks off ends with one); a field is looked up as if the whole object were
    readable; of two fields of one name the first is taken. *)
From Coq Require Import String Ascii.
From Verif Require Import Base BuilderModel FontModel.
Open Scope Z_scope.

Inductive json :=
| JNull | JBool (b : bool) | JInt (z : Z) | JReal | JStr (s : name) | JArr (l : list json) | JObj (l : list (name * json)) | JBad.

(** [value.get(x)] of simdjson for the types of [x] that are used. *)
Definition get_int64 (j : json) : option Z := match j with JInt z => if (- 2 ^ 63 <=? z) && (z <? 2 ^ 63) then Some z else None | _ => None end.
Definition get_uint64 (j : json) : option Z := match j with JInt z => if (0 <=? z) && (z <? 2 ^ 64) then Some z else None | _ => None end.
Definition get_string (j : json) : option name := match j with JStr s => Some s | _ => None end.
Definition get_array (j : json) : option (list json) := match j with JArr l => Some l | _ => None end.
Definition get_object (j : json) : option (list (name * json)) := match j with JObj l => Some l | _ => None end.
(** [object["name"].get(x)]. *)
Definition get_field {A} (o : list (name * json)) (k : name) (get : json -> option A) : option A :=
  match lookup k o with Some j => get j | None => None end.

(** A literal as bytes. *)
Definition lit (s : string) : name := List.map (fun c => Z.of_nat (nat_of_ascii c)) (list_ascii_of_string s).

(** src/font_registry.hpp:30-35 with [INVALID_JSON]; [JThrew]: the exception of simdjson
    or of [bitset::set]. *)
Inductive json_result := JDone (e : reg_result) | JInvalid | JThrew.
(** What reading a part gives: the part, or what is returned instead. *)
Definition read (A : Type) : Type := A + json_result.

(** [uscript_getCode] with room for one code. *)
Inductive script_answer := SFailed | SNone | SCode (c : Z).

Section Json.
Variable script_limit : nat.
Variable map_file : nat -> name -> option Z.
Variable script_code : name -> script_answer.

(** [std::bitset::set]. *)
Definition bit_set (bits : list bool) (c : Z) : option (list bool) :=
  if (0 <=? c) && (c <? Z.of_nat (length bits)) then Some (list_set bits (Z.to_nat c) true) else None.

(** src/font_registry_json.cpp:56-81: the loop over the scripts.  The code of a number is
    read again as an unsigned one (line 65).  When no code was found (and no error
    reported), an uninitialised variable is used (lines 69, 76). *)
Fixpoint read_scripts (bits : list bool) (vs : list json) : outcome (read (list bool)) :=
  match vs with
  | [] => Ok (inl bits)
  | v :: vs =>
      match get_int64 v with
      | Some c =>
          if Z.of_nat script_limit <=? c then Ok (inr JInvalid)
          else match get_uint64 v with
               | None => Ok (inr JThrew)
               | Some c => match bit_set bits c with Some bits => read_scripts bits vs | None => Ok (inr JThrew) end
               end
      | None =>
          match get_string v with
          | Some s =>
              match script_code s with
              | SFailed => Ok (inr JInvalid)
              | SNone => UB
              | SCode c => match bit_set bits c with Some bits => read_scripts bits vs | None => Ok (inr JThrew) end
              end
          | None => Ok (inr JInvalid)
          end
      end
  end.

(** src/font_registry_json.cpp:86-93, 98-105. *)
Fixpoint read_names (vs : list json) : read (list name) :=
  match vs with
  | [] => inl []
  | v :: vs => match get_string v with
               | None => inr JInvalid
               | Some n => match read_names vs with inl ns => inl (n :: ns) | inr e => inr e end
               end
  end.
(** src/font_registry_json.cpp:84-94, 96-106: without an array there are no names. *)
Definition read_families (o : list (name * json)) (k : name) : read (list name) :=
  match get_field o k get_array with Some vs => read_names vs | None => inl [] end.

(** src/font_registry_json.cpp:114-150: one face. *)
Definition read_face (v : json) : option face_desc :=
  match get_object v with
  | None => None
  | Some o =>
      match get_field o (lit "name") get_string, get_field o (lit "uri") get_string, get_field o (lit "weight") get_int64 with
      | Some n, Some u, Some w =>
          if (w <? 100) || (900 <? w) || negb (Z.rem w 100 =? 0) then None
          else match get_field o (lit "style") get_string with
               | Some s =>
                   if negb (name_eqb s (lit "normal")) && negb (name_eqb s (lit "italic")) then None
                   else Some {| fd_name := n; fd_uri := u; fd_weight := Z.quot (w - 100) 100; fd_style := if name_eqb s (lit "italic") then 1 else 0 |}
               | None => None
               end
      | _, _, _ => None
      end
  end.
(** src/font_registry_json.cpp:113-151: all faces. *)
Fixpoint read_faces (vs : list json) : read (list face_desc) :=
  match vs with
  | [] => inl []
  | v :: vs => match read_face v with
               | None => inr JInvalid
               | Some f => match read_faces vs with inl fs => inl (f :: fs) | inr e => inr e end
               end
  end.

(** src/font_registry_json.cpp:153-161: the codes that are set, in order. *)
Definition codes_of (bits : list bool) : list Z :=
  List.filter (fun c => match zget bits c with Ok b => b | _ => false end) (List.map Z.of_nat (seq 0 script_limit)).

(** src/font_registry_json.cpp:33-176 [register_family_from_json_data]; [data()] of the
    empty vector of faces is null. *)
Definition register_json (r : registry) (j : json) : outcome (registry * json_result) :=
  match get_object j with
  | None => Ok (r, JInvalid)
  | Some root =>
      match get_field root (lit "name") get_string with
      | None => Ok (r, JInvalid)
      | Some n =>
          do scripts <- match get_field root (lit "scripts") get_array with
                        | Some vs => do b <- read_scripts (repeat false script_limit) vs;
                                     Ok (match b with inl bits => inl (codes_of bits) | inr e => inr e end)
                        | None => Ok (inl [])
                        end;
          match scripts, read_families root (lit "linked_families"), read_families root (lit "fallback_families") with
          | inr e, _, _ => Ok (r, e)
          | inl _, inr e, _ => Ok (r, e)
          | inl _, inl _, inr e => Ok (r, e)
          | inl codes, inl linked, inl fallback =>
              match get_field root (lit "faces") get_array with
              | None => Ok (r, JInvalid)
              | Some vs =>
                  match read_faces vs with
                  | inr e => Ok (r, e)
                  | inl faces =>
                      do (r, e) <- register_family script_limit map_file r
                        {| fy_name := n; fy_scripts := codes; fy_linked := linked; fy_fallback := fallback;
                           fy_faces := match faces with [] => None | _ => Some faces end |};
                      Ok (r, JDone e)
                  end
              end
          end
      end
  end.

(** src/font_registry_json.cpp:14-31 [register_families_from_path] and
    [register_family_from_json_file]: the entries of the directory, with the tree read from
    each ([JBad] for a file that cannot be opened) and whether its extension is ".json". *)
Fixpoint register_path (r : registry) (entries : list (bool * json)) : outcome (registry * json_result) :=
  match entries with
  | [] => Ok (r, JDone RNone)
  | (false, _) :: entries => register_path r entries
  | (true, j) :: entries =>
      do (r, e) <- register_json r j;
      match e with JDone RNone => register_path r entries | _ => Ok (r, e) end
  end.
End Json.
