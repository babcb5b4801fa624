(** Model of the hash tables of the library and the sample program: the hash functions of
    the code over [std::unordered_map] as the C++ standard describes it. *)
From Verif Require Import Base AtlasModel MsdfModel.
Set Implicit Arguments.
Open Scope Z_scope.

(** * Hash functions *)

(** [size_t] has 64 bits. *)
Definition WORD : Z := 2 ^ 64.
(** sample/text_atlas.cpp:10-11, sample/msdf_text_atlas.cpp:19-20. *)
Definition HASH_BASE : Z := 14695981039346656037.
Definition HASH_MULTIPLIER : Z := 1099511628211.
(** One line of sample/text_atlas.cpp:194-198: a multiplication modulo 2^64, then an
    exclusive or. *)
Definition hash_step (hash field : Z) : Z := Z.lxor ((hash * HASH_MULTIPLIER) mod WORD) field.

(** sample/text_atlas.cpp:191-200 [GlyphKeyHash], 211-220 [StrokeKeyHash].  Simplification:
    the keys of the two tables (sample/text_atlas.hpp:71-72) are the two cases of one type. *)
Definition atlas_hash (k : atlas_key) : Z :=
  match k with
  | GlyphKey size glyph face weight style =>
      let hash := HASH_BASE in
      let hash := hash_step hash size in
      let hash := hash_step hash glyph in
      let hash := hash_step hash face in
      let hash := hash_step hash weight in
      hash_step hash style
  | StrokeKey size glyph face thickness join =>
      let hash := HASH_BASE in
      let hash := hash_step hash size in
      let hash := hash_step hash glyph in
      let hash := hash_step hash face in
      let hash := hash_step hash thickness in
      hash_step hash join
  end.
(** sample/msdf_text_atlas.cpp:193-199 [GlyphKeyHash], 210-219 [StrokeKeyHash]. *)
Definition field_hash (k : field_key) : Z :=
  match k with
  | FieldKey glyph face =>
      let hash := HASH_BASE in
      let hash := hash_step hash glyph in
      hash_step hash face
  | EdgeKey size glyph face thickness join =>
      let hash := HASH_BASE in
      let hash := hash_step hash size in
      let hash := hash_step hash glyph in
      let hash := hash_step hash face in
      let hash := hash_step hash thickness in
      hash_step hash join
  end.

(** Text as bytes: a [std::string], a view of characters, or a pointer to characters that
    end with a zero. *)
Inductive text_arg := Owned (s : list Z) | View (s : list Z) | Pointer (memory : list Z).
(** The characters it stands for: a pointer those before the first zero (the conversion of
    [const char*] to [std::string_view]). *)
Fixpoint until_zero (m : list Z) : list Z :=
  match m with
  | [] => []
  | b :: m => if b =? 0 then [] else b :: until_zero m
  end.
Section Strings.
(** [std::hash<std::string_view>] and [std::hash<std::string>]. *)
Variable view_hash string_hash : list Z -> Z.
(** src/string_hash.hpp:8-22 [StringHash], the three overloads. *)
Definition text_hash (t : text_arg) : Z :=
  match t with
  | Pointer m => view_hash (until_zero m)
  | View s => view_hash s
  | Owned s => string_hash s
  end.
End Strings.
(** [std::equal_to<>] between a stored string and what is looked up. *)
Definition text_of (t : text_arg) : list Z :=
  match t with Owned s | View s => s | Pointer m => until_zero m end.
Fixpoint bytes_eqb (a b : list Z) : bool :=
  match a, b with
  | [], [] => true
  | x :: a, y :: b => (x =? y) && bytes_eqb a b
  | _, _ => false
  end.

(** * [std::unordered_map] *)

(** C++17 [unord.req]: elements are kept in buckets, the bucket of a key given by its hash
    value; when [emplace] adds an element the number of buckets may change first, and all
    elements are then put in their new buckets.  Which numbers of buckets are used is left
    to [policy] (of the size and the present number; never zero after an insertion). *)
Section Table.
Variable K V : Type.
(** The type looked up by, its hash and equality; [stored] makes a key of the table. *)
Variable A : Type.
Variable stored : A -> K.
Variable hash : K -> Z.
Variable arg_hash : A -> Z.
Variable same : K -> A -> bool.
Variable policy : nat -> nat -> nat.

Definition table : Type := list (list (K * V)).
Definition slot (h : Z) (n : nat) : nat := Z.to_nat (h mod Z.of_nat n).
Fixpoint in_bucket (b : list (K * V)) (a : A) : option V :=
  match b with
  | [] => None
  | (k, v) :: b => if same k a then Some v else in_bucket b a
  end.
(** [find] and [it->second]. *)
Definition table_find (t : table) (a : A) : option V :=
  match t with
  | [] => None
  | _ => in_bucket (nth (slot (arg_hash a) (List.length t)) t []) a
  end.
Definition put (t : table) (k : K) (v : V) : table :=
  let i := slot (hash k) (List.length t) in
  list_set t i ((k, v) :: nth i t []).
Definition rehash (n : nat) (t : table) : table :=
  fold_left (fun t kv => put t (fst kv) (snd kv)) (concat t) (repeat [] n).
(** [emplace]: nothing when there is an equal key. *)
Definition emplace (t : table) (a : A) (v : V) : table :=
  match table_find t a with
  | Some _ => t
  | None =>
      let t := rehash (policy (List.length (concat t)) (List.length t)) t in
      put t (stored a) v
  end.

Inductive table_op := Find (a : A) | Emplace (a : A) (v : V).
(** The answers of the lookups in order. *)
Fixpoint table_run (t : table) (ops : list table_op) : list (option V) :=
  match ops with
  | [] => []
  | Find a :: ops => table_find t a :: table_run t ops
  | Emplace a v :: ops => table_run (emplace t a v) ops
  end.
End Table.
