(** Independent description of script segmentation: a list of open brackets, newest
    first, of which the newest 32 are remembered, and one script per group of
    characters.  No circular buffer, no fix-up counter, no offsets. *)
From Verif Require Import Base.
Open Scope Z_scope.

(** The seventeen pairs the program treats as brackets. *)
Definition bracket_pairs : list (Z * Z) :=
  [(0x28, 0x29); (0x3c, 0x3e); (0x5b, 0x5d); (0x7b, 0x7d); (0xab, 0xbb);
   (0x2018, 0x2019); (0x201c, 0x201d); (0x2039, 0x203a);
   (0x3008, 0x3009); (0x300a, 0x300b); (0x300c, 0x300d); (0x300e, 0x300f); (0x3010, 0x3011);
   (0x3014, 0x3015); (0x3016, 0x3017); (0x3018, 0x3019); (0x301a, 0x301b)].

Inductive role := Plain | Opens (o : Z) | Closes (o : Z).
Definition role_of (ch : Z) : role :=
  match find (fun p => fst p =? ch) bracket_pairs with
  | Some (o, _) => Opens o
  | None => match find (fun p => snd p =? ch) bracket_pairs with
            | Some (o, _) => Closes o
            | None => Plain
            end
  end.

(** Scripts 0 (common) and 1 (inherited) and the error value -1 are weak. *)
Definition strong (c : Z) : bool := 1 <? c.
Definition compatible (a b : Z) : bool := negb (strong a) || negb (strong b) || (a =? b).

Definition valid_char (ch : Z) : bool := (0 <=? ch) && (ch <=? 0x10ffff).

(** Open brackets with the script of the run they are in (weak while unknown). *)
Definition stack := list (Z * Z).
Fixpoint drop_to (o : Z) (st : stack) : stack :=
  match st with
  | [] => []
  | (p, c) :: st' => if p =? o then st else drop_to o st'
  end.
Definition resolve (c : Z) (st : stack) : stack :=
  map (fun e => if strong (snd e) then e else (fst e, c)) st.

Section Spec.
Variable script : Z -> Z.

(** Effect of meeting [ch]: the new stack and the script the character asks for.
    [bad] is set once an ill-formed sequence has been met in the run. *)
Definition meet (st : stack) (code : Z) (bad : bool) (ch : Z) : stack * Z * bool :=
  let bad := bad || negb (valid_char ch) in
  let own := if bad then -1 else script ch in
  match role_of ch with
  | Plain => (st, own, bad)
  | Opens o => (firstn 32 ((o, code) :: st), own, bad)
  | Closes o => let st := drop_to o st in
                (st, match st with [] => own | (_, c) :: _ => c end, bad)
  end.

(** Adding the character to the current run. *)
Definition absorb (st : stack) (code sc : Z) (ch : Z) : stack * Z :=
  let '(st, code) := if negb (strong code) && strong sc then (resolve sc st, sc) else (st, code) in
  (match role_of ch with Closes _ => tl st | _ => st end, code).

(** Groups of the text with their script; [cur] is the current group, reversed. *)
Fixpoint groups_from (st : stack) (code : Z) (bad : bool) (cur : list (Z * Z)) (text : list (Z * Z))
  : list (list (Z * Z) * Z) :=
  match text with
  | [] => [(rev cur, code)]
  | it :: text' =>
      let '(st1, sc, bad1) := meet st code bad (fst it) in
      if compatible code sc then
        let '(st2, code2) := absorb st1 code sc (fst it) in
        groups_from st2 code2 bad1 (it :: cur) text'
      else
        let '(st1, sc, bad1) := meet st1 0 false (fst it) in
        let '(st2, code2) := absorb st1 0 sc (fst it) in
        (rev cur, code) :: groups_from st2 code2 bad1 [it] text'
  end.
Definition script_groups (text : list (Z * Z)) : list (list (Z * Z) * Z) :=
  match text with [] => [] | _ => groups_from [] 0 false [] text end.
End Spec.

(** Runs as (start, limit, script) for a list of groups laid end to end. *)
Definition bytes (g : list (Z * Z)) : Z := fold_right (fun it n => snd it + n) 0 g.
Fixpoint laid_out (pos : Z) (gs : list (list (Z * Z) * Z)) : list (Z * Z * Z) :=
  match gs with
  | [] => []
  | (g, c) :: gs' => (pos, pos + bytes g, c) :: laid_out (pos + bytes g) gs'
  end.

(** Every decoded item takes at least one byte. *)
Definition decoded (text : list (Z * Z)) : Prop := Forall (fun it => 0 < snd it) text.
Definition well_formed (text : list (Z * Z)) : Prop := Forall (fun it => valid_char (fst it) = true) text.

(** The script reported for each character. *)
Definition labels (gs : list (list (Z * Z) * Z)) : list Z :=
  flat_map (fun g => repeat (snd g) (length (fst g))) gs.

(** [nested d t]: every bracket of [t] is matched inside [t], nested at most [d] deep. *)
Inductive nested : nat -> list (Z * Z) -> Prop :=
| nested_nil d : nested d []
| nested_char d it t : role_of (fst it) = Plain -> nested d t -> nested d (it :: t)
| nested_pair d o a b m t :
    role_of (fst a) = Opens o -> role_of (fst b) = Closes o ->
    nested d m -> nested (S d) t -> nested (S d) (a :: m ++ b :: t).
