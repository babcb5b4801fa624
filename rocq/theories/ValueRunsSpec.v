(** Independent specification of run tables: a table is a list of
    (exclusive upper limit, value); the value at index [i] is that of the first
    run whose limit exceeds [i]. *)
From Verif Require Import Base ValueRunsModel.
Set Implicit Arguments.
Open Scope Z_scope.

Definition table (T : Type) := list (Z * T).

Fixpoint lookup {T} (t : table T) (i : Z) : option T :=
  match t with
  | [] => None
  | (limit, v) :: t' => if i <? limit then Some v else lookup t' i
  end.

(** Number of runs that end at or before [i]. *)
Fixpoint runs_before {T} (t : table T) (i : Z) : nat :=
  match t with
  | [] => 0%nat
  | (limit, _) :: t' => if limit <=? i then S (runs_before t' i) else 0%nat
  end.

(** Limits never decrease (zero-length runs are allowed). *)
Definition sorted {T} (t : table T) : Prop := StronglySorted Z.le (map fst t).
(** Limits strictly increase (no zero-length run). *)
Definition strictly_sorted {T} (t : table T) : Prop := StronglySorted Z.lt (map fst t).

(** The last limit of a table. *)
Definition final_limit {T} (t : table T) (d : Z) : Z := last (map fst t) d.

(** The table built by a sequence of [add] calls. *)
Definition build {T} (t : table T) : value_runs T :=
  fold_left (fun r p => vr_add r (fst p) (snd p)) t vr_empty.
Definition build_bool (t : table bool) : bool_runs :=
  fold_left (fun r p => br_add r (fst p) (snd p)) t [].
