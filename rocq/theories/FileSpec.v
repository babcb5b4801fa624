(** Specification of mapping files: histories of mapping and unmapping. *)
From Coq Require Import Permutation.
From Verif Require Import Base FileModel.
Open Scope Z_scope.

Section History.
Variables A M : Type.
Variable map_file : A -> os -> outcome (os * M).
Variable unmap_file : M -> os -> outcome os.
Variable failed : M -> bool.
(** The answers the system can give. *)
Variable valid : A -> Prop.

(** A history maps files, with any answers of the system, and unmaps mappings it got and
    has not unmapped yet. A state is what the process holds and these mappings. *)
Inductive step : os * list M -> os * list M -> Prop :=
| step_fail a o o' live m : valid a -> map_file a o = Ok (o', m) -> failed m = true -> step (o, live) (o', live)
| step_map a o o' live m : valid a -> map_file a o = Ok (o', m) -> failed m = false -> step (o, live) (o', m :: live)
| step_unmap o o' l1 m l2 : unmap_file m o = Ok o' -> step (o, l1 ++ m :: l2) (o', l1 ++ l2).
Inductive history (start : os) : os * list M -> Prop :=
| history_start : history start (start, [])
| history_step s s' : history start s -> step s s' -> history start s'.

(** Nothing is lost: what is held, apart from what was held before, is what the live
    mappings own. *)
Definition owns_all (owned : M -> list held) (start : os) (s : os * list M) : Prop := Permutation (fst s) (flat_map owned (snd s) ++ start).
(** Nothing is released that is not held: no call of the history is undefined. *)
Definition no_misuse (s : os * list M) : Prop :=
  (forall a, valid a -> exists o' m, map_file a (fst s) = Ok (o', m)) /\ (forall m, In m (snd s) -> exists o', unmap_file m (fst s) = Ok o').
End History.
Arguments step {A M}. Arguments history {A M}. Arguments owns_all {M}. Arguments no_misuse {A M}.
Arguments step_map {A M}. Arguments step_unmap {A M}. Arguments history_start {A M}. Arguments history_step {A M}.

(** A null pointer is failure. *)
Definition is_null (m : mapping) : bool := fm_ptr m =? 0.

(** ** Linux: descriptors are not negative and mappings not at address zero. *)
Definition linux_valid (a : linux_answers) : Prop :=
  (forall fd, la_fd a = Some fd -> 0 <= fd < 2 ^ 31) /\ (forall p, la_addr a = Some p -> p <> 0).
Definition linux_owned (m : mapping) : list held := [Range (fm_ptr m) (fm_size m); Fd (fm_handle m)].
(** ** Windows: handles are neither null nor the invalid handle. *)
Definition windows_valid (a : windows_answers) : Prop :=
  (forall h, wa_file a = Some h -> h <> 0 /\ h <> -1) /\ (forall h, wa_view a = Some h -> h <> 0 /\ h <> -1) /\ (forall p, wa_addr a = Some p -> p <> 0).
Definition windows_owned (m : mapping * (Z * Z)) : list held :=
  [View (fm_ptr (fst m)); Handle (snd (snd m)); Handle (fst (snd m)); Block (fm_handle (fst m))].
(** ** Others *)
Definition stdio_valid (a : stdio_answers) : Prop := forall p, sa_block a = Some p -> p <> 0.
Definition stdio_owned (m : mapping * bool) : list held := [Block (fm_ptr (fst m))].
