(** Model of the value-run tables, their packed boolean specialisation, the run
    iterators and the run intersection loops. *)
From Verif Require Import Base.
Set Implicit Arguments.
Open Scope Z_scope.

(** What [ValueRunsMixin] needs of its derived class
    (src/value_runs.hpp:15-24: get_run_count, get_run_limit, get_run_value). *)
Record runs_view (T : Type) := {
  rv_count : nat;
  rv_limit : nat -> outcome Z;
  rv_value : nat -> outcome T
}.

Section Mixin.
Variable T : Type.
Variable rv : runs_view T.

(** src/value_runs.hpp:28-32: skip the runs that end at or before [offset]. *)
Fixpoint skip_runs (fuel : nat) (i : nat) (offset : Z) : outcome nat :=
  if (i <? rv_count rv)%nat then
    match fuel with
    | O => OutOfFuel
    | S fuel' =>
        do l <- rv_limit rv i;
        if l <=? offset then skip_runs fuel' (i + 1)%nat offset else Ok i
    end
  else Ok i.

(** src/value_runs.hpp:34-44: the calls of [func], in order, as (limit, value). *)
Fixpoint emit_runs (fuel : nat) (i : nat) (offset length : Z) : outcome (list (Z * T)) :=
  if (i <? rv_count rv)%nat then
    match fuel with
    | O => OutOfFuel
    | S fuel' =>
        do l <- rv_limit rv i;
        let newLimit := l - offset in
        do v <- rv_value rv i;
        if newLimit <? length then
          do rest <- emit_runs fuel' (i + 1)%nat offset length;
          Ok ((newLimit, v) :: rest)
        else Ok [(length, v)]
    end
  else Ok [].

(** src/value_runs.hpp:26-45 [for_each_run_in_range]. *)
Definition for_each_run_in_range (offset length : Z) : outcome (list (Z * T)) :=
  do i <- skip_runs (rv_count rv) 0%nat offset;
  emit_runs (rv_count rv) i offset length.

(** src/value_runs.hpp:53-71 [get_run_containing_index]. *)
Fixpoint run_search_loop (fuel first count : nat) (index : Z) : outcome nat :=
  if (0 <? count)%nat then
    match fuel with
    | O => OutOfFuel
    | S fuel' =>
        let step := Nat.div count 2 in
        let i := (first + step)%nat in
        do l <- rv_limit rv i;
        if l <=? index
        then run_search_loop fuel' (i + 1)%nat (count - (step + 1))%nat index
        else run_search_loop fuel' first step index
    end
  else Ok first.

Definition get_run_containing_index (index : Z) : outcome nat :=
  run_search_loop (rv_count rv) 0%nat (rv_count rv) index.

(** src/value_runs.hpp:73-75 [get_value]. *)
Definition get_value (index : Z) : outcome T :=
  do i <- get_run_containing_index index;
  rv_value rv i.
End Mixin.

(** src/value_runs.hpp:80-134 [ValueRuns<T>]: two parallel vectors. *)
Record value_runs (T : Type) := {
  vr_values : list T;
  vr_limits : list Z
}.

Definition vr_empty {T} : value_runs T := {| vr_values := []; vr_limits := [] |}.

(** src/value_runs.hpp:102-105 [add]. *)
Definition vr_add {T} (r : value_runs T) (limit : Z) (v : T) : value_runs T :=
  {| vr_values := vr_values r ++ [v]; vr_limits := vr_limits r ++ [limit] |}.

(** src/value_runs.hpp:87-89: one-run constructor. *)
Definition vr_single {T} (v : T) (limit : Z) : value_runs T :=
  {| vr_values := [v]; vr_limits := [limit] |}.

(** src/value_runs.hpp:107-113, 124-126. *)
Definition vr_view {T} (r : value_runs T) : runs_view T :=
  {| rv_count := length (vr_limits r);
     rv_limit := vget (vr_limits r);
     rv_value := vget (vr_values r) |}.

(** src/value_runs.hpp:128-130 [get_limit], 120-122 [empty]. *)
Definition vr_get_limit {T} (r : value_runs T) : outcome Z := vback (vr_limits r).
Definition vr_is_empty {T} (r : value_runs T) : bool :=
  match vr_values r with [] => true | _ => false end.

(** src/value_runs.hpp:47-51 [get_runs_subset]. *)
Definition vr_get_runs_subset {T} (r : value_runs T) (offset length : Z) (output : value_runs T)
  : outcome (value_runs T) :=
  do calls <- for_each_run_in_range (vr_view r) offset length;
  Ok (fold_left (fun o p => vr_add o (fst p) (snd p)) calls output).

(** src/value_runs.hpp:139, 186-188: [MASK_VALUE] and [encode]. *)
Definition mask_value : Z := 2 ^ 31 - 1.
Definition br_encode (value : bool) (limit : Z) : Z :=
  Z.lor (Z.shiftl (if value then 1 else 0) 31) (wrap32 limit).

(** src/value_runs.hpp:136-189 [ValueRuns<bool>]: one vector of packed words. *)
Definition bool_runs := list Z.
Definition br_add (r : bool_runs) (limit : Z) (value : bool) : bool_runs :=
  r ++ [br_encode value limit].
Definition br_word_value (w : Z) : bool := negb (Z.shiftr w 31 =? 0).
Definition br_word_limit (w : Z) : Z := to_int32 (Z.land w mask_value).
Definition br_view (r : bool_runs) : runs_view bool :=
  {| rv_count := length r;
     rv_limit := fun i => omap br_word_limit (vget r i);
     rv_value := fun i => omap br_word_value (vget r i) |}.
Definition br_get_limit (r : bool_runs) : outcome Z := omap br_word_limit (vback r).
Definition br_get_runs_subset (r : bool_runs) (offset length : Z) (output : bool_runs)
  : outcome bool_runs :=
  do calls <- for_each_run_in_range (br_view r) offset length;
  Ok (fold_left (fun o p => br_add o (fst p) (snd p)) calls output).

(** src/value_runs_iterator.hpp:18-31, 52-69 [ValueRunsIterator]: a table and a
    run index ([int32_t], never negative). *)
Definition it_get_value {T} (rv : runs_view T) (runIndex : nat) : outcome T := rv_value rv runIndex.
Definition it_get_limit {T} (rv : runs_view T) (runIndex : nat) : outcome Z := rv_limit rv runIndex.

(** src/value_runs_iterator.hpp:64-69 [advance_to].  There is no bound check:
    the read of [get_run_limit] past the last run is undefined.  The loop runs
    at most once per remaining run before that happens. *)
Fixpoint it_advance_loop {T} (fuel : nat) (rv : runs_view T) (runIndex : nat) (index : Z) : outcome nat :=
  match fuel with
  | O => OutOfFuel
  | S fuel' =>
      do l <- rv_limit rv runIndex;
      if l <=? index then it_advance_loop fuel' rv (runIndex + 1)%nat index else Ok runIndex
  end.
Definition it_advance_to {T} (rv : runs_view T) (runIndex : nat) (index : Z) : outcome nat :=
  it_advance_loop (S (rv_count rv)) rv runIndex index.

(** src/value_runs_iterator.hpp:33-50, 71-88 [MaybeDefaultRunsIterator]. *)
Record maybe_iter (T : Type) := {
  mi_runs : option (runs_view T);
  mi_runIndex : Z;
  mi_default : T
}.
Definition mi_make {T} (pRuns : option (runs_view T)) (defaultValue : T) (defaultLimit : Z) : maybe_iter T :=
  {| mi_runs := pRuns;
     mi_runIndex := match pRuns with Some _ => 0 | None => defaultLimit end;
     mi_default := defaultValue |}.
Definition mi_get_value {T} (it : maybe_iter T) : outcome T :=
  match mi_runs it with
  | Some rv => rv_value rv (Z.to_nat (mi_runIndex it))
  | None => Ok (mi_default it)
  end.
Definition mi_get_limit {T} (it : maybe_iter T) : outcome Z :=
  match mi_runs it with
  | Some rv => rv_limit rv (Z.to_nat (mi_runIndex it))
  | None => Ok (mi_runIndex it)
  end.
Definition mi_advance_to {T} (it : maybe_iter T) (index : Z) : outcome (maybe_iter T) :=
  match mi_runs it with
  | Some rv =>
      do i <- it_advance_loop (S (rv_count rv)) rv (Z.to_nat (mi_runIndex it)) index;
      Ok {| mi_runs := mi_runs it; mi_runIndex := Z.of_nat i; mi_default := mi_default it |}
  | None => Ok it
  end.

(** src/value_run_utils.hpp:15-60: [iterate_run_intersections] over tables.
    Simplification: all tables carry values of one type [V] (the C++ is variadic
    over value types; embed them in a sum type). *)
Section Intersections.
Variable V : Type.

(** src/value_run_utils.hpp:15-23 [find_next_min_limit]. *)
Fixpoint find_next_min_limit (ts : list (runs_view V * nat)) : outcome Z :=
  match ts with
  | [] => UB (* excluded by the static_assert at line 49 *)
  | [(rv, i)] => rv_limit rv i
  | (rv, i) :: tail =>
      do l <- rv_limit rv i;
      do m <- find_next_min_limit tail;
      Ok (Z.min l m)
  end.

(** src/value_run_utils.hpp:25-32 [advance_intersect_indices]. *)
Fixpoint advance_intersect_indices (minLimit : Z) (ts : list (runs_view V * nat))
  : outcome (list (runs_view V * nat)) :=
  match ts with
  | [] => Ok []
  | (rv, i) :: tail =>
      do l <- rv_limit rv i;
      do tail' <- advance_intersect_indices minLimit tail;
      Ok ((rv, if l <=? minLimit then (i + 1)%nat else i) :: tail')
  end.

(** src/value_run_utils.hpp:34-43 [call_intersect_func]: the values passed. *)
Fixpoint intersect_values (ts : list (runs_view V * nat)) : outcome (list V) :=
  match ts with
  | [] => Ok []
  | (rv, i) :: tail =>
      do v <- rv_value rv i;
      do vs <- intersect_values tail;
      Ok (v :: vs)
  end.

(** src/value_run_utils.hpp:55-59: main loop; result = the calls of [func]. *)
Fixpoint intersect_loop (fuel : nat) (minLimit maxLimit : Z) (ts : list (runs_view V * nat))
  : outcome (list (Z * list V)) :=
  if minLimit <? maxLimit then
    match fuel with
    | O => OutOfFuel
    | S fuel' =>
        do m <- find_next_min_limit ts;
        do vs <- intersect_values ts;
        do ts' <- advance_intersect_indices m ts;
        do rest <- intersect_loop fuel' m maxLimit ts';
        Ok ((m, vs) :: rest)
    end
  else Ok [].

(** [get_limit()] of a table: the limit of its last run. *)
Definition rv_get_limit (rv : runs_view V) : outcome Z :=
  match rv_count rv with
  | O => UB
  | S n => rv_limit rv n
  end.

Fixpoint max_limit (rvs : list (runs_view V)) : outcome Z :=
  match rvs with
  | [] => UB
  | [rv] => rv_get_limit rv
  | rv :: tail =>
      do l <- rv_get_limit rv;
      do m <- max_limit tail;
      Ok (Z.max l m)
  end.

(** src/value_run_utils.hpp:47-60. *)
Definition iterate_run_intersections (rvs : list (runs_view V)) : outcome (list (Z * list V)) :=
  do maxLimit <- max_limit rvs;
  intersect_loop (fold_right (fun rv n => rv_count rv + n)%nat 0%nat rvs) 0 maxLimit
    (map (fun rv => (rv, 0%nat)) rvs).
End Intersections.

(** src/value_run_utils.hpp:62-70: the iterator version.  [I] is the type of
    iterators (a sum type for several kinds), with its three operations. *)
Section IterIntersections.
Variables (I V : Type).
Variable i_limit : I -> outcome Z.
Variable i_value : I -> outcome V.
Variable i_advance : I -> Z -> outcome I.

Fixpoint min_of_limits (its : list I) : outcome Z :=
  match its with
  | [] => UB
  | [x] => i_limit x
  | x :: tail =>
      do l <- i_limit x;
      do m <- min_of_limits tail;
      Ok (Z.min l m)
  end.

Fixpoint iter_values (its : list I) : outcome (list V) :=
  match its with
  | [] => Ok []
  | x :: tail => do v <- i_value x; do vs <- iter_values tail; Ok (v :: vs)
  end.

Fixpoint iter_advance_all (its : list I) (index : Z) : outcome (list I) :=
  match its with
  | [] => Ok []
  | x :: tail =>
      do x' <- i_advance x index;
      do tail' <- iter_advance_all tail index;
      Ok (x' :: tail')
  end.

(** Returns the calls and the final iterators (they are taken by reference and
    reused for the next paragraph). *)
Fixpoint iter_intersect_loop (fuel : nat) (minLimit maxLimit : Z) (its : list I)
  : outcome (list (Z * list V) * list I) :=
  if minLimit <? maxLimit then
    match fuel with
    | O => OutOfFuel
    | S fuel' =>
        do m <- min_of_limits its;
        do vs <- iter_values its;
        do its' <- iter_advance_all its m;
        do rest <- iter_intersect_loop fuel' m maxLimit its';
        Ok ((m, vs) :: fst rest, snd rest)
    end
  else Ok ([], its).
End IterIntersections.
