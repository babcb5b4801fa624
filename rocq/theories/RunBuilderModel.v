(** Model of the nested-value run builder. *)
From Verif Require Import Base ValueRunsModel.
Set Implicit Arguments.
Open Scope Z_scope.

(** src/value_run_builder.hpp:8-42 [ValueRunBuilder<T>]: the runs emitted so far
    and the stack of values.  The model keeps the stack top ([back()]) first.
    For [T = bool] the C++ uses packed runs; C04 shows they behave alike. *)
Record run_builder (T : Type) := {
  rb_runs : value_runs T;
  rb_stack : list T
}.

(** src/value_run_builder.hpp:11-12: constructor. *)
Definition rb_make {T} (base : T) : run_builder T := {| rb_runs := vr_empty; rb_stack := [base] |}.

(** [m_stack.back()]: undefined on an empty stack. *)
Definition rb_top {T} (b : run_builder T) : outcome T :=
  match rb_stack b with [] => UB | v :: _ => Ok v end.

(** src/value_run_builder.hpp:14-18 [push]. *)
Definition rb_push {T} (b : run_builder T) (limit : Z) (v : T) : outcome (run_builder T) :=
  do top <- rb_top b;
  Ok {| rb_runs := vr_add (rb_runs b) limit top; rb_stack := v :: rb_stack b |}.

(** src/value_run_builder.hpp:20-26 [pop]. *)
Definition rb_pop {T} (b : run_builder T) (limit : Z) : outcome (run_builder T) :=
  do add <- (if vr_is_empty (rb_runs b) then Ok true
             else do l <- vr_get_limit (rb_runs b); Ok (l <? limit));
  do runs <- (if add : bool
              then do top <- rb_top b; Ok (vr_add (rb_runs b) limit top)
              else Ok (rb_runs b));
  match rb_stack b with
  | [] => UB
  | _ :: st => Ok {| rb_runs := runs; rb_stack := st |}
  end.

(** src/value_run_builder.hpp:28-30 [get] (moves the runs out). *)
Definition rb_get {T} (b : run_builder T) : value_runs T := rb_runs b.

(** src/value_run_builder.hpp:36-38 [get_current_value]. *)
Definition rb_get_current_value {T} (b : run_builder T) : outcome T := rb_top b.

(** A client call. *)
Inductive rb_op (T : Type) := RPush (limit : Z) (v : T) | RPop (limit : Z).
Arguments RPop {T} limit.

Definition rb_step {T} (b : run_builder T) (o : rb_op T) : outcome (run_builder T) :=
  match o with
  | RPush l v => rb_push b l v
  | RPop l => rb_pop b l
  end.

Fixpoint rb_exec {T} (b : run_builder T) (os : list (rb_op T)) : outcome (run_builder T) :=
  match os with
  | [] => Ok b
  | o :: os' => do b' <- rb_step b o; rb_exec b' os'
  end.
