(** Specification of concurrent use of the registry. *)
From Verif Require Import Base LockModel.

Section Spec.
Variables (R D : Type).

(** Two threads are about to touch the tables at the same time, one of them to change them. *)
Definition race (w : world R D) : Prop :=
  exists i j f a b c, i <> j /\ nth_error (w_threads w) i = Some (AWrite f :: a) /\ nth_error (w_threads w) j = Some (b :: c) /\
    (b = ARead \/ exists g, b = AWrite g).
(** A thread is about to take the mutex although it holds it (undefined for
    [std::shared_mutex]). *)
Definition relock (w : world R D) : Prop :=
  exists i a, (nth_error (w_threads w) i = Some (AShared :: a) \/ nth_error (w_threads w) i = Some (AAsk :: a)) /\
    (In i (w_readers w) \/ w_writer w = Some i).
Definition finished (w : world R D) : Prop := Forall (fun a => a = []) (w_threads w).
(** Nobody can do anything, and somebody has not finished. *)
Definition deadlock (prefer : bool) (w : world R D) : Prop := ~ finished w /\ forall w', ~ step prefer w w'.

(** The log is that of registrations done one after the other: each read sees the tables
    after the registrations before it. *)
Variable register : D -> R -> R.
Fixpoint serial (r : R) (log : list (event R D)) : Prop :=
  match log with
  | [] => True
  | ESaw _ x :: log => x = r /\ serial r log
  | EDone d :: log => serial (register d r) log
  | _ :: log => serial r log
  end.
(** The registrations of a log. *)
Definition registered (log : list (event R D)) : list D := flat_map (fun e => match e with EDone d => [d] | _ => [] end) log.
(** How many sections of thread [i] have begun and not ended. *)
Fixpoint inside (i : nat) (log : list (event R D)) : Z :=
  match log with
  | [] => 0
  | EBegin j :: log => (if Nat.eqb j i then 1 else 0) + inside i log
  | EEnd j :: log => (if Nat.eqb j i then -1 else 0) + inside i log
  | _ :: log => inside i log
  end%Z.
(** No registration ends while a reading section is open: all a section sees is one state
    of the tables. *)
Definition undisturbed (log : list (event R D)) : Prop := forall a d b i, log = a ++ EDone d :: b -> inside i a = 0%Z.

(** [get_sub_font] finds all faces in the cache of its thread. *)
Definition cached (c : call D) : Prop := match c with CSub misses => Forall (fun m => m = false) misses | _ => True end.
End Spec.
