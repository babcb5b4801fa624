(** Model of the locking in [FontRegistry] (src/font_registry.cpp): threads that call its
    functions at the same time.

    Each function is the list of what it does with the mutex and with the tables (lines
    171-177).  What a call reads is the whole of the tables; [parts] are the changes that
    one [register_family] makes, in any division.  Everything else a call does concerns
    its own thread ([t_fontContext] is thread_local, line 169).  Memory is sequentially
    consistent.  Not modelled: [set_file_mapping_functions], which must be synchronised
    by the caller. *)
From Verif Require Import Base.

Section Locks.
(** The tables; descriptions of families; what a registration changes, step by step. *)
Variables (R D : Type) (parts : D -> list (R -> R)).

(** Taking the mutex exclusively: [AAsk] is the call, [AExcl] its end. *)
Inductive act := AShared | AUnshared | AAsk | AExcl | AUnexcl (d : D) | ARead | AWrite (f : R -> R).

(** Calls of the registry.  [miss]: the face is not in the cache of the thread. *)
Inductive call := CFamily | CHandle | CData (miss : bool) | CDataOf (miss : bool) | CDefault | CSub (misses : list bool) | CRegister (d : D).

(** src/font_registry.cpp:203-211 [get_family], 217-221 [get_face_data_handle]. *)
Definition code_query : list act := [AShared; ARead; AUnshared].
(** 249-315 [get_font_data]: the lock is taken on a miss only, lines 275-281. *)
Definition code_data (miss : bool) : list act := if miss then [AShared; ARead; AUnshared] else [].
Section Debug.
(** Whether assertions are compiled. *)
Variable debug : bool.
(** Lines 226, 239: the assertion reads the tables. *)
Definition code_assert : list act := if debug then [ARead] else [].
Definition code (c : call) : list act :=
  match c with
  | CFamily | CHandle => code_query
  | CData miss => code_data miss
  | CDataOf miss => code_assert ++ code_query ++ code_data miss   (* 236-242 *)
  | CDefault => code_assert ++ code_query   (* 223-234 *)
  (* 468-548: [find_compatible_font] asks for font data while the lock is held *)
  | CSub misses => AShared :: ARead :: flat_map (fun m => ARead :: code_data m) misses ++ [AUnshared]
  | CRegister d => AAsk :: AExcl :: ARead :: map AWrite (parts d) ++ [AUnexcl d]   (* 317-387 *)
  end.
Definition program (cs : list call) : list act := flat_map code cs.
End Debug.

(** What happened: a section begins or ends, a read sees the tables, a registration ends. *)
Inductive event := EBegin (i : nat) | EEnd (i : nat) | ESaw (i : nat) (r : R) | EDone (d : D).
Record world := { w_threads : list (list act); w_writer : option nat; w_readers : list nat; w_tables : R; w_log : list event }.

Definition waits (acts : list act) : bool := match acts with AExcl :: _ => true | _ => false end.
Fixpoint drop_one (i : nat) (l : list nat) : list nat :=
  match l with [] => [] | x :: l' => if Nat.eqb x i then l' else x :: drop_one i l' end.

(** One step of thread [i].  [prefer]: a waiting writer keeps new readers out (the standard
    leaves this to the implementation of [std::shared_mutex]). *)
Inductive step (prefer : bool) : world -> world -> Prop :=
| SShared ts rs r lg i acts : nth_error ts i = Some (AShared :: acts) -> (prefer = true -> existsb waits ts = false) ->
    step prefer {| w_threads := ts; w_writer := None; w_readers := rs; w_tables := r; w_log := lg |}
                {| w_threads := list_set ts i acts; w_writer := None; w_readers := i :: rs; w_tables := r; w_log := lg ++ [EBegin i] |}
| SUnshared ts wr rs r lg i acts : nth_error ts i = Some (AUnshared :: acts) -> In i rs ->
    step prefer {| w_threads := ts; w_writer := wr; w_readers := rs; w_tables := r; w_log := lg |}
                {| w_threads := list_set ts i acts; w_writer := wr; w_readers := drop_one i rs; w_tables := r; w_log := lg ++ [EEnd i] |}
| SAsk ts wr rs r lg i acts : nth_error ts i = Some (AAsk :: acts) ->
    step prefer {| w_threads := ts; w_writer := wr; w_readers := rs; w_tables := r; w_log := lg |}
                {| w_threads := list_set ts i acts; w_writer := wr; w_readers := rs; w_tables := r; w_log := lg |}
| SExcl ts r lg i acts : nth_error ts i = Some (AExcl :: acts) ->
    step prefer {| w_threads := ts; w_writer := None; w_readers := []; w_tables := r; w_log := lg |}
                {| w_threads := list_set ts i acts; w_writer := Some i; w_readers := []; w_tables := r; w_log := lg |}
| SUnexcl ts rs r lg i d acts : nth_error ts i = Some (AUnexcl d :: acts) ->
    step prefer {| w_threads := ts; w_writer := Some i; w_readers := rs; w_tables := r; w_log := lg |}
                {| w_threads := list_set ts i acts; w_writer := None; w_readers := rs; w_tables := r; w_log := lg ++ [EDone d] |}
| SRead ts wr rs r lg i acts : nth_error ts i = Some (ARead :: acts) ->
    step prefer {| w_threads := ts; w_writer := wr; w_readers := rs; w_tables := r; w_log := lg |}
                {| w_threads := list_set ts i acts; w_writer := wr; w_readers := rs; w_tables := r; w_log := lg ++ (if match wr with Some j => Nat.eqb i j | None => false end then [] else [ESaw i r]) |}
| SWrite ts wr rs r lg i f acts : nth_error ts i = Some (AWrite f :: acts) ->
    step prefer {| w_threads := ts; w_writer := wr; w_readers := rs; w_tables := r; w_log := lg |}
                {| w_threads := list_set ts i acts; w_writer := wr; w_readers := rs; w_tables := f r; w_log := lg |}.

Definition start (debug : bool) (r : R) (css : list (list call)) : world :=
  {| w_threads := map (program debug) css; w_writer := None; w_readers := []; w_tables := r; w_log := [] |}.
Inductive steps (prefer : bool) : world -> world -> Prop :=
| steps_none w : steps prefer w w
| steps_more w1 w2 w3 : steps prefer w1 w2 -> step prefer w2 w3 -> steps prefer w1 w3.
End Locks.
Arguments AShared {R D}. Arguments AUnshared {R D}. Arguments AAsk {R D}. Arguments AExcl {R D}. Arguments AUnexcl {R D}. Arguments ARead {R D}. Arguments AWrite {R D}.
Arguments CFamily {D}. Arguments CHandle {D}. Arguments CData {D}. Arguments CDataOf {D}. Arguments CDefault {D}. Arguments CSub {D}. Arguments CRegister {D}.
Arguments EBegin {R D}. Arguments EEnd {R D}. Arguments ESaw {R D}. Arguments EDone {R D}.
Arguments w_threads {R D}. Arguments w_writer {R D}. Arguments w_readers {R D}. Arguments w_tables {R D}. Arguments w_log {R D}.
Arguments step {R D}. Arguments steps {R D}. Arguments waits {R D}.
