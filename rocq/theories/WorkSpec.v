(** What working with memory properly means. *)
From Verif Require Import Base WorkModel.
Open Scope list_scope.

(** It was made and not released since. *)
Definition exists_now (tr : list work_event) (k : work_kind) (n : nat) : Prop :=
  exists before after, tr = before ++ Got k n :: after /\ ~ In (Gave k n) after.
(** Nothing is made twice, only what exists is used or released. *)
Definition work_proper (tr : list work_event) : Prop :=
  forall before e after, tr = before ++ e :: after ->
  match e with Got k n => ~ exists_now before k n | Used k n | Gave k n => exists_now before k n | Unwritten => True end.
(** A builder holds its line iterator and its buffer. *)
Definition held_by (b : builder) (k : work_kind) (n : nat) : Prop :=
  (k = LineIterator /\ bu_iter b = Some n) \/ (k = Buffer /\ bu_buffer b = Some n).
(** The blocks made. *)
Definition is_block (e : work_event) : bool := match e with Got TextBlock _ => true | _ => false end.
Definition blocks_made (tr : list work_event) : nat := length (filter is_block tr).
(** The paragraphs with text, and their runs. *)
Definition texts (ps : list work_paragraph) : nat := length (filter (fun p => negb (wp_empty p)) ps).
Definition runs_of (ps : list work_paragraph) : nat := list_sum (map wp_runs (filter (fun p => negb (wp_empty p)) ps)).
(** A builder that can lay out. *)
Definition whole (b : builder) : Prop := bu_iter b <> None /\ bu_buffer b <> None.
