(** Specification of cursor movement. *)
From Verif Require Import Base PackingModel CursorModel.
Open Scope Z_scope.

(** The caret stops of a text of [n] bytes. *)
Definition stops_ok (B : Z -> Prop) (n : Z) : Prop := B 0 /\ B n /\ forall b, B b -> 0 <= b <= n.
(** [r] is the next stop after [x], the last one before it. *)
Definition next_stop (B : Z -> Prop) (x r : Z) : Prop := B r /\ x < r /\ forall b, B b -> x < b -> r <= b.
Definition prev_stop (B : Z -> Prop) (x r : Z) : Prop := B r /\ r < x /\ forall b, B b -> b < x -> b <= r.
(** [BreakIterator::following] and [preceding]. *)
Definition follows_stops (B : Z -> Prop) (following : Z -> Z) : Prop :=
  forall x, 0 <= x -> next_stop B x (following x) \/ (following x = DONE /\ forall b, B b -> b <= x).
Definition precedes_stops (B : Z -> Prop) (preceding : Z -> Z) : Prop :=
  forall x, 0 <= x -> prev_stop B x (preceding x) \/ (preceding x = DONE /\ forall b, B b -> x <= b).

(** What ends a line: a line feed, a carriage return, the line separator or the
    paragraph separator. *)
Definition ends_line (c : Z) : Prop := c = 10 \/ c = 13 \/ c = 8232 \/ c = 8233.

Section Words.
Variables (B : Z -> Prop) (decode : Z -> Z) (white : Z -> bool).

(** Coming from [x], the stop [b] starts a word: it is no white space after white
    space, or a line break. *)
Definition starts_word (x b : Z) : Prop :=
  ends_line (decode b) \/
  (white (decode b) = false /\ exists p, (p = x \/ B p) /\ x <= p < b /\ (forall q, B q -> x < q < b -> q <= p) /\ white (decode p) = true).
(** Going back, [b] is the first character of a word, or a line break. *)
Definition first_of_word (b : Z) : Prop :=
  ends_line (decode b) \/ (white (decode b) = false /\ forall p, prev_stop B b p -> white (decode p) = true).
End Words.

(** Each live controller owns an iterator of its own that has not been deleted, and
    none is deleted twice. *)
Definition owners (w : cc_world) : list nat := flat_map (fun c => match c with Some c => match cc_iter c with Some p => [p] | None => [] end | None => [] end) (cw_all w).
Definition initialised (w : cc_world) : Prop := forall c, In (Some c) (cw_all w) -> cc_iter c <> None.
(** The iterator of every controller walks the text of that controller. *)
Definition in_step (w : cc_world) : Prop := forall c p, In (Some c) (cw_all w) -> cc_iter c = Some p -> nth_error (cw_texts w) p = Some (cc_text c).
