(** Specification of the formatting iterator: tables looked up directly. *)
From Verif Require Import Base ValueRunsModel ValueRunsSpec FloatModel ColorModel FormattingModel FormattingIterModel.
Open Scope Z_scope.

(** The attribute tables of a text. *)
Record fmt_tables := {
  ft_color : table color; ft_stroke : table stroke; ft_strike : table bool; ft_under : table bool
}.

(** As built by [add] calls; boolean tables are the packed specialisation. *)
Definition views_of (f : fmt_tables) : fmt_views :=
  {| fv_color := vr_view (build (ft_color f)); fv_stroke := vr_view (build (ft_stroke f));
     fv_strike := br_view (build_bool (ft_strike f)); fv_under := br_view (build_bool (ft_under f)) |}.

(** A table for a text of [n] bytes. *)
Definition table_for {T} (n : Z) (t : table T) : Prop :=
  t <> [] /\ sorted t /\ final_limit t 0 = n /\ forall q, In q t -> 0 <= fst q < 2 ^ 31.
Definition tables_for (n : Z) (f : fmt_tables) : Prop :=
  table_for n (ft_color f) /\ table_for n (ft_stroke f) /\ table_for n (ft_strike f) /\ table_for n (ft_under f).

(** Line events seen as operations on one line: [true] = begin. *)
Inductive line_op := LBegin | LEnd.
(** The end comes first, as in [draw_text]. *)
Definition line_ops (begin end_ : bool) : list line_op :=
  (if end_ then [LEnd] else []) ++ (if begin then [LBegin] else []).

(** Replaying operations: [None] when a line ends that is not open, or begins
    while one is open. *)
Definition replay1 (open : option bool) (o : line_op) : option bool :=
  match open, o with
  | Some false, LBegin => Some true
  | Some true, LEnd => Some false
  | _, _ => None
  end.
Definition replay (open : bool) (os : list line_op) : option bool := fold_left replay1 os (Some open).

(** Replaying the events of a walk: the states after each step, if balanced. *)
Fixpoint replay_walk (open : bool) (steps : list (list line_op)) : option (list bool) :=
  match steps with
  | [] => Some []
  | os :: rest =>
      match replay open os with
      | Some open' =>
          match replay_walk open' rest with
          | Some states => Some (open' :: states)
          | None => None
          end
      | None => None
      end
  end.

Definition under_ops (e : fevent) := line_ops (ev_under_begin e) (ev_under_end e).
Definition strike_ops (e : fevent) := line_ops (ev_strike_begin e) (ev_strike_end e).

(** Two colours are equal in each channel. *)
Definition same_color (c d : color) : bool :=
  SFeqb (c_r c) (c_r d) && SFeqb (c_g c) (c_g d) && SFeqb (c_b c) (c_b d) && SFeqb (c_a c) (c_a d).
(** No line starts at a place where the colour changes: [prev] is the position
    before, [None] for the position given to the constructor (no line yet). *)
Fixpoint steady_starts (line : Z -> bool) (color_at : Z -> option color) (was : bool) (prev : Z) (targets : list Z) : Prop :=
  match targets with
  | [] => True
  | i :: rest =>
      (line i = true -> was = false ->
         exists a b, color_at prev = Some a /\ color_at i = Some b /\ same_color b a = true) /\
      steady_starts line color_at (line i) i rest
  end.
