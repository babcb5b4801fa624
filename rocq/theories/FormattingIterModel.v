(** Model of [FormattingIterator]. *)
From Verif Require Import Base ValueRunsModel FloatModel ColorModel FormattingModel.
Open Scope Z_scope.

(** src/color.hpp:73-79 [operator==], [operator!=] (a NaN differs from itself). *)
Definition color_eqb (c d : color) : bool :=
  SFeqb (c_r c) (c_r d) && SFeqb (c_g c) (c_g d) && SFeqb (c_b c) (c_b d) && SFeqb (c_a c) (c_a d).

(** The tables of [FormattingRuns] that the iterator reads. *)
Record fmt_views := {
  fv_color : runs_view color;
  fv_stroke : runs_view stroke;
  fv_strike : runs_view bool;
  fv_under : runs_view bool
}.

(** src/formatting_iterator.hpp:33-40.  [fi_prev] is [None] while [m_prevColor]
    is uninitialised. *)
Record fiter := {
  fi_color_run : nat; fi_stroke_run : nat; fi_strike_run : nat; fi_under_run : nat;
  fi_color : color; fi_prev : option color; fi_strike : bool; fi_under : bool
}.

(** src/formatting_iterator.cpp:9-17: the constructor. *)
Definition fi_make (v : fmt_views) (charIndex : Z) : outcome fiter :=
  do c <- get_run_containing_index (fv_color v) charIndex;
  do k <- get_run_containing_index (fv_stroke v) charIndex;
  do s <- get_run_containing_index (fv_strike v) charIndex;
  do u <- get_run_containing_index (fv_under v) charIndex;
  do col <- rv_value (fv_color v) c;
  Ok {| fi_color_run := c; fi_stroke_run := k; fi_strike_run := s; fi_under_run := u;
        fi_color := col; fi_prev := None; fi_strike := false; fi_under := false |}.

(** src/formatting_iterator.cpp:69-72: the forward loop of [advance_run]. *)
Fixpoint run_forward {T} (fuel : nat) (rv : runs_view T) (i : nat) (charIndex : Z) : outcome nat :=
  if (i + 1 <? rv_count rv)%nat then
    match fuel with
    | O => OutOfFuel
    | S fuel' =>
        do l <- rv_limit rv i;
        if l <=? charIndex then run_forward fuel' rv (i + 1)%nat charIndex else Ok i
    end
  else Ok i.

(** src/formatting_iterator.cpp:74-76: the backward loop. *)
Fixpoint run_backward {T} (rv : runs_view T) (i : nat) (charIndex : Z) : outcome nat :=
  match i with
  | O => Ok O
  | S i' =>
      do l <- rv_limit rv i';
      if charIndex <? l then run_backward rv i' charIndex else Ok i
  end.

(** src/formatting_iterator.cpp:68-79 [advance_run]. *)
Definition advance_run {T} (rv : runs_view T) (i : nat) (charIndex : Z) : outcome nat :=
  do j <- run_forward (rv_count rv) rv i charIndex;
  run_backward rv j charIndex.

(** src/formatting_iterator.hpp:10-16 [FormattingEvent]: one boolean per bit. *)
Record fevent := { ev_strike_begin : bool; ev_strike_end : bool; ev_under_begin : bool; ev_under_end : bool }.

(** src/formatting_iterator.cpp:19-46 [advance_to]. *)
Definition fi_advance_to (v : fmt_views) (it : fiter) (charIndex : Z) : outcome (fevent * fiter) :=
  do k <- advance_run (fv_stroke v) (fi_stroke_run it) charIndex;
  do c <- advance_run (fv_color v) (fi_color_run it) charIndex;
  do s <- advance_run (fv_strike v) (fi_strike_run it) charIndex;
  do u <- advance_run (fv_under v) (fi_under_run it) charIndex;
  do color <- rv_value (fv_color v) c;
  do strike <- rv_value (fv_strike v) s;
  do under <- rv_value (fv_under v) u;
  let changed := negb (color_eqb color (fi_color it)) in
  Ok ({| ev_strike_begin := strike && (negb (fi_strike it) || changed);
         ev_strike_end := (negb strike && fi_strike it) || (strike && changed);
         ev_under_begin := under && (negb (fi_under it) || changed);
         ev_under_end := (negb under && fi_under it) || (under && changed) |},
      {| fi_color_run := c; fi_stroke_run := k; fi_strike_run := s; fi_under_run := u;
         fi_color := color; fi_prev := Some (fi_color it); fi_strike := strike; fi_under := under |}).

(** src/formatting_iterator.cpp:56-58 [get_stroke_state]. *)
Definition fi_stroke (v : fmt_views) (it : fiter) : outcome stroke := rv_value (fv_stroke v) (fi_stroke_run it).

(** A sequence of [advance_to] calls: the events and the final iterator. *)
Fixpoint fi_walk (v : fmt_views) (it : fiter) (targets : list Z) : outcome (list fevent * fiter) :=
  match targets with
  | [] => Ok ([], it)
  | i :: rest =>
      do (e, it) <- fi_advance_to v it i;
      do (es, it) <- fi_walk v it rest;
      Ok (e :: es, it)
  end.
