(** Model of [CursorController]. *)
From Verif Require Import Base PackingModel.
Open Scope Z_scope.

(** src/cursor_controller.cpp:10-13, 136-138 [is_line_break]. *)
Definition is_line_break (c : Z) : bool := (c =? 10) || (c =? 13) || (c =? 8232) || (c =? 8233).

(** [icu::BreakIterator::DONE]. *)
Definition DONE : Z := -1.

Section Controller.
(** The readable memory at [m_text.data()]. *)
Variable text : list Z.
(** [BreakIterator::following] and [preceding] of [m_iter]. *)
Variables (following preceding : Z -> Z).
(** ICU: what [U8_GET] decodes at an index of the text, and [u_isWhitespace]. *)
Variable decode : Z -> Z.
Variable white : Z -> bool.

(** [U8_GET] reads at least the byte at the index (its trail bytes are inside a
    well-formed text; the byte after the text is taken to be no lead byte, as the null
    byte after a [std::string] is not). *)
Definition u8_get (i : Z) : outcome Z := do _ <- zget text i; Ok (decode i).

(** src/cursor_controller.cpp:45-51 [next_character]. *)
Definition next_character (cursor : Z) : Z :=
  let next := following (cp_get_position cursor) in if next =? DONE then cursor else cp_make next.
(** src/cursor_controller.cpp:53-59 [prev_character]. *)
Definition prev_character (cursor : Z) : Z :=
  let next := preceding (cp_get_position cursor) in if next =? DONE then cursor else cp_make next.

(** src/cursor_controller.cpp:66-83: the loop of [next_word]. *)
Fixpoint next_word_loop (fuel : nat) (cursor : Z) (lastWhite : bool) : outcome Z :=
  let next := following (cp_get_position cursor) in
  if next =? DONE then Ok cursor
  else
    match fuel with
    | O => OutOfFuel
    | S fuel' =>
        do c <- u8_get next;
        if (negb (white c) && lastWhite) || is_line_break c then Ok (cp_make next)
        else next_word_loop fuel' (cp_make next) (white c)
    end.
(** src/cursor_controller.cpp:61-86 [next_word]. *)
Definition next_word (cursor : Z) : outcome Z :=
  do c <- u8_get (cp_get_position cursor);
  next_word_loop (length text) cursor (white c).

(** src/cursor_controller.cpp:92-113: the loop of [prev_word]. *)
Fixpoint prev_word_loop (fuel : nat) (cursor : Z) (lastWhite : bool) : outcome Z :=
  let next := preceding (cp_get_position cursor) in
  if next =? DONE then Ok cursor
  else
    match fuel with
    | O => OutOfFuel
    | S fuel' =>
        do c <- u8_get next;
        if white c && negb lastWhite then Ok cursor
        else if is_line_break c then Ok (cp_make next)
        else prev_word_loop fuel' (cp_make next) (white c)
    end.
(** src/cursor_controller.cpp:88-116 [prev_word]. *)
Definition prev_word (cursor : Z) : outcome Z := prev_word_loop (length text) cursor true.
End Controller.

(** ** Ownership of the break iterator *)

(** A controller: its iterator, [None] before the pointer is initialised, and its
    text.  src/cursor_controller.hpp:48-50. *)
Record controller := { cc_iter : option nat; cc_text : list Z }.
(** All controllers ([None] once destroyed), the text each iterator was given, and the
    iterators that were deleted. *)
Record cc_world := { cw_all : list (option controller); cw_texts : list (list Z); cw_deleted : list nat }.
Definition cw_empty : cc_world := {| cw_all := []; cw_texts := []; cw_deleted := [] |}.

Definition cc_get (w : cc_world) (i : nat) : outcome controller :=
  do c <- vget (cw_all w) i; match c with Some c => Ok c | None => UB end.
(** Reading the pointer: undefined while it is not initialised. *)
Definition cc_pointer (c : controller) : outcome nat := match cc_iter c with Some p => Ok p | None => UB end.
Definition cw_put (w : cc_world) (i : nat) (c : option controller) : cc_world :=
  {| cw_all := list_set (cw_all w) i c; cw_texts := cw_texts w; cw_deleted := cw_deleted w |}.

Inductive cc_op := CNew | CDestroy (i : nat) | CMoveAssign (to from : nat) | CMoveNew (from : nat) | CSetText (i : nat) (t : list Z).

(** src/cursor_controller.cpp:32-35 [operator=]. *)
Definition cc_move_assign (w : cc_world) (to from : nat) : outcome cc_world :=
  do a <- cc_get w to;
  do b <- cc_get w from;
  do p <- cc_pointer a;
  do q <- cc_pointer b;
  let w := cw_put w to (Some {| cc_iter := Some q; cc_text := cc_text a |}) in
  do b <- cc_get w from;
  Ok (cw_put w from (Some {| cc_iter := Some p; cc_text := cc_text b |})).

Definition cc_step (w : cc_world) (o : cc_op) : outcome cc_world :=
  match o with
  | CNew => (* src/cursor_controller.cpp:17-20 *)
      Ok {| cw_all := cw_all w ++ [Some {| cc_iter := Some (length (cw_texts w)); cc_text := [] |}];
            cw_texts := cw_texts w ++ [[]]; cw_deleted := cw_deleted w |}
  | CDestroy i => (* src/cursor_controller.cpp:22-26 *)
      do c <- cc_get w i; do p <- cc_pointer c;
      let w := cw_put w i None in
      Ok {| cw_all := cw_all w; cw_texts := cw_texts w; cw_deleted := cw_deleted w ++ [p] |}
  | CMoveAssign to from => cc_move_assign w to from
  | CMoveNew from => (* src/cursor_controller.cpp:28-30: [m_iter] has no initialiser *)
      let w' := {| cw_all := cw_all w ++ [Some {| cc_iter := None; cc_text := [] |}]; cw_texts := cw_texts w; cw_deleted := cw_deleted w |} in
      cc_move_assign w' (length (cw_all w)) from
  | CSetText i t => (* src/cursor_controller.cpp:37-43 *)
      do c <- cc_get w i; do p <- cc_pointer c;
      let w := cw_put w i (Some {| cc_iter := cc_iter c; cc_text := t |}) in
      Ok {| cw_all := cw_all w; cw_texts := list_set (cw_texts w) p t; cw_deleted := cw_deleted w |}
  end.
Fixpoint cc_steps (w : cc_world) (os : list cc_op) : outcome cc_world :=
  match os with [] => Ok w | o :: os' => do w <- cc_step w o; cc_steps w os' end.
