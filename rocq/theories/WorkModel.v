(** Model of the memory a layout builder works with: what it makes, uses and releases.

    Everything is written down in order; an object is named by the place of its making in the record. What other
    libraries do inside is not modelled, except that [utext_openUTF8] keeps a block of memory until [utext_close] (ICU's
    documentation: "Be sure to call utext_close"). Using a null pointer is undefined. Reading a number that was never written is undefined in C++
    too; here it is written down as [Unwritten], so that one can tell what follows from the rest. *)
From Verif Require Import Base.
Open Scope list_scope.

Inductive work_kind := LineIterator | Buffer | Algorithm | Paragraph | Line | TextBlock.
Inductive work_event := Got (k : work_kind) (n : nat) | Used (k : work_kind) (n : nat) | Gave (k : work_kind) (n : nat) | Unwritten.
Definition get (tr : list work_event) (k : work_kind) : list work_event * nat := (tr ++ [Got k (length tr)], length tr).
Definition use (tr : list work_event) (k : work_kind) (n : nat) : list work_event := tr ++ [Used k n].
Definition give (tr : list work_event) (k : work_kind) (n : nat) : list work_event := tr ++ [Gave k n].

(** src/layout_builder.hpp:60-69: the two pointers, and whether [m_cursor] was written. The vectors hold themselves. *)
Record builder := { bu_iter : option nat; bu_buffer : option nat; bu_cursor : bool }.
(** What decides about the work on a paragraph: the runs with a font of their own (src/layout_builder.cpp:263-281), and the lines. An empty
    paragraph has no text before its separator. *)
Record work_paragraph := { wp_empty : bool; wp_runs : nat; wp_lines : nat }.

(** src/layout_builder.cpp:100-105 [LayoutBuilder::LayoutBuilder]. *)
Definition new_builder (tr : list work_event) : list work_event * builder :=
  let '(tr, b) := get tr Buffer in
  let '(tr, i) := get tr LineIterator in
  (use tr Buffer b, {| bu_iter := Some i; bu_buffer := Some b; bu_cursor := false |}).
(** src/layout_builder.cpp:107-115 [LayoutBuilder::~LayoutBuilder]. *)
Definition end_builder (tr : list work_event) (b : builder) : list work_event :=
  let tr := match bu_iter b with Some i => give tr LineIterator i | None => tr end in
  match bu_buffer b with Some n => give tr Buffer n | None => tr end.
(** src/layout_builder.cpp:121-132 [operator=]: the builder assigned to and the other one. [std::swap] of [m_cursor] reads both. *)
Definition assign_builder (tr : list work_event) (a b : builder) : list work_event * builder * builder :=
  (if bu_cursor a && bu_cursor b then tr else tr ++ [Unwritten],
   {| bu_iter := bu_iter b; bu_buffer := bu_buffer b; bu_cursor := bu_cursor b |},
   {| bu_iter := bu_iter a; bu_buffer := bu_buffer a; bu_cursor := bu_cursor a |}).
(** src/layout_builder.cpp:117-119: the move constructor; the pointers have initialisers, [m_cursor] has none. *)
Definition move_builder (tr : list work_event) (b : builder) : list work_event * builder * builder :=
  assign_builder tr {| bu_iter := None; bu_buffer := None; bu_cursor := false |} b.

(** src/layout_builder.cpp:263-281 with src/font_registry.cpp:389-395 [get_sub_font], which opens the text and does not close it, and :376-490 [shape_logical_run]. *)
Fixpoint work_runs (tr : list work_event) (buffer : nat) (n : nat) : list work_event :=
  match n with O => tr | S n => let '(tr, _) := get tr TextBlock in work_runs (use tr Buffer buffer) buffer n end.
(** src/layout_builder.cpp:492-575 [compute_line_visual_runs]. *)
Definition work_line (tr : list work_event) (paragraph : nat) : list work_event :=
  let tr := use tr Paragraph paragraph in
  let '(tr, l) := get tr Line in
  give (use tr Line l) Line l.
(** src/layout_builder.cpp:311-371: the lines of a broken paragraph; [find_previous_line_break] asks the iterator. *)
Fixpoint work_lines (tr : list work_event) (iter paragraph n : nat) : list work_event :=
  match n with O => tr | S n => work_lines (work_line (use tr LineIterator iter) paragraph) iter paragraph n end.
(** src/layout_builder.cpp:243-374 [build_paragraph]. *)
Definition work_build (tr : list work_event) (b : builder) (paragraph : nat) (breaking : bool) (p : work_paragraph) : outcome (list work_event) :=
  do buffer <- (match bu_buffer b with Some n => Ok n | None => UB end);
  let tr := use tr Paragraph paragraph in
  let tr := work_runs tr buffer (wp_runs p) in
  if breaking then
    do iter <- (match bu_iter b with Some n => Ok n | None => UB end);
    let '(tr, _) := get tr TextBlock in
    Ok (work_lines (use tr LineIterator iter) iter paragraph (wp_lines p))
  else Ok (work_line tr paragraph).
(** src/layout_builder.cpp:193-234: the loop over the paragraphs; [reset] writes [m_cursor]. *)
Fixpoint work_paragraphs (tr : list work_event) (b : builder) (algorithm : nat) (breaking : bool) (ps : list work_paragraph) : outcome (list work_event * builder) :=
  match ps with
  | [] => Ok (tr, b)
  | p :: ps =>
      let tr := use tr Algorithm algorithm in
      if wp_empty p then work_paragraphs tr b algorithm breaking ps
      else
        let '(tr, paragraph) := get (use tr Algorithm algorithm) Paragraph in
        do tr <- work_build tr b paragraph breaking p;
        work_paragraphs (give tr Paragraph paragraph) {| bu_iter := bu_iter b; bu_buffer := bu_buffer b; bu_cursor := true |} algorithm breaking ps
  end.
(** src/layout_builder.cpp:159-241 [build_layout_info]; [breaking] says that the text area has a width. *)
Definition work_layout (tr : list work_event) (b : builder) (breaking : bool) (ps : list work_paragraph) : outcome (list work_event * builder) :=
  let '(tr, a) := get tr Algorithm in
  do (tr, b) <- work_paragraphs tr b a breaking ps;
  Ok (give tr Algorithm a, b).

(** A program with builders in numbered places; one that ended leaves its place empty. *)
Record work_world := { ww_record : list work_event; ww_builders : list (option builder) }.
Inductive work_op :=
  | NewBuilder | EndBuilder (i : nat) | MoveBuilder (i : nat) | AssignBuilder (i j : nat) | Layout (i : nat) (breaking : bool) (ps : list work_paragraph).
Definition at_place (w : work_world) (i : nat) : outcome builder := do b <- vget (ww_builders w) i; match b with Some b => Ok b | None => UB end.
Definition work_step (w : work_world) (o : work_op) : outcome work_world :=
  match o with
  | NewBuilder => let '(tr, b) := new_builder (ww_record w) in Ok {| ww_record := tr; ww_builders := ww_builders w ++ [Some b] |}
  | EndBuilder i => do b <- at_place w i; Ok {| ww_record := end_builder (ww_record w) b; ww_builders := list_set (ww_builders w) i None |}
  | MoveBuilder i =>
      do b <- at_place w i;
      let '(tr, new, old) := move_builder (ww_record w) b in
      Ok {| ww_record := tr; ww_builders := list_set (ww_builders w) i (Some old) ++ [Some new] |}
  | AssignBuilder i j =>
      do a <- at_place w i; do b <- at_place w j;
      let '(tr, a', b') := assign_builder (ww_record w) a b in
      Ok {| ww_record := tr; ww_builders := if Nat.eqb i j then ww_builders w else list_set (list_set (ww_builders w) i (Some a')) j (Some b') |}
  | Layout i breaking ps =>
      do b <- at_place w i; do (tr, b) <- work_layout (ww_record w) b breaking ps;
      Ok {| ww_record := tr; ww_builders := list_set (ww_builders w) i (Some b) |}
  end.
Fixpoint work_steps (w : work_world) (os : list work_op) : outcome work_world := match os with [] => Ok w | o :: os => do w <- work_step w o; work_steps w os end.
Definition work_start : work_world := {| ww_record := []; ww_builders := [] |}.
