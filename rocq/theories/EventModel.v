(** Model of how the sample program draws its objects and hands events to them.

    Simplifications: the links between objects are those of TreeModel.v; handlers do not
    change them, and a handler that does not take an event changes nobody's visibility. *)
From Verif Require Import Base TreeModel.

Section Events.
Variable P : Type.
Variable h : heap P.
(** sample/ui_object.hpp:98 [m_visible]. *)
Variable visible : nat -> bool.

Section Walk.
(** What is done to an object, and whether it answers [IterationDecision::BREAK]. *)
Variable S : Type.
Variable f : S -> nat -> outcome (S * bool).
(** sample/ui_object.hpp:107-118 [for_each_child] inside 142-151 [for_each_descendant]: from the
    child [cur] on. *)
Fixpoint walk (fuel : nat) (cur : option nat) (s : S) : outcome (S * bool) :=
  match cur with
  | None => Ok (s, false)
  | Some c =>
      match fuel with
      | O => OutOfFuel
      | Datatypes.S fuel =>
          do (s, stop) <- f s c;
          if stop : bool then Ok (s, true)
          else
            do (s, stop) <- walk fuel (ob_first (h c)) s;
            if stop : bool then Ok (s, true) else walk fuel (ob_next (h c)) s
      end
  end.
(** sample/ui_object.hpp:126-139 [for_each_child_reverse] inside 153-162
    [for_each_descendant_bottom_up]. *)
Fixpoint walk_up (fuel : nat) (cur : option nat) (s : S) : outcome (S * bool) :=
  match cur with
  | None => Ok (s, false)
  | Some c =>
      match fuel with
      | O => OutOfFuel
      | Datatypes.S fuel =>
          do (s, stop) <- walk_up fuel (ob_last (h c)) s;
          if stop : bool then Ok (s, true)
          else
            do (s, stop) <- f s c;
            if stop : bool then Ok (s, true) else walk_up fuel (ob_prev (h c)) s
      end
  end.
End Walk.

(** sample/ui_object.cpp:191-202 [render_internal] with 107-118: the objects of which [render] is
    called, in order, from the child [cur] on. *)
Fixpoint render_from (fuel : nat) (cur : option nat) : outcome (list nat) :=
  match cur with
  | None => Ok []
  | Some c =>
      match fuel with
      | O => OutOfFuel
      | S fuel =>
          do l <- (if visible c then do l <- render_from fuel (ob_first (h c)); Ok (c :: l) else Ok []);
          do l' <- render_from fuel (ob_next (h c));
          Ok (l ++ l')
      end
  end.
(** sample/ui_container.cpp:240-249 [render]; [r] is the container. *)
Definition render (fuel r : nat) : outcome (list nat) := render_from fuel (ob_first (h r)).

(** sample/ui_object.hpp:163-176 [for_each_ancestor] and sample/ui_object.cpp:136-153
    [is_visible_from_ancestors]. *)
Fixpoint ancestors_visible (fuel : nat) (cur : option nat) : outcome bool :=
  match cur with
  | None => Ok true
  | Some p => match fuel with O => OutOfFuel | S fuel => if visible p then ancestors_visible fuel (ob_parent (h p)) else Ok false end
  end.
Definition visible_from_ancestors (fuel c : nat) : outcome bool := if visible c then ancestors_visible fuel (ob_parent (h c)) else Ok false.

(** sample/ui_container.cpp:251-278 [handle_mouse_button] for a press of the first button: the
    objects whose handler is called, in order, and the one that takes the press ([answers]) and
    gets the focus. *)
Definition press (answers : nat -> bool) (fuel r : nat) : outcome (list nat * option nat) :=
  do (s, _) <- walk_up (list nat * option nat) (fun s c =>
      do v <- visible_from_ancestors fuel c;
      if v : bool then Ok ((fst s ++ [c], if answers c then Some c else snd s), answers c) else Ok (s, false))
    fuel (ob_last (h r)) ([], None);
  Ok s.

(** sample/ui_container.cpp:280-291 [handle_key_press]: the object that takes the key.  [inside]:
    the mouse is inside the object. *)
Definition key_press (inside answers : nat -> bool) (fuel r : nat) : outcome (option nat) :=
  do (s, _) <- walk_up (option nat) (fun s c => if inside c then Ok (if answers c then Some c else s, answers c) else Ok (s, false)) fuel (ob_last (h r)) None;
  Ok s.

(** sample/ui_container.cpp:322-329 [handle_text_input]. *)
Definition text_input (answers : nat -> bool) (fuel r : nat) : outcome (option nat) :=
  do (s, _) <- walk (option nat) (fun s c => Ok (if answers c then Some c else s, answers c)) fuel (ob_first (h r)) None;
  Ok s.

(** What the container tells an object about the mouse. *)
Inductive notice := Enter (c : nat) | Leave (c : nat).
(** sample/ui_container.cpp:293-320 [handle_mouse_move]: [m_hoveredObject] (whose object is taken to
    exist still) and what is told.  No object of the program takes the event ([handle_mouse_move]
    answers false: sample/text_box.cpp:159, sample/tool_bar.cpp:54, sample/tool_bar_menu_item.cpp:30,
    sample/ui_object.cpp:22). *)
Definition mouse_move (inside : nat -> bool) (fuel r : nat) (hovered : option nat) : outcome (option nat * list notice) :=
  do (s, _) <- walk (option nat) (fun s c => Ok (if inside c then Some c else s, false)) fuel (ob_first (h r)) None;
  let gone := match hovered with Some o => if same s (Some o) then [] else [Leave o] | None => [] end in
  match s with
  | Some c => Ok (Some c, gone ++ [Enter c])
  | None => Ok (hovered, gone)
  end.
Fixpoint mouse_moves (insides : list (nat -> bool)) (fuel r : nat) (hovered : option nat) : outcome (list notice) :=
  match insides with
  | [] => Ok []
  | i :: is => do (hovered, n) <- mouse_move i fuel r hovered; do ns <- mouse_moves is fuel r hovered; Ok (n ++ ns)
  end.
End Events.
Arguments walk {P}. Arguments walk_up {P}. Arguments render_from {P}. Arguments render {P}. Arguments ancestors_visible {P}. Arguments visible_from_ancestors {P}.
Arguments press {P}. Arguments key_press {P}. Arguments text_input {P}. Arguments mouse_move {P}. Arguments mouse_moves {P}.

(** sample/text_box.cpp:64-152, sample/ui_object.cpp:17-19: a text box takes keys while it has the
    focus (here: a key that is pressed or repeated), other objects never do. *)
Definition takes_keys (is_box focused : nat -> bool) (c : nat) : bool := is_box c && focused c.
(** sample/text_box.cpp:162-169, sample/ui_object.cpp:25-27. *)
Definition takes_text (is_box focused editable : nat -> bool) (c : nat) : bool := is_box c && focused c && editable c.
