(** What the window of the sample program is meant to do: who takes a mouse button, what
    the menu items switch, and when the text box selects with the mouse. *)
From Coq Require Import Qround.
From Verif Require Import Base UiModel UiSpec WindowModel.
Open Scope nat_scope.
Open Scope list_scope.

(** Where the menus begin. *)
Fixpoint lefts (at_ : Q) (names : list nat) : list Q :=
  match names with [] => [] | n :: names => at_ :: lefts (at_ + 10 * inject_Z (Z.of_nat n))%Q names end.
Definition left_of (names : list nat) (i : nat) : Q := nth i (lefts 0 names) 0%Q.

(** Items are rows of 166 by 22 pixels under each other, from 3 pixels right of the menu's left
    end and 23 pixels below the top of the window.  A point on the line between two rows
    belongs to the lower one. *)
Definition item_at (left_ : Q) (n : nat) (x y : Q) : option nat :=
  if (0 <? n) && Qle_bool (left_ + 3) x && Qle_bool x (left_ + 169) && Qle_bool 23 y && Qle_bool y (23 + 22 * inject_Z (Z.of_nat n))
  then Some (Nat.min (Z.to_nat (Qfloor ((y - 23) / 22))) (n - 1)) else None.

Definition in_rect (r : Q * Q * Q * Q) (x y : Q) : bool :=
  let '(l, t, w, h) := r in Qle_bool l x && Qle_bool x (l + w) && Qle_bool t y && Qle_bool y (t + h).

(** Who is at a point, [now] being the open menu: an item of the open menu, else a
    menu (which minds only the first button), else nobody of the bar. *)
Definition over (menus : list (nat * nat)) (now : option nat) (b : button) (x y : Q) : option target :=
  match match now with Some i => option_map (OnItem i) (item_at (left_of (map fst menus) i) (nth i (map snd menus) 0) x y) | None => None end with
  | Some t => Some t
  | None => match b with First => option_map OnMenu (menu_at 0 (map fst menus) x y) | Other => None end
  end.
(** The box gets the presses of the first button inside it that the bar leaves. *)
Definition press_goes (menus : list (nat * nat)) (box : Q * Q * Q * Q) (now : option nat) (b : button) (x y : Q) : target :=
  match over menus now b x y, b with
  | Some t, _ => t
  | None, First => if in_rect box x y then OnBox else OnNothing
  | None, Other => OnNothing
  end.
Definition release_goes (menus : list (nat * nat)) (now : option nat) (b : button) (x y : Q) : target :=
  match over menus now b x y with Some t => t | None => OnNothing end.

(** Which menu is open is C66's subject: [menu_open]. *)
Definition bar_event (e : wmouse) : list mouse :=
  match e with WMove x y => [Moved x y] | WPress First => [Pressed] | _ => [] end.
Definition bar_events (es : list wmouse) : list mouse := flat_map bar_event es.

Fixpoint goes (menus : list (nat * nat)) (box : Q * Q * Q * Q) (now : option nat) (x y : Q) (es : list wmouse) : list (wmouse * target) :=
  match es with
  | [] => []
  | e :: es =>
      let now' := menu_open (map fst menus) now x y (bar_event e) in
      match e with
      | WMove x' y' => goes menus box now' x' y' es
      | WPress b => (e, press_goes menus box now b x y) :: goes menus box now' x y es
      | WRelease b => (e, release_goes menus now b x y) :: goes menus box now' x y es
      | WAway => (e, OnNothing) :: goes menus box now' x y es
      end
  end.

(** How often an item was pressed. *)
Definition pressed (i j : nat) (log : list (wmouse * target)) : nat :=
  List.length (filter (fun '(e, t) => match e, t with
                                 | WPress First, OnItem i' j' => (i' =? i) && (j' =? j)
                                 | _, _ => false
                                 end) log).

(** The text box selects with the mouse from a press in it until the button is released,
    something else is pressed, or the window loses the focus. *)
Definition holds (h : bool) (et : wmouse * target) : bool :=
  match et with
  | (WPress First, OnBox) => true
  | (WPress First, _) | (WRelease First, _) | (WAway, _) => false
  | _ => h
  end.
Definition held (log : list (wmouse * target)) : bool := fold_left holds log false.

(** A child of the window by its name. *)
Definition named (name : string) (l : layout) : option rect :=
  option_map snd (find (fun c => (fst c =? name)%string) (la_children l)).
