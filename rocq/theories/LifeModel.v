(** Model of how long [UIObject]s live: shared and weak pointers.

    An object whose last shared pointer goes is destroyed at once, and the pointers in it go
    with it.  The order in which several objects that go together are destroyed is left out:
    their destructors have no effect of their own.  Positions, sizes and names are left out
    (see [TreeModel], [NameModel]).  [ToolBarMenu::m_tray], a further shared pointer from a menu
    to its first child, is left out. *)
From Verif Require Import Base.

(** sample/ui_object.hpp:90-94: two shared pointers and three weak ones.  Objects are numbers. *)
Record node := { n_parent : option nat; n_first : option nat; n_next : option nat; n_prev : option nat; n_last : option nat }.
Definition set_par (n : node) v := {| n_parent := v; n_first := n_first n; n_next := n_next n; n_prev := n_prev n; n_last := n_last n |}.
Definition set_first (n : node) v := {| n_parent := n_parent n; n_first := v; n_next := n_next n; n_prev := n_prev n; n_last := n_last n |}.
Definition set_next (n : node) v := {| n_parent := n_parent n; n_first := n_first n; n_next := v; n_prev := n_prev n; n_last := n_last n |}.
Definition set_prev (n : node) v := {| n_parent := n_parent n; n_first := n_first n; n_next := n_next n; n_prev := v; n_last := n_last n |}.
Definition set_last (n : node) v := {| n_parent := n_parent n; n_first := n_first n; n_next := n_next n; n_prev := n_prev n; n_last := v |}.
(** A new object: sample/ui_object.hpp:90-94. *)
Definition fresh : node := {| n_parent := None; n_first := None; n_next := None; n_prev := None; n_last := None |}.

(** All objects ever made, [None] for those destroyed, and the shared pointers that the program
    and the running functions hold. *)
Record mem := { objs : list (option node); held : list nat }.
Definition nothing : mem := {| objs := []; held := [] |}.
Definition look (m : mem) (o : nat) : option node := match nth_error (objs m) o with Some (Some n) => Some n | _ => None end.

Definition same (a b : option nat) : bool :=
  match a, b with Some x, Some y => Nat.eqb x y | None, None => true | _, _ => false end.
(** [use_count] of an object: the shared pointers to it. *)
Definition points (o : nat) (n : option node) : nat :=
  match n with
  | None => 0
  | Some n => (if same (n_first n) (Some o) then 1 else 0) + (if same (n_next n) (Some o) then 1 else 0)
  end.
Definition uses (m : mem) (o : nat) : nat := count_occ Nat.eq_dec (held m) o + list_sum (map (points o) (objs m)).
Definition unused (m : mem) (o : nat) : bool := match look m o with Some _ => uses m o =? 0 | None => false end.
(** Destroying what is not used any more, with all that this leaves unused. *)
Definition store (m : mem) (o : nat) (n : option node) : mem := {| objs := list_set (objs m) o n; held := held m |}.
Fixpoint collect (rounds : nat) (m : mem) : mem :=
  match rounds with
  | O => m
  | S rounds => match find (unused m) (seq 0 (length (objs m))) with Some o => collect rounds (store m o None) | None => m end
  end.
Definition settle (m : mem) : mem := collect (length (objs m)) m.

(** Using an object that is gone is undefined. *)
Definition read (m : mem) (o : nat) : outcome node := match look m o with Some n => Ok n | None => UB end.
Definition edit (m : mem) (o : nat) (f : node -> node) : outcome mem := do n <- read m o; Ok (settle (store m o (Some (f n)))).
(** [weak_ptr::lock]. *)
Definition lock (m : mem) (w : option nat) : option nat :=
  match w with Some o => match look m o with Some _ => Some o | None => None end | None => None end.
(** A shared pointer is made, or goes. *)
Definition keep (m : mem) (o : nat) : mem := {| objs := objs m; held := o :: held m |}.
Fixpoint without (l : list nat) (o : nat) : list nat :=
  match l with [] => [] | x :: l => if Nat.eqb x o then l else x :: without l o end.
Definition release (m : mem) (o : nat) : mem := settle {| objs := objs m; held := without (held m) o |}.

(** sample/ui_object.cpp:47-58: leaving the old parent.  ([lastChild], 55, is held while a
    weak pointer is written; this makes no difference.) *)
Definition unlink (m : mem) (c : nat) (old : option nat) : outcome mem :=
  match old with
  | None => Ok m
  | Some o =>
      do p <- read m o;
      do m <-
        (do me <- read m c;
         if same (n_first p) (Some c) then edit m o (fun n => set_first n (n_next me))
         else match lock m (n_prev me) with
              | Some q => do m <- edit (keep m q) q (fun n => set_next n (n_next me)); Ok (release m q)
              | None => Ok m
              end);
      do p <- read m o;
      if same (lock m (n_last p)) (Some c) then do me <- read m c; edit m o (fun n => set_last n (n_next me)) else Ok m
  end.
(** sample/ui_object.cpp:61-72: joining the new one; [shared_from_this] uses the object. *)
Definition link (m : mem) (c : nat) (new : option nat) : outcome mem :=
  match new with
  | None => Ok m
  | Some n =>
      do p <- read m n;
      do m <- edit m c (fun me => set_prev me (n_last p));
      do _ <- read m c;
      do m <-
        match lock m (n_last p) with
        | Some l => do m <- edit (keep m l) l (fun n => set_next n (Some c)); Ok (release m l)
        | None => edit m n (fun n => set_first n (Some c))
        end;
      edit m n (fun n => set_last n (Some c))
  end.
(** sample/ui_object.cpp:37-75 [set_parent]; [recalc_absolute_dimensions] at the end uses the
    object. *)
Definition set_parent (m : mem) (c : nat) (new : option nat) : outcome mem :=
  do me <- read m c;
  let old := lock m (n_parent me) in
  if same new old || same new (Some c) then Ok m
  else
    do _ <- (match new with Some n => read m n | None => Ok me end);
    let m := match old with Some o => keep m o | None => m end in
    do m <- edit m c (fun me => set_par me new);
    do m <- unlink m c old;
    do m <- link m c new;
    do _ <- read m c;
    Ok (match old with Some o => release m o | None => m end).

(** What a program does: [ui_object.hpp]'s [create] functions, a further shared pointer to an
    object ([shared_from_this]), one that goes, [set_parent]. *)
Inductive op := New | Hold (o : nat) | Drop (o : nat) | Put (c : nat) (new : option nat).
Definition step (m : mem) (x : op) : outcome mem :=
  match x with
  | New => Ok {| objs := objs m ++ [Some fresh]; held := length (objs m) :: held m |}
  | Hold o => do _ <- read m o; Ok (keep m o)
  | Drop o => Ok (release m o)
  | Put c new => set_parent m c new
  end.
Fixpoint run (m : mem) (xs : list op) : outcome mem :=
  match xs with [] => Ok m | x :: xs => do m <- step m x; run m xs end.
