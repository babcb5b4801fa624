(** What keeping FreeType's and HarfBuzz's objects properly means. *)
From Verif Require Import Base FtModel.
Open Scope list_scope.

Definition ft_kind_eq_dec (a b : ft_kind) : {a = b} + {a <> b}. Proof. decide equality. Defined.
Definition thing_eq_dec (a b : ft_kind * Z) : {a = b} + {a <> b}. Proof. decide equality; [apply Z.eq_dec|apply ft_kind_eq_dec]. Defined.
Fixpoint remove_one (x : ft_kind * Z) (l : list (ft_kind * Z)) : list (ft_kind * Z) :=
  match l with [] => [] | y :: l => if thing_eq_dec x y then l else y :: remove_one x l end.
(** What exists, as often as it was made or referenced and not released. *)
Fixpoint ft_exist_after (now : list (ft_kind * Z)) (tr : list ft_told) : list (ft_kind * Z) :=
  match tr with
  | [] => now
  | Made k n :: tr | Referenced k n :: tr => ft_exist_after ((k, n) :: now) tr
  | Used _ _ :: tr => ft_exist_after now tr
  | Released k n :: tr => ft_exist_after (remove_one (k, n) now) tr
  end.
Definition ft_existing (tr : list ft_told) : list (ft_kind * Z) := ft_exist_after [] tr.
(** Only what exists is used, referenced or released. *)
Definition ft_proper (tr : list ft_told) : Prop :=
  forall before e after, tr = before ++ e :: after ->
  match e with Made _ _ => True | Referenced k n | Used k n | Released k n => In (k, n) (ft_existing before) end.
(** The libraries' rule about new objects. *)
Definition ft_names_fresh (name : list ft_told -> ft_kind -> Z) : Prop :=
  forall tr k, name tr k <> 0%Z /\ ~ In (k, name tr k) (ft_existing tr).

Definition made (k : ft_kind) (tr : list ft_told) : list Z :=
  flat_map (fun e => match e with Made k' n => if ft_kind_eq_dec k k' then [n] else [] | _ => [] end) tr.
Definition is_kind (k : ft_kind) (x : ft_kind * Z) : bool := if ft_kind_eq_dec k (fst x) then true else false.
(** How many objects of a kind exist. *)
Definition how_many (k : ft_kind) (l : list (ft_kind * Z)) : nat := List.length (filter (is_kind k) l).

(** A step that names an answered font with a face. *)
Definition font_answered (w : ft_thread) (o : ft_op) : Prop :=
  match o with Get _ => True | Plain i | Picture i | Curve i => exists a, nth_error (th_answers w) i = Some (Some a) end.
