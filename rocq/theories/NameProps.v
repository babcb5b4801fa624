(** C85: finding objects by name. *)
From Verif Require Import Base BaseFacts TreeModel TreeSpec TreeProofs TreeProps NameModel NameSpec NameProofs.
Open Scope list_scope.

(** The search ends and finds the first child, in order, whose name is exactly the one asked
    for, or nothing if there is none; the children are the objects whose parent this is. *)
Theorem C85_find_partial : forall P (add : P -> P -> P) (name : nat -> string) h p wanted, reachable add h ->
  exists l n, visits h p l /\ (forall c, In c l <-> ob_parent (h c) = Some p) /\
  forall fuel, n <= fuel -> exists found, find_first_child name fuel h p wanted = Ok found /\
    match found with
    | Some c => name c = wanted /\ exists before after_, l = before ++ c :: after_ /\ forall b, In b before -> name b <> wanted
    | None => forall b, In b l -> name b <> wanted
    end.
Proof.
  intros P add name h p wanted R. destruct (C45_tree_partial _ _ _ R p) as (l & V & _ & _ & I). exists l, (List.length l). split; [exact V|]. split; [exact I|].
  intros fuel F. unfold find_first_child. rewrite (find_ok _ _ _ _ _ _ V) by exact F. eexists. split; [reflexivity|]. clear.
  induction l as [|x l IH]; [intros b []|]. cbn [find]. destruct (String.eqb_spec (name x) wanted) as [E|E].
  - split; [exact E|]. exists [], l. split; [reflexivity|intros b []].
  - destruct (find _ l) as [c|].
    + destruct IH as (N & b & a & -> & B). split; [exact N|]. exists (x :: b), a. split; [reflexivity|]. intros y [<-|Y]; [exact E|apply B, Y].
    + intros y [<-|Y]; [exact E|apply IH, Y].
Qed.
Print Assumptions C85_find_partial.

(** The full name is the names from the root down to the object with dots between them. *)
Theorem C85_full_name_partial : forall P (add : P -> P -> P) (name : nat -> string) h o, reachable add h ->
  exists l n, path h o l /\ forall fuel, n <= fuel -> get_full_name name fuel h o = Ok (joined "." (map name l)).
Proof.
  intros P add name h o R. destruct (rooted_path _ h o (reachable_rooted _ _ _ R o)) as (l & A). exists l, (List.length l). split; [exact A|]. intros fuel F. apply full_ok; assumption.
Qed.
Print Assumptions C85_full_name_partial.

(** If no name contains a dot and siblings have different names, the full name leads back
    to the object: from the root, each part names the next child. *)
Theorem C85_resolves_partial : forall P (add : P -> P -> P) (name : nat -> string) h o, reachable add h ->
  (forall x, no_dot (name x)) -> distinct name h ->
  exists n root, ob_parent (h root) = None /\ forall fuel, n <= fuel -> exists full, get_full_name name fuel h o = Ok full /\
    hd_error (split_at "."%char full) = Some (name root) /\
    descend name fuel h root (tl (split_at "."%char full)) = Ok (Some o).
Proof.
  intros P add name h o R N D. destruct (rooted_path _ h o (reachable_rooted _ _ _ R o)) as (l & A).
  destruct (descend_ok _ name h o l (C45_tree_partial _ _ _ R) D A) as (n & K). destruct (path_ends _ _ _ _ A) as (r & m & -> & Rt).
  exists (Nat.max n (List.length (r :: m))), r. split; [exact Rt|]. intros fuel F. eexists. split; [apply full_ok; [exact A|lia]|].
  rewrite split_joined; [|discriminate|apply Forall_forall; intros s I; apply in_map_iff in I; destruct I as (x & <- & _); apply N]. cbn [map tl hd_error]. split; [reflexivity|]. apply K. lia.
Qed.
Print Assumptions C85_resolves_partial.

(** The window with a bar, a menu in it, and an item in the menu. *)
Definition names_case (o : nat) : string := match o with 0 => "Window" | 1 => "TextBox" | 2 => "ToolBar" | 3 => "View" | _ => "UIObject" end%string.
Example C85_used : reachable Z.add (after hist) /\ (forall x, no_dot (names_case x)) /\ distinct names_case (after hist) /\
  get_full_name names_case 5 (after hist) 3 = Ok "Window.TextBox.View"%string /\
  find_first_child names_case 5 (after hist) 0 "ToolBar"%string = Ok (Some 2).
Proof.
  split; [apply C45_used|]. split; [intros [|[|[|[|x]]]]; unfold no_dot; cbn; intros H; repeat (destruct H as [H|H]; [discriminate H|]); exact H|]. split; [|split; reflexivity].
  intros [|[|[|[|a]]]] [|[|[|[|b]]]] p Ha Hb; vm_compute in Ha, Hb; try discriminate; try reflexivity; cbn; try discriminate; congruence.
Qed.

(** A child lost as in [C45_lost_refuted] is not found by its name. *)
Theorem C85_lost_refuted : let l := [OParent 1 (Some 0); OParent 2 (Some 0); OParent 2 None; OParent 3 (Some 0)] in let h := after l in
  calls Z.add 10 start l = Ok h /\ ob_parent (h 1) = Some 0 /\ find_first_child names_case 10 h 0 "TextBox"%string = Ok None.
Proof. cbv zeta. split; [apply after_ok; vm_compute; reflexivity|]. split; reflexivity. Qed.
Print Assumptions C85_lost_refuted.
