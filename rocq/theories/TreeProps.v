(** The tree of UI objects: C45 and C61. *)
From Verif Require Import Base BaseFacts TreeModel TreeSpec TreeProofs.
Local Open Scope Z_scope.

(** C45: after any history of allowed calls each object occurs exactly once in its
    parent's list, forwards and backwards, and in no other list. *)
Theorem C45_tree_partial : forall P (add : P -> P -> P) h, reachable add h -> tree_ok h.
Proof. intros P add h R. eapply good_tree, reachable_good, R. Qed.
Print Assumptions C45_tree_partial.

(** C45: a call takes the object from its old parent's list, puts it at the end of the
    new parent's list, and changes no other list and no other parent. *)
Theorem C45_children_partial : forall P (add : P -> P -> P) h c new fuel h', reachable add h -> allowed h (OParent c new) -> set_parent add fuel h c new = Ok h' ->
  (forall p l, visits h p l -> visits h' p (children_after h (OParent c new) p l)) /\
  (new <> Some c -> ob_parent (h' c) = new) /\ (forall x, x <> c -> ob_parent (h' x) = ob_parent (h x)).
Proof.
  intros P add h c new fuel h' R A E. destruct (call_same P add fuel h (OParent c new) h' (reachable_good _ _ _ R) A E) as (_ & V & _ & PA). split; [exact V|]. split.
  - intros N. rewrite PA, Nat.eqb_refl. apply same_neq in N. rewrite N. reflexivity.
  - intros x N. rewrite PA. apply Nat.eqb_neq in N. rewrite N. reflexivity.
Qed.
Print Assumptions C45_children_partial.

(** C45: the calls end. *)
Theorem C45_ends_partial : forall P (add : P -> P -> P) h o, reachable add h -> allowed h o -> exists f h', forall f', (f <= f')%nat -> call add f' h o = Ok h'.
Proof. intros P add h o R A. destruct (call_good P add h o (reachable_good _ _ _ R) A) as (f & h' & E & _). exists f, h'. exact E. Qed.
Print Assumptions C45_ends_partial.

(** C61: after any history of allowed calls each object is at its parent's place plus its
    own position, and only [set_position] changes a position. *)
Theorem C61_placed_partial : forall P (add : P -> P -> P) h, reachable add h -> placed add h.
Proof. intros P add h R. apply go_placed, reachable_good, R. Qed.
Print Assumptions C61_placed_partial.
Theorem C61_position_partial : forall P (add : P -> P -> P) h o fuel h', reachable add h -> allowed h o -> call add fuel h o = Ok h' ->
  forall x, ob_pos (h' x) = match o with OPosition c p => if Nat.eqb x c then p else ob_pos (h x) | OParent _ _ => ob_pos (h x) end.
Proof. intros P add h o fuel h' R A E. apply (call_same P add fuel h o h' (reachable_good _ _ _ R) A E). Qed.
Print Assumptions C61_position_partial.

(** ** Non-vacuity: 1 and 2 below 0, 3 below 2, then 3 moves to 1 and 0 to another place *)
Definition start : heap Z := fun x => fresh (Z.of_nat x).
Definition hist : list (op Z) := [OParent 1 (Some 0); OParent 2 (Some 0); OParent 3 (Some 2); OParent 3 (Some 1); OPosition 0 100%Z]%nat.
Definition after (l : list (op Z)) : heap Z := match calls Z.add 10 start l with Ok h => h | _ => start end.
Fixpoint walk (link : nat -> option nat) (a : option nat) (l : list nat) : bool :=
  match a, l with None, [] => true | Some x, y :: l => Nat.eqb x y && walk link (link y) l | _, _ => false end.
Lemma walk_along link : forall l a, walk link a l = true -> along link a l.
Proof.
  induction l as [|y l IH]; intros [x|] W; cbn in W; try discriminate; [constructor|]. apply andb_prop in W as [W1 W2]. apply Nat.eqb_eq in W1. subst. constructor. auto.
Qed.
Lemma after_ok l : (match calls Z.add 10 start l with Ok _ => true | _ => false end) = true -> calls Z.add 10 start l = Ok (after l).
Proof. unfold after. destruct (calls Z.add 10 start l); [reflexivity|discriminate|discriminate]. Qed.
Lemma no_below {P} (h : heap P) c n : (forall x, ob_parent (h x) <> Some c) -> n <> c -> ~ below h c n.
Proof. intros N NE B. induction B as [|x y PX B IH]; [congruence|]. destruct (Nat.eq_dec y c) as [->|NY]; [exact (N x PX)|]. auto. Qed.
Example C45_used : reachable Z.add (after hist) /\ visits (after hist) 0%nat [1; 2]%nat /\ visits (after hist) 1%nat [3]%nat /\ ob_abs (after hist 3%nat) = 104.
Proof.
  split; [|split; [apply walk_along; vm_compute; reflexivity|split; [apply walk_along; vm_compute; reflexivity|reflexivity]]].
  refine (calls_reachable Z Z.add 10 hist start (after hist) (reachable_start _ _ _) (after_ok hist ltac:(vm_compute; reflexivity)) _).
  intros l1 o l2 h1 E C. unfold hist in E.
  destruct l1 as [|? [|? [|? [|? [|? l1]]]]]; cbn [app] in E; injection E; intros; subst; try solve [destruct l1; discriminate]; clear E;
    (rewrite after_ok in C by (vm_compute; reflexivity)); apply ok_inj in C; subst h1; cbn [allowed]; try exact I; right; right; (split; [intros n [= <-]; apply no_below; [|discriminate]; intros [|[|[|[|x]]]]; vm_compute; discriminate|]).
  1-3: intros old [=].
  intros old Q x. vm_compute in Q. injection Q as <-. destruct x as [|[|[|[|x]]]]; vm_compute; congruence.
Qed.

(** ** Where the full statement fails *)
(** The last child leaves, another object joins: the first child is in no list any more,
    although it still has its parent. *)
Theorem C45_lost_refuted : let h := after [OParent 1 (Some 0); OParent 2 (Some 0); OParent 2 None; OParent 3 (Some 0)]%nat in
  calls Z.add 10 start [OParent 1 (Some 0); OParent 2 (Some 0); OParent 2 None; OParent 3 (Some 0)]%nat = Ok h /\
  visits h 0%nat [3%nat] /\ ob_parent (h 1%nat) = Some 0%nat.
Proof. cbv zeta. split; [apply after_ok; vm_compute; reflexivity|]. split; [|reflexivity]. apply walk_along; vm_compute; reflexivity. Qed.
Print Assumptions C45_lost_refuted.
(** An object that moves takes its later sibling along: the sibling is in the new
    parent's list too. *)
Theorem C45_duplicate_refuted : let l := [OParent 1 (Some 0); OParent 2 (Some 0); OParent 1 (Some 3)]%nat in let h := after l in
  calls Z.add 10 start l = Ok h /\ visits h 3%nat [1; 2]%nat /\ visits h 0%nat [2%nat] /\ ob_parent (h 2%nat) = Some 0%nat.
Proof. cbv zeta. split; [apply after_ok; vm_compute; reflexivity|]. split; [|split; [|reflexivity]]; apply walk_along; vm_compute; reflexivity. Qed.
Print Assumptions C45_duplicate_refuted.
(** An object that left is still met on the way backwards. *)
Theorem C45_backwards_refuted : let l := [OParent 1 (Some 0); OParent 2 (Some 0); OParent 3 (Some 0); OParent 2 None]%nat in let h := after l in
  calls Z.add 10 start l = Ok h /\ visits h 0%nat [1; 3]%nat /\ visits_back h 0%nat [3; 2; 1]%nat /\ ob_parent (h 2%nat) = None.
Proof. cbv zeta. split; [apply after_ok; vm_compute; reflexivity|]. split; [|split; [|reflexivity]]; apply walk_along; vm_compute; reflexivity. Qed.
Print Assumptions C45_backwards_refuted.
(** Moving an object below its own child never ends. *)
Theorem C45_cycle_refuted : let h := after [OParent 1 (Some 0)]%nat in calls Z.add 10 start [OParent 1 (Some 0)]%nat = Ok h /\ forall fuel, set_parent Z.add fuel h 0%nat (Some 1%nat) = OutOfFuel.
Proof.
  cbv zeta. split; [apply after_ok; vm_compute; reflexivity|]. intros fuel. unfold set_parent, recalc. cbn [orb].
  set (h := place Z.add _ 0%nat).
  assert (F : ob_first (h 0%nat) = Some 1%nat /\ ob_first (h 1%nat) = Some 0%nat) by (split; reflexivity). clearbody h.
  assert (Q : forall fuel h, ob_first (h 0%nat) = Some 1%nat -> ob_first (h 1%nat) = Some 0%nat -> visit Z.add fuel h (Some 0%nat) = OutOfFuel /\ visit Z.add fuel h (Some 1%nat) = OutOfFuel).
  { clear. induction fuel as [|fuel IH]; intros h F0 F1; [split; reflexivity|]. cbn [visit]. split.
    - rewrite (proj1 (proj2 (place_links _ Z.add h 0%nat 0%nat))), F0.
      rewrite (proj2 (IH (place Z.add h 0%nat) (eq_trans (proj1 (proj2 (place_links _ Z.add h 0%nat 0%nat))) F0) (eq_trans (proj1 (proj2 (place_links _ Z.add h 0%nat 1%nat))) F1))). reflexivity.
    - rewrite (proj1 (proj2 (place_links _ Z.add h 1%nat 1%nat))), F1.
      rewrite (proj1 (IH (place Z.add h 1%nat) (eq_trans (proj1 (proj2 (place_links _ Z.add h 1%nat 0%nat))) F0) (eq_trans (proj1 (proj2 (place_links _ Z.add h 1%nat 1%nat))) F1))). reflexivity. }
  destruct F as [F0 F1]. replace (same (Some 1%nat) _ || same _ _)%bool with false by reflexivity. change (visit Z.add fuel h (ob_first (h 0%nat)) = OutOfFuel). rewrite F0. apply (Q fuel h F0 F1).
Qed.
Print Assumptions C45_cycle_refuted.
(** An object lost as in [C45_lost_refuted] does not move with its parent. *)
Theorem C61_lost_refuted : let l := [OParent 1 (Some 0); OParent 2 (Some 0); OParent 2 None; OParent 3 (Some 0); OPosition 0 100%Z]%nat in let h := after l in
  calls Z.add 10 start l = Ok h /\ ob_parent (h 1%nat) = Some 0%nat /\ ob_abs (h 0%nat) = 100 /\ ob_pos (h 1%nat) = 1 /\ ob_abs (h 1%nat) = 1.
Proof. cbv zeta. split; [apply after_ok; vm_compute; reflexivity|]. vm_compute. repeat split. Qed.
Print Assumptions C61_lost_refuted.
