(** Drawing order and events: C70, C71 and C72. *)
From Verif Require Import Base BaseFacts TreeModel TreeSpec TreeProofs TreeProps EventModel EventSpec EventProofs.

(** C70: the container draws what is shown, each object once and under everything that lies over
    it; a press is offered to the objects drawn last first, to no other, up to the first that
    takes it, and that one gets it. *)
Theorem C70_topmost_partial : forall P (add : P -> P -> P) h visible answers r, reachable add h -> ob_parent (h r) = None -> visible r = true ->
  exists d, painted h visible r d /\ exists n, forall m, (n <= m)%nat ->
    render h visible m r = Ok d /\ press h visible answers m r = Ok (up_to answers (rev d), find answers (rev d)).
Proof. intros P add h visible answers r R N V. exact (press_topmost P add h (reachable_good _ _ _ R) visible r N answers V). Qed.
Print Assumptions C70_topmost_partial.
(** C70: of two objects of a container exactly one lies over the other. *)
Theorem C70_over_partial : forall P (add : P -> P -> P) h r x y, reachable add h -> ob_parent (h r) = None -> in_container h r x -> in_container h r y -> x <> y ->
  (over h x y /\ ~ over h y x) \/ (over h y x /\ ~ over h x y).
Proof.
  intros P add h r x y R N X Y NE. pose proof (reachable_good _ _ _ R) as G.
  destruct (container_order P add h G (fun _ => true) r true) as (cs & l & V & TT).
  pose proof (proj2 (order_in P add h G _ r cs V _ _ TT x) X) as IX. pose proof (proj2 (order_in P add h G _ r cs V _ _ TT y) Y) as IY.
  assert (NE' : y <> x) by congruence.
  destruct (before_total _ _ _ IX IY NE) as [B|B].
  - apply (order_over P add h G _ r cs V _ _ TT x y X Y NE) in B. left. split; [exact B|]. intros O2. exact (NE (over_anti P add h G (fun _ => true) x y B O2)).
  - apply (order_over P add h G _ r cs V _ _ TT y x Y X NE') in B. right. split; [exact B|]. intros O2. exact (NE (over_anti P add h G (fun _ => true) x y O2 B)).
Qed.
Print Assumptions C70_over_partial.

(** C71: a typed character goes to the box that has the focus if it can be edited, and else to
    nobody, wherever the mouse is. *)
Theorem C71_typed_partial : forall P (add : P -> P -> P) h is_box editable focus r, reachable add h -> ob_parent (h r) = None ->
  (forall b, focus = Some b -> in_container h r b /\ is_box b = true) ->
  exists n, forall m, (n <= m)%nat -> text_input h (takes_text is_box (fun c => same focus (Some c)) editable) m r =
    Ok (match focus with Some b => if editable b : bool then Some b else None | None => None end).
Proof.
  intros P add h is_box editable focus r R N F. pose proof (reachable_good _ _ _ R) as G. destruct focus as [b|].
  - destruct (F b eq_refl) as [I B]. destruct (text_one P add h G (fun _ => true) r (takes_text is_box (fun c => same (Some b) (Some c)) editable) b) as (n & E); [|exact I|].
    + intros c. unfold takes_text. cbn [same]. destruct (Nat.eqb_spec b c); [congruence|]. rewrite andb_false_r. discriminate.
    + exists n. intros m LE. rewrite E by exact LE. unfold takes_text. cbn [same]. rewrite Nat.eqb_refl, B. reflexivity.
  - apply (text_none P add h G (fun _ => true)). intros c. unfold takes_text. cbn. rewrite andb_false_r. reflexivity.
Qed.
Print Assumptions C71_typed_partial.
(** C71: a key goes to the box that has the focus if the mouse is inside it, and else to nobody. *)
Theorem C71_keys_partial : forall P (add : P -> P -> P) h is_box inside focus r, reachable add h -> ob_parent (h r) = None ->
  (forall b, focus = Some b -> in_container h r b /\ is_box b = true) ->
  exists n, forall m, (n <= m)%nat -> key_press h inside (takes_keys is_box (fun c => same focus (Some c))) m r =
    Ok (match focus with Some b => if inside b : bool then Some b else None | None => None end).
Proof.
  intros P add h is_box inside focus r R N F. pose proof (reachable_good _ _ _ R) as G. destruct focus as [b|].
  - destruct (F b eq_refl) as [I B]. destruct (key_one P add h G (fun _ => true) r inside (takes_keys is_box (fun c => same (Some b) (Some c))) b) as (n & E); [|exact I|].
    + intros c. unfold takes_keys. cbn [same]. destruct (Nat.eqb_spec b c); [congruence|]. rewrite andb_false_r. discriminate.
    + exists n. intros m LE. rewrite E by exact LE. unfold takes_keys. cbn [same]. rewrite Nat.eqb_refl, B. destruct (inside b); reflexivity.
  - apply (key_none P add h G (fun _ => true)). intros c. unfold takes_keys. cbn. apply andb_false_r.
Qed.
Print Assumptions C71_keys_partial.

(** C72: when the mouse is inside objects, the topmost of them is told that it entered, and the
    one told before, if it is another, that it left. *)
Theorem C72_enter_partial : forall P (add : P -> P -> P) h inside r c, reachable add h -> ob_parent (h r) = None -> topmost h r inside c ->
  exists n, forall m hovered, (n <= m)%nat -> mouse_move h inside m r hovered =
    Ok (Some c, match hovered with Some o => if Nat.eqb o c then [Enter c] else [Leave o; Enter c] | None => [Enter c] end).
Proof.
  intros P add h inside r c R N TP. pose proof (reachable_good _ _ _ R) as G. destruct (move_case P add h G (fun _ => true) r inside) as (n & [(a & TA & E)|(NO & E)]).
  - exists n. intros m hov LE. rewrite E by exact LE. rewrite (topmost_one P add h G (fun _ => true) r inside a c TA TP). destruct hov as [o|]; [|reflexivity]. destruct (Nat.eqb o c); reflexivity.
  - destruct TP as (I & F & _). rewrite (NO c I) in F. discriminate.
Qed.
Print Assumptions C72_enter_partial.
(** C72: when it is inside none, the one told before is told that it left. *)
Theorem C72_leave_partial : forall P (add : P -> P -> P) h inside r, reachable add h -> ob_parent (h r) = None -> (forall c, in_container h r c -> inside c = false) ->
  exists n, forall m hovered, (n <= m)%nat -> mouse_move h inside m r hovered = Ok (hovered, match hovered with Some o => [Leave o] | None => [] end).
Proof.
  intros P add h inside r R N NO. pose proof (reachable_good _ _ _ R) as G. destruct (move_case P add h G (fun _ => true) r inside) as (n & [(a & (I & F & _) & E)|(_ & E)]).
  - rewrite (NO a I) in F. discriminate.
  - exists n. exact E.
Qed.
Print Assumptions C72_leave_partial.
(** C72: one of the two is the case. *)
Theorem C72_cases_partial : forall P (add : P -> P -> P) h inside r, reachable add h -> ob_parent (h r) = None ->
  (exists c, topmost h r inside c) \/ (forall c, in_container h r c -> inside c = false).
Proof.
  intros P add h inside r R N. destruct (move_case P add h (reachable_good _ _ _ R) (fun _ => true) r inside) as (n & [(a & TA & E)|(NO & E)]); [left; exists a; exact TA|right; exact NO].
Qed.
Print Assumptions C72_cases_partial.

(** ** Non-vacuity: 1 and 2 below 0, 3 below 1 *)
Example C70_used : let h := after hist in
  reachable Z.add h /\ ob_parent (h 0%nat) = None /\
  render h (fun _ => true) 10 0 = Ok [1; 3; 2]%nat /\ render h (fun c => negb (c =? 1)%nat) 10 0 = Ok [2]%nat /\
  press h (fun _ => true) (fun c => (c =? 3)%nat || (c =? 1)%nat) 10 0 = Ok ([2; 3], Some 3)%nat /\
  press h (fun c => negb (c =? 3)%nat) (fun c => (c =? 3)%nat || (c =? 1)%nat) 10 0 = Ok ([2; 1], Some 1)%nat /\
  text_input h (takes_text (fun _ => true) (fun c => same (Some 3%nat) (Some c)) (fun _ => true)) 10 0 = Ok (Some 3%nat) /\
  key_press h (fun c => (c =? 3)%nat) (takes_keys (fun _ => true) (fun c => same (Some 3%nat) (Some c))) 10 0 = Ok (Some 3%nat) /\
  mouse_moves h [fun c => (c =? 1)%nat || (c =? 3)%nat; fun c => (c =? 2)%nat; fun _ => false] 10 0 None = Ok [Enter 3; Leave 3; Enter 2; Leave 2]%nat.
Proof. cbv zeta. split; [apply C45_used|]. repeat split; vm_compute; reflexivity. Qed.
Lemma in_0 c : In c [1; 2; 3]%nat -> in_container (after hist) 0 c.
Proof.
  intros [<-|[<-|[<-|[]]]]; (split; [discriminate|]).
  - eapply below_child; [vm_compute; reflexivity|constructor].
  - eapply below_child; [vm_compute; reflexivity|constructor].
  - eapply below_child; [vm_compute; reflexivity|]. eapply below_child; [vm_compute; reflexivity|constructor].
Qed.
Example C72_used : topmost (after hist) 0 (fun c => (c =? 1)%nat || (c =? 3)%nat) 3.
Proof.
  split; [apply in_0; cbn; auto|]. split; [reflexivity|]. intros x _ E. apply orb_prop in E as [E|E]; apply Nat.eqb_eq in E; subst x; left; [|constructor].
  eapply below_child; [vm_compute; reflexivity|constructor].
Qed.

(** ** Where the full statements fail *)
(** A key does not reach the box that has the focus while the mouse is elsewhere. *)
Theorem C71_mouse_elsewhere_refuted : ~ (forall (h : heap Z) is_box inside focus r b, reachable Z.add h -> ob_parent (h r) = None ->
  focus = Some b -> in_container h r b -> is_box b = true ->
  exists n, forall m, (n <= m)%nat -> key_press h inside (takes_keys is_box (fun c => same focus (Some c))) m r = Ok (Some b)).
Proof.
  intros A. destruct (A (after hist) (fun _ => true) (fun c => (c =? 2)%nat) (Some 3%nat) 0%nat 3%nat) as (n & E); [apply C45_used|reflexivity|reflexivity|apply in_0; cbn; auto|reflexivity|].
  destruct (C71_keys_partial Z Z.add (after hist) (fun _ => true) (fun c => (c =? 2)%nat) (Some 3%nat) 0%nat) as (n' & E'); [apply C45_used|reflexivity|intros b [= <-]; split; [apply in_0; cbn; auto|reflexivity]|].
  specialize (E (Nat.max n n') ltac:(lia)). rewrite E' in E by lia. discriminate.
Qed.
Print Assumptions C71_mouse_elsewhere_refuted.
(** While the mouse moves inside an object, the object is told again and again that it entered. *)
Theorem C72_enter_again_refuted : exists (h : heap Z) inside n, reachable Z.add h /\ ob_parent (h 0%nat) = None /\
  forall m, (n <= m)%nat -> mouse_moves h [inside; inside; inside] m 0 None = Ok [Enter 2; Enter 2; Enter 2]%nat.
Proof.
  destruct (C72_enter_partial Z Z.add (after hist) (fun c => (c =? 2)%nat) 0%nat 2%nat) as (n & E); [apply C45_used|reflexivity| |].
  - split; [apply in_0; cbn; auto|]. split; [reflexivity|]. intros x _ X. apply Nat.eqb_eq in X. subst. left. constructor.
  - exists (after hist), (fun c => (c =? 2)%nat), n. split; [apply C45_used|]. split; [reflexivity|]. intros m LE. cbn [mouse_moves]. rewrite !E by exact LE. cbn [obind]. rewrite !E by exact LE. cbn [obind]. rewrite !E by exact LE. reflexivity.
Qed.
Print Assumptions C72_enter_again_refuted.
(** While the mouse moves outside all objects, the one it left is told again and again that it left. *)
Theorem C72_leave_again_refuted : exists (h : heap Z) inside n, reachable Z.add h /\ ob_parent (h 0%nat) = None /\
  forall m, (n <= m)%nat -> mouse_moves h [inside; fun _ => false; fun _ => false] m 0 None = Ok [Enter 2; Leave 2; Leave 2]%nat.
Proof.
  destruct (C72_enter_partial Z Z.add (after hist) (fun c => (c =? 2)%nat) 0%nat 2%nat) as (n & E); [apply C45_used|reflexivity| |].
  - split; [apply in_0; cbn; auto|]. split; [reflexivity|]. intros x _ X. apply Nat.eqb_eq in X. subst. left. constructor.
  - destruct (C72_leave_partial Z Z.add (after hist) (fun _ => false) 0%nat) as (n' & E'); [apply C45_used|reflexivity|reflexivity|].
    exists (after hist), (fun c => (c =? 2)%nat), (Nat.max n n'). split; [apply C45_used|]. split; [reflexivity|]. intros m LE. cbn [mouse_moves]. rewrite E by lia. cbn [obind]. rewrite E' by lia. cbn [obind]. rewrite E' by lia. reflexivity.
Qed.
Print Assumptions C72_leave_again_refuted.
(** An object that is not shown, and lies over what is, is told of the mouse, and what is shown is not. *)
Theorem C72_hidden_refuted : exists (h : heap Z) visible inside d n, reachable Z.add h /\ ob_parent (h 0%nat) = None /\
  painted h visible 0%nat d /\ In 1%nat d /\ ~ In 2%nat d /\ inside 1%nat = true /\
  forall m, (n <= m)%nat -> mouse_moves h [inside] m 0 None = Ok [Enter 2%nat].
Proof.
  destruct (C72_enter_partial Z Z.add (after hist) (fun c => (c <? 3)%nat) 0%nat 2%nat) as (n & E); [apply C45_used|reflexivity| |].
  - split; [apply in_0; cbn; auto|]. split; [reflexivity|]. intros x [N _] X. apply Nat.ltb_lt in X.
    assert (Q : x = 1%nat \/ x = 2%nat) by lia. destruct Q as [->| ->]; [|left; constructor].
    right. exists 0%nat, [1; 2]%nat, 1%nat, 2%nat. split; [apply C45_used|]. split; [exists [], [], []; reflexivity|]. split; constructor.
  - destruct (C70_topmost_partial Z Z.add (after hist) (fun c => negb (c =? 2)%nat) (fun _ => false) 0%nat) as (d & PA & n' & D); [apply C45_used|reflexivity|reflexivity|].
    assert (ED : d = [1; 3]%nat).
    { destruct (D (Nat.max n' 10) ltac:(lia)) as [X _]. assert (Y : forall k, render (after hist) (fun c => negb (c =? 2)%nat) (10 + k) 0 = Ok [1; 3]%nat) by (intros k; vm_compute; reflexivity).
      replace (Nat.max n' 10) with (10 + (Nat.max n' 10 - 10))%nat in X by lia. rewrite Y in X. congruence. }
    subst d. exists (after hist), (fun c => negb (c =? 2)%nat), (fun c => (c <? 3)%nat), [1; 3]%nat, n.
    split; [apply C45_used|]. split; [reflexivity|]. split; [exact PA|]. split; [cbn; auto|]. split; [cbn; intuition lia|]. split; [reflexivity|].
    intros m LE. cbn [mouse_moves]. rewrite E by exact LE. reflexivity.
Qed.
Print Assumptions C72_hidden_refuted.
