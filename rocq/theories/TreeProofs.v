From Coq Require Import Lia.
From Verif Require Import Base BaseFacts TreeModel TreeSpec.
Lemma ok_inj {A} (x y : A) : Ok x = Ok y -> x = y. Proof. congruence. Qed.

Lemma same_eq a b : same a b = true <-> a = b.
Proof. destruct a, b; cbn; rewrite ?Nat.eqb_eq; split; congruence. Qed.
Lemma same_neq a b : same a b = false <-> a <> b.
Proof. rewrite <- same_eq. destruct (same a b); split; congruence. Qed.
Lemma along_fun link a l : along link a l -> forall l', along link a l' -> l = l'.
Proof. induction 1; intros l' H'; inversion H'; subst; auto. f_equal. auto. Qed.
Lemma along_ext link link' a l : along link a l -> (forall x, In x l -> link x = link' x) -> along link' a l.
Proof.
  induction 1 as [|x l A IH]; intros E; constructor. rewrite <- E by (left; reflexivity). apply IH. intros y Y. apply E. right. exact Y.
Qed.
(** Adding at the end: the last object now leads to [c]. *)
Lemma along_snoc link link' c : forall l a z, along link a (l ++ [z]) -> link' z = Some c -> link' c = None -> (forall x, In x l -> link' x = link x) -> along link' a (l ++ [z; c]).
Proof.
  induction l as [|y l IH]; intros a z A Z C E; cbn [app] in *; inversion A; subst.
  - constructor. rewrite Z. constructor. rewrite C. constructor.
  - constructor. rewrite E by (left; reflexivity). apply IH; auto. intros x X. apply E. right. exact X.
Qed.

Section Proofs.
Variable P : Type.
Variable add : P -> P -> P.
Notation heap := (heap P).

Lemma upd_same (h : heap) k o : upd h k o k = o.
Proof. unfold upd. rewrite Nat.eqb_refl. reflexivity. Qed.
Lemma upd_other (h : heap) k o i : i <> k -> upd h k o i = h i.
Proof. intros N. unfold upd. destruct (Nat.eqb_spec i k); congruence. Qed.

(** ** Structure, for a given parent function *)
Definition shape (par : nat -> option nat) (h : heap) : Prop :=
  (forall p, exists l, visits h p l /\ visits_back h p (rev l) /\ NoDup l /\ forall c, In c l <-> par c = Some p) /\
  (forall c, par c = None -> ob_next (h c) = None /\ ob_prev (h c) = None).
Definition put (par : nat -> option nat) (c : nat) (v : option nat) : nat -> option nat := fun x => if Nat.eqb x c then v else par x.
Ltac put := unfold put in *; repeat match goal with |- context [Nat.eqb ?a ?b] => destruct (Nat.eqb_spec a b); subst | H : context [Nat.eqb ?a ?b] |- _ => destruct (Nat.eqb_spec a b); subst end.
Lemma field_upd {A} (g : obj P -> A) (h : heap) k o : (forall x, x = k -> g o = g (h x)) -> forall x, g (upd h k o x) = g (h x).
Proof. intros E x. unfold upd. destruct (Nat.eqb_spec x k); auto. Qed.

Lemma shape_ext par par' (h h' : heap) : shape par h -> (forall x, par' x = par x) ->
  (forall x, ob_first (h' x) = ob_first (h x) /\ ob_next (h' x) = ob_next (h x) /\ ob_prev (h' x) = ob_prev (h x) /\ ob_last (h' x) = ob_last (h x)) -> shape par' h'.
Proof.
  intros [S1 S2] EP E. split.
  - intros p. destruct (S1 p) as (l & A & B & C & D). exists l. unfold visits, visits_back in *. destruct (E p) as (E1 & _ & _ & E4). rewrite E1, E4.
    split; [eapply along_ext; [exact A|]; intros x _; cbv beta; symmetry; apply E|]. split; [eapply along_ext; [exact B|]; intros x _; cbv beta; symmetry; apply E|]. split; [exact C|]. intros c. rewrite EP. apply D.
  - intros c N. rewrite EP in N. destruct (E c) as (_ & E2 & E3 & _). rewrite E2, E3. apply S2. exact N.
Qed.

(** ** Removing an only child *)
Lemma unlink_only par h c o : shape par h -> par c = Some o -> (forall x, par x = Some o -> x = c) ->
  visits h o [c] /\ shape (put par c None) (unlink h c (Some o)) /\ ob_next (h c) = None /\ ob_prev (h c) = None /\
  (forall p, p <> o -> forall l, visits h p l -> visits (unlink h c (Some o)) p l) /\ visits (unlink h c (Some o)) o [] /\ (forall x, ob_parent (unlink h c (Some o) x) = ob_parent (h x)).
Proof.
  intros [S1 S2] PC ONLY. destruct (S1 o) as (l & A & B & C & D).
  assert (L : l = [c]).
  { assert (IC : In c l) by (apply D; exact PC). assert (AL : forall x, In x l -> x = c) by (intros x X; apply ONLY, D; exact X). destruct l as [|x l]; [destruct IC|]. assert (x = c) by (apply AL; left; reflexivity). subst x.
    destruct l as [|y l]; [reflexivity|]. assert (y = c) by (apply AL; right; left; reflexivity). subst y. inversion C; subst. exfalso. apply H1. left. reflexivity. }
  subst l. split; [exact A|]. unfold visits, visits_back in A, B. cbn [rev app] in B.
  assert (A0 : ob_first (h o) = Some c /\ ob_next (h c) = None) by (inversion A as [|? ? A2]; inversion A2; auto). destruct A0 as [F1 N1].
  assert (B0 : ob_last (h o) = Some c /\ ob_prev (h c) = None) by (inversion B as [|? ? B2]; inversion B2; auto). destruct B0 as [L1 P1].
  assert (FE : forall x, ob_first (unlink h c (Some o) x) = (if Nat.eqb x o then None else ob_first (h x)) /\ ob_last (unlink h c (Some o) x) = (if Nat.eqb x o then None else ob_last (h x)) /\
    ob_next (unlink h c (Some o) x) = ob_next (h x) /\ ob_prev (unlink h c (Some o) x) = ob_prev (h x) /\ ob_parent (unlink h c (Some o) x) = ob_parent (h x)).
  { intros x. unfold unlink. rewrite F1. cbn [same]. rewrite Nat.eqb_refl. rewrite N1. rewrite upd_same. cbn [set_first ob_last]. rewrite L1. cbn [same]. rewrite Nat.eqb_refl.
    assert (NN : ob_next (upd h o (set_first (h o) None) c) = None) by (unfold upd; destruct (Nat.eqb_spec c o); subst; cbn; auto). rewrite NN.
    unfold upd. destruct (Nat.eqb_spec x o); subst; cbn; auto. }
  split; [|split; [exact N1|split; [exact P1|]]].
  - split.
    + intros p. destruct (S1 p) as (l & A1 & B1 & C1 & D1). destruct (Nat.eq_dec p o) as [->|NE].
      * exists []. unfold visits, visits_back. destruct (FE o) as (X & Y & _). rewrite Nat.eqb_refl in X, Y. rewrite X, Y. split; [constructor|]. split; [constructor|]. split; [constructor|].
        intros x. split; [intros []|]. put; [discriminate|]. intros H. apply ONLY in H. contradiction.
      * exists l. unfold visits, visits_back in *. destruct (FE p) as (X & Y & _). destruct (Nat.eqb_spec p o); [contradiction|]. rewrite X, Y.
        split; [eapply along_ext; [exact A1|]; intros x _; cbv beta; symmetry; apply FE|]. split; [eapply along_ext; [exact B1|]; intros x _; cbv beta; symmetry; apply FE|]. split; [exact C1|].
        intros x. rewrite D1. put; [|reflexivity]. split; [congruence|discriminate].
    + intros x X. destruct (FE x) as (_ & _ & Y1 & Y2 & _). rewrite Y1, Y2. put; [auto|]. apply S2. exact X.
  - split; [|split; [|intros x; apply FE]].
    + intros p NE l V. unfold visits in *. destruct (FE p) as (X & _). destruct (Nat.eqb_spec p o); [contradiction|]. rewrite X. eapply along_ext; [exact V|]. intros x _. cbv beta. symmetry. apply FE.
    + unfold visits. destruct (FE o) as (X & _). rewrite Nat.eqb_refl in X. rewrite X. constructor.
Qed.

(** ** Adding a child *)
Lemma link_free par h c n : shape par h -> par c = None ->
  shape (put par c (Some n)) (link h c (Some n)) /\ (forall x, ob_parent (link h c (Some n) x) = ob_parent (h x)) /\
  (forall p l, visits h p l -> visits (link h c (Some n)) p (if Nat.eqb p n then l ++ [c] else l)).
Proof.
  intros [S1 S2] PC. destruct (S2 c PC) as [NC PVC]. destruct (S1 n) as (l & A & B & C & D). assert (CL : forall p l', visits h p l' -> (forall x, In x l' <-> par x = Some p) -> ~ In c l').
  { intros p l' _ Q IC. apply Q in IC. congruence. }
  assert (FE : forall x, ob_first (link h c (Some n) x) = (if Nat.eqb x n then match l with [] => Some c | _ => ob_first (h x) end else ob_first (h x)) /\
     ob_last (link h c (Some n) x) = (if Nat.eqb x n then Some c else ob_last (h x)) /\
     ob_next (link h c (Some n) x) = (match ob_last (h n) with Some z => if Nat.eqb x z then Some c else ob_next (h x) | None => ob_next (h x) end) /\
     ob_prev (link h c (Some n) x) = (if Nat.eqb x c then ob_last (h n) else ob_prev (h x)) /\ ob_parent (link h c (Some n) x) = ob_parent (h x)).
  { intros x. unfold link. assert (LN : ob_last (upd h c (set_prev (h c) (ob_last (h n))) n) = ob_last (h n)) by (unfold upd; destruct (Nat.eqb_spec n c); subst; reflexivity). rewrite LN.
    unfold visits_back in B. destruct l as [|y l0].
    - cbn [rev] in B. assert (BL : ob_last (h n) = None) by (inversion B; auto). rewrite BL. unfold upd. destruct (Nat.eqb_spec x n), (Nat.eqb_spec x c), (Nat.eqb_spec n c); subst; try congruence; cbn; rewrite ?Nat.eqb_refl; cbn; auto 10.
    - destruct (@exists_last _ (y :: l0) ltac:(discriminate)) as (l1 & z & LE). rewrite LE in B. rewrite rev_app_distr in B. cbn [rev app] in B. assert (BL : ob_last (h n) = Some z) by (inversion B; auto). rewrite BL.
      unfold upd. destruct (Nat.eqb_spec x n), (Nat.eqb_spec x c), (Nat.eqb_spec n c), (Nat.eqb_spec x z), (Nat.eqb_spec n z), (Nat.eqb_spec z c), (Nat.eqb_spec z n); subst; try congruence; cbn; rewrite ?Nat.eqb_refl; cbn; auto 10. }
  assert (NEW : forall p lp, visits h p lp -> visits_back h p (rev lp) -> NoDup lp -> (forall x, In x lp <-> par x = Some p) ->
     visits (link h c (Some n)) p (if Nat.eqb p n then lp ++ [c] else lp) /\ visits_back (link h c (Some n)) p (rev (if Nat.eqb p n then lp ++ [c] else lp))).
  { intros p lp A1 B1 C1 D1. pose proof (CL p lp A1 D1) as NIC. destruct (Nat.eqb_spec p n) as [->|NE].
    - assert (lp = l) by (unfold visits in *; eapply along_fun; eauto). subst lp. unfold visits, visits_back in *. destruct (FE n) as (X1 & X2 & _). rewrite Nat.eqb_refl in X1, X2. rewrite X1, X2. clear X1 X2. split.
      + destruct l as [|y l0].
        * cbn [app]. constructor. cbn [rev] in B. assert (BL : ob_last (h n) = None) by (inversion B; auto). destruct (FE c) as (_ & _ & X & _). rewrite BL in X. cbv beta. rewrite X, NC. constructor.
        * destruct (@exists_last _ (y :: l0) ltac:(discriminate)) as (l1 & z & LE). assert (BL : ob_last (h n) = Some z) by (rewrite LE, rev_app_distr in B; cbn [rev app] in B; inversion B; auto).
          rewrite LE in *. rewrite <- app_assoc. cbn [app]. assert (ZC : z <> c) by (intros ->; apply NIC; apply in_app_iff; right; left; reflexivity).
          assert (ND : ~ In z l1). { apply NoDup_remove in C1. rewrite app_nil_r in C1. apply C1. }
          apply along_snoc with (link := fun x => ob_next (h x)); [exact A1| | |].
          -- destruct (FE z) as (_ & _ & X & _). rewrite BL, Nat.eqb_refl in X. exact X.
          -- destruct (FE c) as (_ & _ & X & _). rewrite BL in X. destruct (Nat.eqb_spec c z); [congruence|]. rewrite X. exact NC.
          -- intros x IX. destruct (FE x) as (_ & _ & X & _). rewrite BL in X. destruct (Nat.eqb_spec x z); [subst; contradiction|]. exact X.
      + rewrite rev_app_distr. cbn [rev app]. constructor. destruct (FE c) as (_ & _ & _ & X & _). rewrite Nat.eqb_refl in X. cbv beta. rewrite X. eapply along_ext; [exact B1|]. intros x IX. cbv beta.
        destruct (FE x) as (_ & _ & _ & Y & _). rewrite Y. destruct (Nat.eqb_spec x c); [|reflexivity]. subst. exfalso. apply NIC. apply in_rev. exact IX.
    - unfold visits, visits_back in *. destruct (FE p) as (X1 & X2 & _). destruct (Nat.eqb_spec p n); [contradiction|]. rewrite X1, X2. split.
      + eapply along_ext; [exact A1|]. intros x IX. cbv beta. destruct (FE x) as (_ & _ & X & _). rewrite X. destruct (ob_last (h n)) as [z|] eqn:BL; [|reflexivity]. destruct (Nat.eqb_spec x z); [|reflexivity]. subst z.
        exfalso. assert (In x l). { apply in_rev. inversion B; subst. left. congruence. } apply D in H. apply D1 in IX. congruence.
      + eapply along_ext; [exact B1|]. intros x IX. cbv beta. destruct (FE x) as (_ & _ & _ & Y & _). rewrite Y. destruct (Nat.eqb_spec x c); [|reflexivity]. subst. exfalso. apply NIC. apply in_rev. exact IX. }
  split; [split|split].
  - intros p. destruct (S1 p) as (lp & A1 & B1 & C1 & D1). destruct (NEW p lp A1 B1 C1 D1) as [N1 N2]. exists (if Nat.eqb p n then lp ++ [c] else lp). split; [exact N1|]. split; [exact N2|]. pose proof (CL p lp A1 D1) as NIC.
    destruct (Nat.eqb_spec p n) as [->|NE].
    + split.
      * apply NoDup_rev in C1. rewrite <- (rev_involutive (lp ++ [c])). apply NoDup_rev. rewrite rev_app_distr. cbn. constructor; [rewrite <- in_rev; exact NIC|exact C1].
      * intros x. rewrite in_app_iff. cbn. rewrite D1. put; [tauto|]. split; [intros [H|[H|[]]]; congruence|auto].
    + split; [exact C1|]. intros x. rewrite D1. put; [|reflexivity]. split; congruence.
  - intros x X. destruct (FE x) as (_ & _ & Y1 & Y2 & _). put; [discriminate|]. destruct (S2 x X) as [Z1 Z2]. rewrite Y1, Y2. destruct (Nat.eqb_spec x c); [congruence|]. rewrite Z2. split; [|reflexivity].
    destruct (ob_last (h n)) as [z|] eqn:BL; [|exact Z1]. destruct (Nat.eqb_spec x z); [|exact Z1]. subst z. exfalso. assert (In x l). { apply in_rev. unfold visits_back in B. rewrite BL in B. inversion B; subst. left. congruence. } apply D in H. congruence.
  - intros x. apply FE.
  - intros p lp V. destruct (S1 p) as (l2 & A1 & B1 & C1 & D1). assert (lp = l2) by (unfold visits in *; eapply along_fun; eauto). subst. apply (NEW p l2); assumption.
Qed.

(** ** No object below itself *)
Inductive fin (par : nat -> option nat) (x : nat) : Prop := fin_intro : (forall c, par c = Some x -> fin par c) -> fin par x.
Inductive under (par : nat -> option nat) (c : nat) : nat -> Prop :=
| under_self : under par c c
| under_child x y : par x = Some y -> under par c y -> under par c x.
Lemma fin_put par c new : (forall x, fin par x) -> (forall n, new = Some n -> ~ under par c n) -> forall x, fin (put par c new) x.
Proof.
  intros F NB. assert (DC : forall z, fin par z -> under par c z -> fin (put par c new) z).
  { induction 1 as [z _ IH]. intros U. constructor. intros y Y. unfold put in Y. destruct (Nat.eqb_spec y c) as [YC|YC]; [exfalso; exact (NB z Y U)|]. apply IH; [exact Y|]. eapply under_child; eassumption. }
  intros x. specialize (F x) as FX. induction FX as [x _ IH]. constructor. intros y Y. unfold put in Y. destruct (Nat.eqb_spec y c) as [YC|NE].
  - rewrite YC. apply DC; [apply F|constructor].
  - apply IH. exact Y.
Qed.
Lemma fin_ext par par' : (forall x, par' x = par x) -> forall x, fin par x -> fin par' x.
Proof. intros E x. induction 1 as [x _ IH]. constructor. intros c C. apply IH. rewrite <- E. exact C. Qed.
Lemma below_under (h : heap) c x : below h c x <-> under (fun y => ob_parent (h y)) c x.
Proof. split; induction 1; solve [constructor | econstructor; eassumption]. Qed.

(** ** Placing *)
Definition links (h h' : heap) : Prop := forall x, ob_parent (h' x) = ob_parent (h x) /\ ob_first (h' x) = ob_first (h x) /\ ob_next (h' x) = ob_next (h x) /\ ob_prev (h' x) = ob_prev (h x) /\ ob_last (h' x) = ob_last (h x) /\ ob_pos (h' x) = ob_pos (h x).
Lemma links_refl h : links h h. Proof. intros x. repeat split. Qed.
Lemma links_trans a b c : links a b -> links b c -> links a c.
Proof. intros H1 H2 x. destruct (H1 x) as (A1 & A2 & A3 & A4 & A5 & A6), (H2 x) as (B1 & B2 & B3 & B4 & B5 & B6). repeat split; congruence. Qed.
Lemma links_sym a b : links a b -> links b a.
Proof. intros H x. destruct (H x) as (A1 & A2 & A3 & A4 & A5 & A6). repeat split; congruence. Qed.
Lemma place_links h o : links h (place add h o).
Proof. intros x. unfold place, upd. destruct (Nat.eqb_spec x o); subst; cbn; repeat split. Qed.
Lemma visit_links fuel : forall h cur h', visit add fuel h cur = Ok h' -> links h h'.
Proof.
  induction fuel as [|fuel IH]; intros h [c|] h' E; cbn [visit] in E; try discriminate; try (apply ok_inj in E; subst; apply links_refl).
  apply obind_ok_inv in E as (h1 & E1 & E). apply obind_ok_inv in E as (h2 & E2 & E3). apply IH in E1, E2, E3.
  eapply links_trans; [apply place_links|]. eapply links_trans; [exact E1|]. eapply links_trans; [exact E2|exact E3].
Qed.
Lemma visit_more fuel : forall fuel' h cur h', visit add fuel h cur = Ok h' -> (fuel <= fuel')%nat -> visit add fuel' h cur = Ok h'.
Proof.
  induction fuel as [|fuel IH]; intros fuel' h [c|] h' E LE; cbn [visit] in E; try discriminate; try (destruct fuel'; exact E).
  destruct fuel' as [|fuel']; [lia|]. cbn [visit]. apply obind_ok_inv in E as (h1 & E1 & E). apply obind_ok_inv in E as (h2 & E2 & E3).
  rewrite (IH fuel' _ _ _ E1) by lia. cbn [obind]. rewrite (IH fuel' _ _ _ E2) by lia. cbn [obind]. apply (IH fuel'); [exact E3|lia].
Qed.
Definition kids (h : heap) : Prop := forall p, exists l, visits h p l /\ forall c, In c l <-> ob_parent (h c) = Some p.
Lemma along_links h h' : links h h' -> forall a l, along (fun x => ob_next (h x)) a l -> along (fun x => ob_next (h' x)) a l.
Proof. intros L a l A. eapply along_ext; [exact A|]. intros x _. cbv beta. symmetry. apply L. Qed.
Lemma kids_links h h' : links h h' -> kids h -> kids h'.
Proof.
  intros L K p. destruct (K p) as (l & V & I). exists l. unfold visits in *. destruct (L p) as (_ & F & _). rewrite F. split; [exact (along_links _ _ L _ _ V)|].
  intros c. destruct (L c) as (Q & _). rewrite Q. apply I.
Qed.

Lemma visit_ends h : kids h -> forall x, fin (fun y => ob_parent (h y)) x -> exists f, forall h', links h h' -> exists h'', visit add f h' (ob_first (h x)) = Ok h''.
Proof.
  intros K x. induction 1 as [x _ IH]. destruct (K x) as (l & V & I). unfold visits in V.
  assert (IH' : forall c, In c l -> exists f, forall h', links h h' -> exists h'', visit add f h' (ob_first (h c)) = Ok h'') by (intros c C; apply IH, I, C). clear IH I.
  revert V. generalize (ob_first (h x)). induction l as [|c l IHl]; intros a V; inversion V as [|? ? V']; subst.
  - exists O. intros h' _. eexists. reflexivity.
  - destruct (IH' c ltac:(left; reflexivity)) as (f1 & H1). destruct (IHl (fun y Y => IH' y (or_intror Y)) _ V') as (f2 & H2).
    exists (S (Nat.max f1 f2)). intros h' L. cbn [visit]. set (h0 := place add h' c). assert (L0 : links h h0) by (eapply links_trans; [exact L|apply place_links]).
    assert (F0 : ob_first (h0 c) = ob_first (h c)) by apply L0. destruct (H1 h0 L0) as (h1 & E1). rewrite F0. rewrite (visit_more _ (Nat.max f1 f2) _ _ _ E1) by lia. cbn [obind].
    assert (L1 : links h h1) by (eapply links_trans; [exact L0|exact (visit_links _ _ _ _ E1)]). assert (F1 : ob_first (h1 c) = ob_first (h c)) by apply L1. rewrite F1.
    destruct (H1 h1 L1) as (h2 & E2). rewrite (visit_more _ (Nat.max f1 f2) _ _ _ E2) by lia. cbn [obind]. assert (L2 : links h h2) by (eapply links_trans; [exact L1|exact (visit_links _ _ _ _ E2)]).
    assert (F2 : ob_next (h2 c) = ob_next (h c)) by apply L2. rewrite F2. destruct (H2 h2 L2) as (h3 & E3). exists h3. apply (visit_more _ (Nat.max f1 f2) _ _ _ E3). lia.
Qed.

Definition at_place (h : heap) (o : nat) : Prop := ob_abs (h o) = match ob_parent (h o) with Some p => add (ob_abs (h p)) (ob_pos (h o)) | None => ob_pos (h o) end.
Lemma place_rest h c (B : nat -> Prop) : (forall x, x <> c -> ~ B x -> at_place h x) -> forall x, ~ B x -> ob_parent (h x) <> Some c -> at_place (place add h c) x.
Proof.
  intros A x NB NP. unfold at_place, place. destruct (Nat.eq_dec x c) as [->|NE].
  - rewrite upd_same. cbn. destruct (ob_parent (h c)) as [p|]; [|reflexivity]. rewrite upd_other by congruence. reflexivity.
  - rewrite upd_other by exact NE. specialize (A x NE NB). unfold at_place in A. rewrite A. destruct (ob_parent (h x)) as [p|]; [|reflexivity]. rewrite upd_other by congruence. reflexivity.
Qed.
Lemma visit_places fuel : forall h cur h' l (B : nat -> Prop), visit add fuel h cur = Ok h' -> kids h -> along (fun x => ob_next (h x)) cur l ->
  (forall x, ~ B x -> ~ In x l -> at_place h x) -> forall x, ~ B x -> at_place h' x.
Proof.
  induction fuel as [|fuel IH]; intros h [c|] h' l B E K V A x NB; cbn [visit] in E; try discriminate; try (apply ok_inj in E; subst h'; inversion V; subst; apply A; [exact NB|intros []]).
  inversion V as [|? l' V']; subst. apply obind_ok_inv in E as (h1 & E1 & E). apply obind_ok_inv in E as (h2 & E2 & E3). set (h0 := place add h c) in *.
  assert (L0 : links h h0) by apply place_links. pose proof (kids_links _ _ L0 K) as K0. pose proof (visit_links _ _ _ _ E1) as L1. pose proof (kids_links _ _ L1 K0) as K1. pose proof (visit_links _ _ _ _ E2) as L2. pose proof (kids_links _ _ L2 K1) as K2.
  assert (A0 : forall y, ~ (B y \/ In y l') -> ob_parent (h y) <> Some c -> at_place h0 y).
  { apply (place_rest h c (fun y => B y \/ In y l')). intros y NE NY. apply A; [tauto|]. intros [->|Y]; [congruence|tauto]. }
  destruct (K0 c) as (lc & VC & IC).
  assert (A1 : forall y, ~ (B y \/ In y l') -> at_place h1 y).
  { refine (IH _ _ _ lc (fun y => B y \/ In y l') E1 K0 VC _). intros y NY NI. apply A0; [exact NY|]. intros Q. apply NI, IC. destruct (L0 y) as (QP & _). rewrite QP. exact Q. }
  destruct (K1 c) as (lc1 & VC1 & _).
  assert (A2 : forall y, ~ (B y \/ In y l') -> at_place h2 y).
  { refine (IH _ _ _ lc1 (fun y => B y \/ In y l') E2 K1 VC1 _). intros y NY _. apply A1. exact NY. }
  assert (L : links h h2) by (eapply links_trans; [exact L0|eapply links_trans; eassumption]). assert (NX : ob_next (h2 c) = ob_next (h c)) by apply L.
  refine (IH _ _ _ l' B E3 K2 _ _ x NB).
  - rewrite NX. exact (along_links _ _ L _ _ V').
  - intros y NY NI. apply A2. tauto.
Qed.
Lemma recalc_spec h o : kids h -> (forall x, fin (fun y => ob_parent (h y)) x) -> (forall x, x <> o -> at_place h x) ->
  exists f h', (forall f', (f <= f')%nat -> recalc add f' h o = Ok h') /\ links h h' /\ placed add h'.
Proof.
  intros K F A. unfold recalc. set (h0 := place add h o). assert (L0 : links h h0) by apply place_links. destruct (visit_ends h K o (F o)) as (f & H). destruct (H h0 L0) as (h' & E).
  assert (F0 : ob_first (h0 o) = ob_first (h o)) by apply L0. exists f, h'. split; [intros f' LE; rewrite F0; apply (visit_more _ _ _ _ _ E LE)|]. pose proof (visit_links _ _ _ _ E) as L1. split; [eapply links_trans; eassumption|].
  pose proof (kids_links _ _ L0 K) as K0. destruct (K0 o) as (l & V & I). intros x. refine (visit_places f h0 _ h' l (fun _ => False) E K0 _ _ x (fun q => q)).
  - rewrite <- F0. exact V.
  - intros y _ NI. apply (place_rest h o (fun _ => False)); [intros z NE _; apply A; exact NE|tauto|]. intros Q. apply NI, I. destruct (L0 y) as (QP & _). rewrite QP. exact Q.
Qed.

(** ** One call *)
Record good (h : heap) : Prop := {
  go_shape : shape (fun x => ob_parent (h x)) h;
  go_fin : forall x, fin (fun y => ob_parent (h y)) x;
  go_placed : placed add h }.
Lemma good_tree h : good h -> tree_ok h.
Proof. intros [[S _] _ _]. exact S. Qed.
Lemma shape_kids (h : heap) : shape (fun x => ob_parent (h x)) h -> kids h.
Proof. intros [S _] p. destruct (S p) as (l & V & _ & _ & I). exists l. split; assumption. Qed.
Lemma links_good h h' : links h h' -> shape (fun x => ob_parent (h x)) h -> (forall x, fin (fun y => ob_parent (h y)) x) -> placed add h' -> good h'.
Proof.
  intros L S F PL. split; [| |exact PL].
  - eapply shape_ext; [exact S|intros x; apply L|]. intros x. destruct (L x) as (_ & A & B & C & D & _). repeat split; assumption.
  - intros x. eapply fin_ext; [|apply F]. intros y. apply L.
Qed.
Lemma set_position_good h c p : good h -> exists f h', (forall f', (f <= f')%nat -> set_position add f' h c p = Ok h') /\ good h' /\
  (forall x, ob_parent (h' x) = ob_parent (h x)) /\ (forall x, ob_pos (h' x) = if Nat.eqb x c then p else ob_pos (h x)) /\ (forall q l, visits h q l -> visits h' q l).
Proof.
  intros [S F PL]. unfold set_position. set (h0 := upd h c (set_pos (h c) p)).
  assert (E0 : forall x, ob_parent (h0 x) = ob_parent (h x) /\ ob_first (h0 x) = ob_first (h x) /\ ob_next (h0 x) = ob_next (h x) /\ ob_prev (h0 x) = ob_prev (h x) /\ ob_last (h0 x) = ob_last (h x) /\ ob_abs (h0 x) = ob_abs (h x) /\ ob_pos (h0 x) = if Nat.eqb x c then p else ob_pos (h x)).
  { intros x. unfold h0, upd. destruct (Nat.eqb_spec x c); subst; cbn; repeat split. }
  assert (S0 : shape (fun x => ob_parent (h0 x)) h0).
  { eapply shape_ext; [exact S|intros x; apply E0|]. intros x. destruct (E0 x) as (_ & A & B & C & D & _). repeat split; assumption. }
  assert (F0 : forall x, fin (fun y => ob_parent (h0 y)) x) by (intros x; eapply fin_ext; [|apply F]; intros y; apply E0).
  destruct (recalc_spec h0 c (shape_kids _ S0) F0) as (f & h' & E & L & PL').
  { intros x NE. unfold at_place. destruct (E0 x) as (A & _ & _ & _ & _ & B & C). rewrite A, B, C. destruct (Nat.eqb_spec x c); [contradiction|]. specialize (PL x). rewrite PL.
    destruct (ob_parent (h x)) as [q|]; [|reflexivity]. destruct (E0 q) as (_ & _ & _ & _ & _ & BQ & _). rewrite BQ. reflexivity. }
  exists f, h'. split; [exact E|]. split; [eapply links_good; eassumption|]. split; [|split].
  - intros x. destruct (L x) as (A & _), (E0 x) as (B & _). congruence.
  - intros x. destruct (L x) as (_ & _ & _ & _ & _ & A), (E0 x) as (_ & _ & _ & _ & _ & _ & B). congruence.
  - intros q l V. unfold visits in *. assert (FQ : ob_first (h' q) = ob_first (h q)) by (destruct (L q) as (_ & A & _), (E0 q) as (_ & B & _); congruence). rewrite FQ. eapply along_ext; [exact V|]. intros x _. cbv beta.
    destruct (L x) as (_ & _ & A & _), (E0 x) as (_ & _ & B & _). congruence.
Qed.

Lemma filter_all (l : list nat) c : ~ In c l -> filter (fun x => negb (Nat.eqb x c)) l = l.
Proof.
  induction l as [|x l IH]; intros N; [reflexivity|]. cbn. destruct (Nat.eqb_spec x c) as [->|NE]; [exfalso; apply N; left; reflexivity|]. cbn. f_equal. apply IH. intros I. apply N. right. exact I.
Qed.
Lemma unlink_pos h c o x : ob_pos (unlink h c o x) = ob_pos (h x) /\ ob_abs (unlink (P:=P) h c o x) = ob_abs (h x) .
Proof.
  unfold unlink. destruct o as [o|]; [|auto].
  repeat match goal with |- context [if ?b then _ else _] => destruct b end; repeat match goal with |- context [match ob_prev ?b with _ => _ end] => destruct (ob_prev b) end; unfold upd;
  repeat match goal with |- context [Nat.eqb ?a ?b] => destruct (Nat.eqb_spec a b); subst; cbn end; auto.
Qed.
Lemma link_pos h c o x : ob_pos (link h c o x) = ob_pos (h x) /\ ob_abs (link (P:=P) h c o x) = ob_abs (h x) .
Proof.
  unfold link. destruct o as [o|]; [|auto].
  match goal with |- context [match ob_last ?b with _ => _ end] => destruct (ob_last b) end; unfold upd;
  repeat match goal with |- context [Nat.eqb ?a ?b] => destruct (Nat.eqb_spec a b); subst; cbn end; auto.
Qed.

Lemma set_parent_good h c new : good h -> allowed h (OParent c new) -> exists f h', (forall f', (f <= f')%nat -> set_parent add f' h c new = Ok h') /\ good h' /\
  (forall x, ob_pos (h' x) = ob_pos (h x)) /\ (forall x, ob_parent (h' x) = if Nat.eqb x c then (if same new (Some c) then ob_parent (h x) else new) else ob_parent (h x)) /\
  (forall q l, visits h q l -> visits h' q (children_after h (OParent c new) q l)).
Proof.
  intros G AL. unfold set_parent. cbn [children_after]. destruct (same new (ob_parent (h c))) eqn:Q1; cbn [orb].
  { apply same_eq in Q1. exists O, h. split; [reflexivity|]. split; [exact G|]. split; [reflexivity|]. split; [|auto]. intros x. destruct (Nat.eqb_spec x c); [subst|reflexivity]. destruct (same _ _); congruence. }
  destruct (same new (Some c)) eqn:Q2.
  { exists O, h. split; [reflexivity|]. split; [exact G|]. split; [reflexivity|]. split; [|auto]. intros x. destruct (Nat.eqb_spec x c); [subst|]; reflexivity. }
  apply same_neq in Q1, Q2. destruct AL as [->|[->|[NB ONLY]]]; [contradiction|contradiction|]. destruct G as [S F PL]. set (h0 := upd h c (set_par (h c) new)).
  set (par := fun x => ob_parent (h x)).
  assert (E0 : forall x, ob_first (h0 x) = ob_first (h x) /\ ob_next (h0 x) = ob_next (h x) /\ ob_prev (h0 x) = ob_prev (h x) /\ ob_last (h0 x) = ob_last (h x)) by (intros x; unfold h0, upd; destruct (Nat.eqb_spec x c); subst; cbn; repeat split).
  assert (E1 : forall x, ob_parent (h0 x) = put par c new x) by (intros x; unfold h0, upd, put, par; destruct (Nat.eqb_spec x c); subst; reflexivity).
  assert (E2 : forall x, ob_pos (h0 x) = ob_pos (h x) /\ ob_abs (h0 x) = ob_abs (h x)) by (intros x; unfold h0, upd; destruct (Nat.eqb_spec x c); subst; cbn; auto).
  assert (S0 : shape par h0) by (eapply shape_ext; [exact S|reflexivity|exact E0]).
  assert (V0 : forall q l, visits h q l -> visits h0 q l).
  { intros q l V. unfold visits in *. destruct (E0 q) as (A & _). rewrite A. eapply along_ext; [exact V|]. intros x _. cbv beta. symmetry. apply E0. }
  set (h1 := unlink h0 c (ob_parent (h c))). set (h2 := link h1 c new).
  assert (S1 : shape (put par c None) h1 /\ (forall x, ob_parent (h1 x) = ob_parent (h0 x)) /\ (forall q l, visits h q l -> visits h1 q (filter (fun x => negb (Nat.eqb x c)) l))).
  { unfold h1. destruct (ob_parent (h c)) as [o|] eqn:PC.
    - destruct (unlink_only par h0 c o S0 PC (fun x X => ONLY o eq_refl x X)) as (VO & S1 & _ & _ & VN & VE & PP). split; [exact S1|]. split; [exact PP|]. intros q l V. destruct (Nat.eq_dec q o) as [->|NE].
      + assert (l = [c]) by (eapply along_fun; [exact (V0 _ _ V)|exact VO]). subst l. cbn. rewrite Nat.eqb_refl. exact VE.
      + rewrite filter_all; [apply VN; auto|]. destruct S as [SS _]. destruct (SS q) as (l' & A & _ & _ & D). assert (l = l') by (eapply along_fun; eassumption). subst l'. intros I. apply D in I. congruence.
    - cbn [unlink]. split; [|split; [reflexivity|]].
      + eapply shape_ext; [exact S0| |auto]. intros x. unfold put. destruct (Nat.eqb_spec x c); subst; auto.
      + intros q l V. rewrite filter_all; [auto|]. destruct S as [SS _]. destruct (SS q) as (l' & A & _ & _ & D). assert (l = l') by (eapply along_fun; eassumption). subst l'. intros I. apply D in I. congruence. }
  destruct S1 as (S1 & PP1 & V1).
  assert (S2 : shape (put par c new) h2 /\ (forall x, ob_parent (h2 x) = ob_parent (h0 x)) /\ (forall q l, visits h q l -> visits h2 q (if same new (Some q) then l ++ [c] else filter (fun x => negb (Nat.eqb x c)) l))).
  { unfold h2. destruct new as [n|].
    - destruct (link_free _ h1 c n S1) as (S2 & PP2 & V2); [unfold put; rewrite Nat.eqb_refl; reflexivity|]. split; [|split].
      + eapply shape_ext; [exact S2| |auto]. intros x. unfold put. destruct (Nat.eqb_spec x c); subst; auto.
      + intros x. rewrite PP2. apply PP1.
      + intros q l V. specialize (V2 _ _ (V1 _ _ V)). cbn [same]. rewrite Nat.eqb_sym. destruct (Nat.eqb_spec q n) as [->|]; [|exact V2]. rewrite filter_all in V2; [exact V2|].
        destruct S as [SS _]. destruct (SS n) as (l' & A & _ & _ & D). assert (l = l') by (eapply along_fun; eassumption). subst l'. intros I. apply D in I. congruence.
    - cbn [link same]. split; [exact S1|]. split; [exact PP1|exact V1]. }
  destruct S2 as (S2 & PP2 & V2).
  assert (EP : forall x, ob_parent (h2 x) = put par c new x) by (intros x; rewrite PP2; apply E1).
  assert (S3 : shape (fun x => ob_parent (h2 x)) h2) by (eapply shape_ext; [exact S2|exact EP|auto]).
  assert (F3 : forall x, fin (fun y => ob_parent (h2 y)) x).
  { intros x. eapply fin_ext; [exact EP|]. apply fin_put; [exact F|]. intros n N U. apply (NB n N). apply below_under. exact U. }
  assert (E3 : forall x, ob_pos (h2 x) = ob_pos (h x) /\ ob_abs (h2 x) = ob_abs (h x)).
  { intros x. unfold h2, h1. destruct (link_pos (unlink h0 c (ob_parent (h c))) c new x) as [A B], (unlink_pos h0 c (ob_parent (h c)) x) as [A' B'], (E2 x) as [A'' B'']. split; congruence. }
  destruct (recalc_spec h2 c (shape_kids _ S3) F3) as (f & h' & E & L & PL').
  { intros x NE. unfold at_place. destruct (E3 x) as [A B]. rewrite A, B, EP. unfold put, par. destruct (Nat.eqb_spec x c); [contradiction|]. specialize (PL x). rewrite PL.
    destruct (ob_parent (h x)) as [q|]; [|reflexivity]. destruct (E3 q) as [_ BQ]. rewrite BQ. reflexivity. }
  exists f, h'. split; [exact E|]. split; [eapply links_good; eassumption|]. split; [|split].
  - intros x. destruct (L x) as (_ & _ & _ & _ & _ & A), (E3 x) as (B & _). congruence.
  - intros x. destruct (L x) as (A & _). rewrite A, EP. reflexivity.
  - intros q l V. specialize (V2 _ _ V). unfold visits in *. destruct (L q) as (_ & A & _). rewrite A. eapply along_ext; [exact V2|]. intros x _. cbv beta. symmetry. apply L.
Qed.

(** ** Histories *)
Lemma call_more fuel fuel' h o h' : call add fuel h o = Ok h' -> (fuel <= fuel')%nat -> call add fuel' h o = Ok h'.
Proof.
  intros E LE. destruct o as [c new|c p]; cbn [call] in *; unfold set_parent, set_position, recalc in *.
  - destruct (same new (ob_parent (h c)) || same new (Some c)); [exact E|]. eapply visit_more; eassumption.
  - eapply visit_more; eassumption.
Qed.
Lemma call_good h o : good h -> allowed h o -> exists f h', (forall f', (f <= f')%nat -> call add f' h o = Ok h') /\ good h' /\ (forall q l, visits h q l -> visits h' q (children_after h o q l)) /\
  (forall x, ob_pos (h' x) = match o with OPosition c p => if Nat.eqb x c then p else ob_pos (h x) | OParent _ _ => ob_pos (h x) end) /\
  (forall x, ob_parent (h' x) = match o with OPosition _ _ => ob_parent (h x) | OParent c new => if Nat.eqb x c then (if same new (Some c) then ob_parent (h x) else new) else ob_parent (h x) end).
Proof.
  intros G AL. destruct o as [c new|c p].
  - destruct (set_parent_good h c new G AL) as (f & h' & E & G' & A & B & C). exists f, h'. split; [exact E|]. split; [exact G'|]. split; [exact C|]. split; [exact A|exact B].
  - destruct (set_position_good h c p G) as (f & h' & E & G' & A & B & C). exists f, h'. split; [exact E|]. split; [exact G'|]. split; [exact C|]. split; [exact B|exact A].
Qed.
Lemma call_same fuel h o h1 : good h -> allowed h o -> call add fuel h o = Ok h1 -> good h1 /\ (forall q l, visits h q l -> visits h1 q (children_after h o q l)) /\
  (forall x, ob_pos (h1 x) = match o with OPosition c p => if Nat.eqb x c then p else ob_pos (h x) | OParent _ _ => ob_pos (h x) end) /\
  (forall x, ob_parent (h1 x) = match o with OPosition _ _ => ob_parent (h x) | OParent c new => if Nat.eqb x c then (if same new (Some c) then ob_parent (h x) else new) else ob_parent (h x) end).
Proof.
  intros G AL E. destruct (call_good h o G AL) as (f & h' & E' & R). specialize (E' (Nat.max f fuel) ltac:(lia)). rewrite (call_more fuel (Nat.max f fuel) _ _ _ E) in E' by lia. apply ok_inj in E'. subst h'. exact R.
Qed.
Lemma start_good (pos : nat -> P) : good (fun x => fresh (pos x)).
Proof.
  split.
  - split; [|intros c _; split; reflexivity]. intros p. exists []. split; [constructor|]. split; [constructor|]. split; [constructor|]. intros c. split; [intros []|discriminate].
  - intros x. constructor. intros c C. discriminate.
  - intros x. reflexivity.
Qed.
Lemma reachable_good h : reachable add h -> good h.
Proof. induction 1 as [pos|h fuel o h' _ IH AL E]; [apply start_good|]. exact (proj1 (call_same _ _ _ _ IH AL E)). Qed.
Lemma calls_reachable fuel : forall l h h', reachable add h -> calls add fuel h l = Ok h' -> (forall l1 o l2 h1, l = l1 ++ o :: l2 -> calls add fuel h l1 = Ok h1 -> allowed h1 o) -> reachable add h'.
Proof.
  induction l as [|o l IH]; intros h h' R E A; cbn [calls] in E; [apply ok_inj in E; subst; exact R|]. apply obind_ok_inv in E as (h1 & E1 & E). refine (IH h1 h' _ E _).
  - eapply reachable_call; [exact R| |exact E1]. exact (A [] o l h eq_refl eq_refl).
  - intros l1 o' l2 h2 EL E2. apply (A (o :: l1) o' l2 h2); [cbn; rewrite EL; reflexivity|]. cbn [calls]. rewrite E1. exact E2.
Qed.
End Proofs.
