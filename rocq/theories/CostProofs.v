(** Proofs for [CostProps]. *)
From Verif Require Import Base BaseFacts TreeModel TreeSpec TreeProofs CostModel CostSpec.

Section Proofs.
Variable P : Type.
Variable add : P -> P -> P.
Notation heap := (TreeModel.heap P).
Lemma log_visit fuel : forall (h : heap) cur, visit add fuel h cur = omap fst (visit_log add fuel h cur).
Proof.
  induction fuel as [|fuel IH]; intros h [c|]; try reflexivity. cbn [visit visit_log]. rewrite IH.
  destruct (visit_log add fuel _ _) as [[h1 a]| |]; try reflexivity. cbn [omap obind fst]. rewrite IH.
  destruct (visit_log add fuel _ _) as [[h2 b]| |]; try reflexivity. cbn [omap obind fst]. rewrite IH.
  destruct (visit_log add fuel _ _) as [[h3 d]| |]; reflexivity.
Qed.
Lemma log_more fuel : forall fuel' (h : heap) cur r, visit_log add fuel h cur = Ok r -> (fuel <= fuel')%nat -> visit_log add fuel' h cur = Ok r.
Proof.
  induction fuel as [|fuel IH]; intros fuel' h [c|] r E LE; cbn [visit_log] in E; try discriminate; try (destruct fuel'; exact E).
  destruct fuel' as [|fuel']; [lia|]. cbn [visit_log]. apply obind_ok_inv in E as ([h1 a] & E1 & E). apply obind_ok_inv in E as ([h2 b] & E2 & E). apply obind_ok_inv in E as ([h3 d] & E3 & E).
  rewrite (IH fuel' _ _ _ E1) by lia. cbn [obind]. rewrite (IH fuel' _ _ _ E2) by lia. cbn [obind]. rewrite (IH fuel' _ _ _ E3) by lia. exact E.
Qed.
Lemma log_links fuel (h : heap) cur h' l : visit_log add fuel h cur = Ok (h', l) -> links P h h'.
Proof. intros E. apply (visit_links P add fuel h cur). rewrite log_visit, E. reflexivity. Qed.

Notation par h := (fun y => ob_parent (h y)).
Lemma deep_top (h : heap) x y d : deep h x y (S d) -> exists c, ob_parent (h c) = Some x /\ deep h c y d.
Proof.
  remember (S d) as k eqn:K. intros D. revert d K. induction D as [|z y' k E D IH]; intros d K; [discriminate|]. injection K as ->. destruct d as [|d].
  - inversion D. subst. exists z. split; [exact E|constructor].
  - destruct (IH d eq_refl) as (c & Ec & Dc). exists c. split; [exact Ec|]. econstructor; eassumption.
Qed.
Lemma deep_join (h : heap) x c y d : ob_parent (h c) = Some x -> deep h c y d -> deep h x y (S d).
Proof. intros E D. induction D as [|z y' k E' D IH]; [econstructor; [exact E|constructor]|]. econstructor; eassumption. Qed.
Lemma deep_trans (h : heap) a b d : deep h a b d -> forall c e, deep h b c e -> deep h a c (e + d).
Proof. intros D c e D2. induction D2 as [|z y' k E' D2 IH]; [exact D|]. cbn. econstructor; eassumption. Qed.
Lemma fin_self (h : heap) x : fin (par h) x -> forall d, ~ deep h x x (S d).
Proof.
  induction 1 as [x _ IH]. intros d D. destruct (deep_top _ _ _ _ D) as (c & E & Dc).
  apply (IH c E d). replace (S d) with (1 + d) by reflexivity. apply (deep_trans h c x d Dc c 1). econstructor; [exact E|constructor].
Qed.
Lemma deep_two (h : heap) a y d : deep h a y d -> forall b e, deep h b y e -> (exists k, deep h a b k) \/ exists k, deep h b a k.
Proof.
  induction 1 as [|z y' k E D IH]; intros b e D2; [right; eauto|]. inversion D2 as [|? w e' E2 D3]; subst.
  - left. exists (S k). econstructor; eassumption.
  - assert (w = y') by congruence. subst. exact (IH b e' D3).
Qed.
Lemma one_child (h : heap) x c c' y d e : (forall z, fin (par h) z) -> ob_parent (h c) = Some x -> ob_parent (h c') = Some x -> deep h c y d -> deep h c' y e -> c = c'.
Proof.
  intros F E E' D D'. assert (W : forall a b k, ob_parent (h a) = Some x -> ob_parent (h b) = Some x -> deep h a b k -> a = b).
  { intros a b k Ea Eb K. inversion K as [|? z k' Ez K']; subst; [reflexivity|]. exfalso. assert (z = x) by congruence. subst.
    apply (fin_self h x (F x) k'). apply (deep_join h x a x k' Ea K'). }
  destruct (deep_two h c y d D c' e D') as [[k K]|[k K]]; [exact (W _ _ _ E E' K)|symmetry; exact (W _ _ _ E' E K)].
Qed.
Lemma deep_fun (h : heap) x y d : (forall z, fin (par h) z) -> deep h x y d -> forall e, deep h x y e -> d = e.
Proof.
  intros F. induction 1 as [|z y' k E D IH]; intros e D2; inversion D2 as [|? w e' E2 D3]; subst; auto.
  - exfalso. eapply fin_self; [apply F|exact D2].
  - exfalso. eapply fin_self; [apply F|]. econstructor; eassumption.
  - assert (w = y') by congruence. subst. f_equal. auto.
Qed.

Notation count l x := (count_occ Nat.eq_dec l x).
Definition counted (h : heap) (x : nat) (log : list nat) : Prop :=
  forall y, (forall d, deep h x y (S d) -> count log y = 2 ^ d) /\ ((forall d, ~ deep h x y (S d)) -> count log y = 0).
Lemma visit_counts (h : heap) : tree_ok h -> (forall z, fin (par h) z) -> forall x, fin (par h) x ->
  exists f, forall h', links P h h' -> exists h'' log, visit_log add f h' (ob_first (h x)) = Ok (h'', log) /\ counted h x log.
Proof.
  intros K F x. induction 1 as [x _ IH]. destruct (K x) as (l & V & _ & N & I). unfold visits in V.
  assert (IH' : forall c, In c l -> exists f, forall h', links P h h' -> exists h'' log, visit_log add f h' (ob_first (h c)) = Ok (h'', log) /\ counted h c log) by (intros c C; apply IH, I, C). clear IH.
  assert (G : exists f, forall h', links P h h' -> exists h'' log, visit_log add f h' (ob_first (h x)) = Ok (h'', log) /\
     forall y, (forall c d, In c l -> deep h c y d -> count log y = 2 ^ d) /\ ((forall c d, In c l -> ~ deep h c y d) -> count log y = 0)).
  { assert (Q : forall c, In c l -> ob_parent (h c) = Some x) by (intros c; apply I). clear I. revert V. generalize (ob_first (h x)). induction l as [|c l IHl]; intros a V; inversion V as [|? ? V']; subst.
    - exists 0. intros h' _. eexists. eexists. split; [reflexivity|]. intros y. split; [intros c d []|reflexivity].
    - inversion N as [|? ? N1 N2]. subst.
      destruct (IH' c ltac:(left; reflexivity)) as (f1 & H1). destruct (IHl N2 (fun y Y => IH' y (or_intror Y)) (fun y Y => Q y (or_intror Y)) _ V') as (f2 & H2).
      exists (S (Nat.max f1 f2)). intros h' L. cbn [visit_log]. set (h0 := place add h' c). assert (L0 : links P h h0) by (eapply links_trans; [exact L|apply place_links]).
      assert (F0 : ob_first (h0 c) = ob_first (h c)) by apply L0. destruct (H1 h0 L0) as (h1 & la & E1 & C1). rewrite F0. rewrite (log_more _ (Nat.max f1 f2) _ _ _ E1) by lia. cbn [obind].
      assert (L1 : links P h h1) by (eapply links_trans; [exact L0|exact (log_links _ _ _ _ _ E1)]). assert (F1 : ob_first (h1 c) = ob_first (h c)) by apply L1. rewrite F1.
      destruct (H1 h1 L1) as (h2 & lb & E2 & C2). rewrite (log_more _ (Nat.max f1 f2) _ _ _ E2) by lia. cbn [obind]. assert (L2 : links P h h2) by (eapply links_trans; [exact L1|exact (log_links _ _ _ _ _ E2)]).
      assert (F2 : ob_next (h2 c) = ob_next (h c)) by apply L2. rewrite F2. destruct (H2 h2 L2) as (h3 & ld & E3 & C3). rewrite (log_more _ (Nat.max f1 f2) _ _ _ E3) by lia. cbn [obind].
      exists h3, (c :: la ++ lb ++ ld). split; [reflexivity|]. intros y.
      assert (CC : count (c :: la ++ lb ++ ld) y = (if Nat.eq_dec c y then 1 else 0) + count la y + count lb y + count ld y).
      { cbn [count_occ]. rewrite !count_occ_app. destruct (Nat.eq_dec c y); lia. }
      rewrite CC. destruct (C1 y) as [A1 A2], (C2 y) as [B1 B2], (C3 y) as [D1 D2]. split.
      + intros c' d [<-|I'] D.
        * assert (Z3 : count ld y = 0). { apply D2. intros c' e I' D'. apply N1. rewrite (one_child h x c c' y d e F (Q c (or_introl eq_refl)) (Q c' (or_intror I')) D D'). exact I'. }
          destruct d as [|d].
          -- inversion D. subst. rewrite A2 by (apply fin_self, F). rewrite B2 by (apply fin_self, F). destruct (Nat.eq_dec y y); [cbn; lia|congruence].
          -- rewrite (A1 d D), (B1 d D), Z3. destruct (Nat.eq_dec c y) as [->|]; [exfalso; exact (fin_self h y (F y) d D)|]. cbn [Nat.pow]. lia.
        * assert (NC : forall e, ~ deep h c y e). { intros e D'. apply N1. rewrite (one_child h x c c' y e d F (Q c (or_introl eq_refl)) (Q c' (or_intror I')) D' D). exact I'. }
          rewrite (A2 (fun e => NC (S e))), (B2 (fun e => NC (S e))), (D1 c' d I' D). destruct (Nat.eq_dec c y) as [->|]; [exfalso; apply (NC 0); constructor|]. lia.
      + intros ND. rewrite A2 by (intros e; apply ND; left; reflexivity). rewrite B2 by (intros e; apply ND; left; reflexivity). rewrite D2 by (intros c' e I'; apply ND; right; exact I').
        destruct (Nat.eq_dec c y) as [->|]; [exfalso; apply (ND y 0); [left; reflexivity|constructor]|]. reflexivity. }
  destruct G as (f & G). exists f. intros h' L. destruct (G h' L) as (h'' & log & E & C). exists h'', log. split; [exact E|]. intros y. destruct (C y) as [C1 C2]. split.
  - intros d D. destruct (deep_top h x y d D) as (c & Ec & Dc). apply (C1 c); [apply I; exact Ec|exact Dc].
  - intros ND. apply C2. intros c d Ic D. apply (ND d). apply (deep_join h x c y d); [apply I; exact Ic|exact D].
Qed.
End Proofs.

(** Objects one below the other. *)
Lemma chain_reachable n : exists h, reachable Z.add h /\ forall x, ob_parent (h x) = if (1 <=? x) && (x <=? n) then Some (x - 1) else None.
Proof.
  induction n as [|n (h & R & H)].
  - exists (fun _ => fresh 0%Z). split; [apply (reachable_start _ _ (fun _ => 0%Z))|]. intros [|x]; reflexivity.
  - assert (A : allowed h (OParent (S n) (Some n))).
    { right. right. assert (NP : ob_parent (h (S n)) = None). { rewrite H. destruct (Nat.leb_spec (S n) n); [lia|]. rewrite andb_false_r. reflexivity. }
      split; [|intros old E; congruence]. intros k [= <-] B.
      assert (W : forall x, below h (S n) x -> x = S n).
      { intros x Q. induction Q as [|x y PX Q IH]; [reflexivity|]. subst. rewrite H in PX. destruct ((1 <=? x) && (x <=? n)) eqn:E; [|discriminate]. injection PX as PX. lia. }
      specialize (W n B). lia. }
    destruct (call_good Z Z.add h _ (reachable_good _ _ _ R) A) as (f & h' & E & _ & _ & _ & PA). specialize (E f (le_n f)). exists h'.
    split; [exact (reachable_call _ _ h f _ h' R A E)|]. intros x. rewrite PA. cbn [same].
    assert (NP : same (Some n) (ob_parent (h (S n))) = false). { rewrite H. destruct (Nat.leb_spec (S n) n); [lia|]. rewrite andb_false_r. reflexivity. }
    destruct (Nat.eqb_spec x (S n)) as [->|NE].
    + try rewrite NP. destruct (Nat.eqb_spec n (S n)); [lia|]. cbn [orb]. replace ((1 <=? S n) && (S n <=? S n)) with true by (symmetry; apply andb_true_intro; split; apply Nat.leb_le; lia). f_equal. lia.
    + rewrite H. destruct (Nat.leb_spec x n), (Nat.leb_spec x (S n)); try lia; reflexivity.
Qed.
