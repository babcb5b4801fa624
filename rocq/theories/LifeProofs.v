(** Proofs for [LifeProps]. *)
From Verif Require Import Base BaseFacts LifeModel LifeSpec.
Set Implicit Arguments.
Unset Strict Implicit.

(* ---- memory ---- *)
Lemma nth_list_set_case {A} (l : list A) i x j : nth_error (list_set l i x) j = if ((j =? i) && (i <? length l))%nat then Some x else nth_error l j.
Proof.
  destruct (Nat.eqb_spec j i) as [->|N]; cbn [andb].
  - destruct (Nat.ltb_spec i (length l)); [apply nth_error_list_set_same; assumption|].
    rewrite (proj2 (nth_error_None _ _)) by (rewrite length_list_set; lia). symmetry. apply nth_error_None. lia.
  - apply nth_error_list_set_other. congruence.
Qed.
Lemma look_lt m o n : look m o = Some n -> o < length (objs m).
Proof. unfold look. destruct (nth_error (objs m) o) eqn:E; [|discriminate]. intros _. apply nth_error_Some. congruence. Qed.
Lemma look_store m o v x : o < length (objs m) -> look (store m o v) x = if x =? o then v else look m x.
Proof.
  intros L. unfold look, store. cbn. rewrite nth_list_set_case. rewrite (proj2 (Nat.ltb_lt _ _) L), andb_true_r.
  destruct (x =? o); [destruct v|]; reflexivity.
Qed.
Lemma same_eq a b : same a b = true <-> a = b.
Proof. destruct a, b; cbn; split; intros H; try discriminate; try reflexivity; [apply Nat.eqb_eq in H; congruence|inversion H; apply Nat.eqb_refl]. Qed.

Lemma points_pos o n : 0 < points o n <-> exists k, n = Some k /\ (n_first k = Some o \/ n_next k = Some o).
Proof.
  destruct n as [k|]; cbn.
  - destruct (same (n_first k) (Some o)) eqn:E1, (same (n_next k) (Some o)) eqn:E2; split; try lia; intros H.
    + exists k. apply same_eq in E1. auto.
    + exists k. apply same_eq in E1. auto.
    + exists k. apply same_eq in E2. auto.
    + destruct H as (k' & [= <-] & [H|H]); apply same_eq in H; congruence.
  - split; [lia|]. intros (k & [=] & _).
Qed.
Lemma sum_pos {A} (f : A -> nat) l : 0 < list_sum (map f l) <-> exists x, In x l /\ 0 < f x.
Proof.
  induction l as [|x l IH]; cbn.
  - split; [lia|]. intros (x & [] & _).
  - split.
    + intros H. destruct (Nat.eq_dec (f x) 0) as [E|E].
      * destruct (proj1 IH) as (y & I & P). { change (fold_right Nat.add 0 (map f l)) with (list_sum (map f l)) in H. lia. } exists y. auto.
      * exists x. split; [auto|lia].
    + intros (y & [<-|I] & P); [lia|]. change (fold_right Nat.add 0 (map f l)) with (list_sum (map f l)).
      assert (0 < list_sum (map f l)) by (apply IH; eauto). lia.
Qed.
Lemma uses_pos m o : 0 < uses m o <-> In o (held m) \/ exists a, leads m a o.
Proof.
  unfold uses. split.
  - intros H. destruct (in_dec Nat.eq_dec o (held m)) as [I|I]; [auto|]. right.
    rewrite (proj1 (count_occ_not_In _ _ _) I) in H. apply sum_pos in H. destruct H as (x & I1 & P).
    apply points_pos in P. destruct P as (k & -> & Q). apply In_nth_error in I1. destruct I1 as [a Ha]. exists a, k.
    unfold look. rewrite Ha. auto.
  - intros [I|(a & k & L & Q)].
    + apply (count_occ_In Nat.eq_dec) in I. lia.
    + assert (0 < list_sum (map (points o) (objs m))); [|lia]. apply sum_pos.
      unfold look in L. destruct (nth_error (objs m) a) as [[k'|]|] eqn:E; [|discriminate L|discriminate L].
      exists (Some k'). split; [eapply nth_error_In; exact E|]. apply points_pos. exists k'. split; [reflexivity|]. congruence.
Qed.

Definition valid (m : mem) : Prop := (forall o, In o (held m) -> alive m o) /\ (forall a b, leads m a b -> alive m b).
Definition tight (m : mem) : Prop := forall o, alive m o -> In o (held m) \/ exists a, leads m a o.

Definition number (m : mem) : nat := list_sum (map (fun n : option node => match n with Some _ => 1 | None => 0 end) (objs m)).
Lemma sum_set {A} (f : A -> nat) l : forall i x y, nth_error l i = Some y -> list_sum (map f (list_set l i x)) + f y = list_sum (map f l) + f x.
Proof.
  induction l as [|z l IH]; intros [|i] x y H; cbn [nth_error] in H; try discriminate; cbn [list_set map].
  - injection H as ->. change (list_sum (?a :: ?b)) with (a + list_sum b). lia.
  - specialize (IH i x y H). change (list_sum (f z :: ?b)) with (f z + list_sum b). lia.
Qed.
Lemma number_kill m o n : look m o = Some n -> number (store m o None) + 1 = number m.
Proof.
  unfold look, number, store. cbn [objs]. intros H. destruct (nth_error (objs m) o) as [[k|]|] eqn:E; try discriminate.
  pose proof (@sum_set _ (fun n : option node => match n with Some _ => 1 | None => 0 end) (objs m) o None (Some k) E) as X. cbn beta iota in X. lia.
Qed.
Lemma number_le m : number m <= length (objs m).
Proof.
  unfold number. generalize (objs m). intros l. induction l as [|x l IH]; [cbn; lia|].
  cbn [map length]. change (list_sum (?a :: ?b)) with (a + list_sum b). destruct x; lia.
Qed.

Lemma collect_spec : forall k m, number m <= k -> valid m ->
  valid (collect k m) /\ tight (collect k m) /\ held (collect k m) = held m /\ length (objs (collect k m)) = length (objs m) /\
  forall o n, look (collect k m) o = Some n -> look m o = Some n.
Proof.
  induction k as [|k IH]; intros m N V.
  - cbn. split; [exact V|]. split; [|auto]. intros o H. exfalso. unfold alive in H. destruct (look m o) eqn:E; [|congruence].
    pose proof (number_kill E). lia.
  - cbn [collect]. destruct (find (unused m) (seq 0 (length (objs m)))) as [o|] eqn:F.
    + apply find_some in F. destruct F as [I U]. unfold unused in U. destruct (look m o) as [n|] eqn:L; [|discriminate].
      apply Nat.eqb_eq in U. apply in_seq in I.
      assert (Z : ~ (In o (held m) \/ exists a, leads m a o)). { intros H. apply uses_pos in H. lia. }
      assert (LS : forall x, look (store m o None) x = if x =? o then None else look m x) by (intros; apply look_store; lia).
      assert (V' : valid (store m o None)).
      { split.
        - intros x H. cbn in H. unfold alive. rewrite LS. destruct (Nat.eqb_spec x o); [subst; exfalso; auto|]. apply V. exact H.
        - intros a b (k' & H & Q). rewrite LS in H. destruct (Nat.eqb_spec a o); [discriminate|].
          assert (B : leads m a b) by (exists k'; auto). unfold alive. rewrite LS. destruct (Nat.eqb_spec b o); [subst; exfalso; eauto|].
          exact (proj2 V a b B). }
      pose proof (number_kill L) as NK. destruct (IH (store m o None) ltac:(lia) V') as (A & B & C & D & E).
      split; [exact A|]. split; [exact B|]. split; [rewrite C; reflexivity|]. split; [rewrite D; cbn; apply length_list_set|].
      intros x y H. apply E in H. rewrite LS in H. destruct (x =? o); [discriminate|exact H].
    + split; [exact V|]. split; [|auto]. intros o H. unfold alive in H. destruct (look m o) as [n|] eqn:L; [|congruence].
      pose proof (find_none _ _ F o) as X. unfold unused in X. rewrite L in X.
      assert (I : In o (seq 0 (length (objs m)))) by (apply in_seq; pose proof (look_lt L); lia).
      specialize (X I). apply Nat.eqb_neq in X. apply uses_pos. lia.
Qed.
Lemma settle_spec m : valid m -> valid (settle m) /\ tight (settle m) /\ held (settle m) = held m /\ length (objs (settle m)) = length (objs m) /\
  forall o n, look (settle m) o = Some n -> look m o = Some n.
Proof. intros V. apply collect_spec; [apply number_le|exact V]. Qed.
Lemma settle_id m : tight m -> settle m = m.
Proof.
  intros T. unfold settle. destruct (length (objs m)) as [|k] eqn:E; [reflexivity|]. cbn [collect].
  destruct (find (unused m) (seq 0 (length (objs m)))) as [o|] eqn:F; [|reflexivity].
  apply find_some in F. destruct F as [_ U]. unfold unused in U. destruct (look m o) as [n|] eqn:L; [|discriminate].
  apply Nat.eqb_eq in U. assert (0 < uses m o); [|lia]. apply uses_pos. apply T. unfold alive. congruence.
Qed.

(* ---- steps keep memory valid ---- *)
Lemma read_ok m o n : read m o = Ok n <-> look m o = Some n.
Proof. unfold read. destruct (look m o); split; intros H; inversion H; reflexivity. Qed.
Lemma keep_valid m o : valid m -> alive m o -> valid (keep m o).
Proof. intros [A B] L. split; [|exact B]. intros x [<-|I]; [exact L|apply A; exact I]. Qed.
Lemma without_in l o x : In x (without l o) -> In x l.
Proof. induction l as [|y l IH]; [auto|]. cbn. destruct (y =? o); [auto|]. intros [<-|I]; auto. Qed.
Lemma release_spec m o : valid m -> valid (release m o) /\ tight (release m o) /\ held (release m o) = without (held m) o /\
  length (objs (release m o)) = length (objs m) /\ forall x n, look (release m o) x = Some n -> look m x = Some n.
Proof.
  intros V. unfold release. apply (@settle_spec {| objs := objs m; held := without (held m) o |}).
  destruct V as [A B]. split; [intros x I; cbn in I; apply without_in in I; exact (A x I)|exact B].
Qed.
Lemma edit_spec m o f m' : valid m -> edit m o f = Ok m' ->
  (forall n b, look m o = Some n -> n_first (f n) = Some b \/ n_next (f n) = Some b -> alive m b) ->
  valid m' /\ tight m' /\ held m' = held m /\ length (objs m') = length (objs m).
Proof.
  intros V H Q. unfold edit in H. apply obind_ok_inv in H. destruct H as (n & R & [= <-]). apply read_ok in R.
  pose proof (look_lt R) as L.
  assert (V' : valid (store m o (Some (f n)))).
  { assert (KEEP : forall x, alive m x -> alive (store m o (Some (f n))) x).
    { intros x A. unfold alive in *. rewrite look_store by exact L. destruct (x =? o); [discriminate|exact A]. }
    split.
    - intros x I. apply KEEP. apply V. exact I.
    - intros a b (k & E & W). rewrite look_store in E by exact L. apply KEEP. destruct (Nat.eqb_spec a o); [injection E as <-; eauto|].
      apply (proj2 V a b). exists k. auto. }
  destruct (settle_spec V') as (A & B & C & D & _). split; [exact A|]. split; [exact B|]. split; [rewrite C; reflexivity|].
  rewrite D. cbn. apply length_list_set.
Qed.
(** An edit of a living object works. *)
Lemma edit_some m o f : alive m o -> exists m', edit m o f = Ok m'.
Proof. unfold alive, edit, read. destruct (look m o); [|congruence]. intros _. cbn. eauto. Qed.
Lemma edit_reads m o f m' : edit m o f = Ok m' -> alive m o.
Proof. unfold edit. intros H. apply obind_ok_inv in H. destruct H as (n & R & _). apply read_ok in R. unfold alive. congruence. Qed.
Lemma lock_some m w o : lock m w = Some o -> w = Some o /\ alive m o.
Proof. unfold lock, alive. destruct w as [x|]; [|discriminate]. destruct (look m x) eqn:E; [|discriminate]. intros [= <-]. split; congruence. Qed.
Lemma without_cons l o : without (o :: l) o = l.
Proof. cbn. rewrite Nat.eqb_refl. reflexivity. Qed.

Definition good (m : mem) := valid m /\ tight m.
Lemma good_next m c n b : valid m -> look m c = Some n -> n_next n = Some b -> alive m b.
Proof. intros [_ V] L E. apply (V c). exists n. auto. Qed.
Lemma good_first m c n b : valid m -> look m c = Some n -> n_first n = Some b -> alive m b.
Proof. intros [_ V] L E. apply (V c). exists n. auto. Qed.

(** Any outcome is good; with the pointers held there is one. *)
Lemma kept_edit m q f : good m -> alive m q ->
  (forall n b, look m q = Some n -> n_first (f n) = Some b \/ n_next (f n) = Some b -> alive m b) ->
  exists m', (do m <- edit (keep m q) q f; Ok (release m q)) = Ok m' /\ good m' /\ held m' = held m /\ length (objs m') = length (objs m).
Proof.
  intros [V T] A Q. pose proof (keep_valid V A) as VK. destruct (@edit_some (keep m q) q f A) as [m1 E]. rewrite E. cbn.
  destruct (@edit_spec _ _ _ _ VK E) as (V1 & T1 & H1 & N1). { exact Q. }
  destruct (@release_spec m1 q V1) as (V2 & T2 & H2 & N2 & _). exists (release m1 q). split; [reflexivity|]. split; [split; assumption|].
  split; [rewrite H2, H1; apply without_cons|rewrite N2, N1; reflexivity].
Qed.

Lemma unlink_good m c old m' : good m -> unlink m c old = Ok m' -> good m' /\ held m' = held m /\ length (objs m') = length (objs m).
Proof.
  intros G H. destruct old as [o|]; [|cbn in H; injection H as <-; auto]. unfold unlink in H.
  apply obind_ok_inv in H. destruct H as (p & Rp & H). apply obind_ok_inv in H. destruct H as (m1 & H1 & H).
  apply obind_ok_inv in H1. destruct H1 as (me & Rm & H1). apply read_ok in Rp, Rm.
  assert (G1 : good m1 /\ held m1 = held m /\ length (objs m1) = length (objs m)).
  { destruct (same (n_first p) (Some c)).
    - destruct (@edit_spec _ _ _ _ (proj1 G) H1) as (A & B & C & D); [|split; [split|]; auto].
      intros n b L [W|W]; cbn in W; [eapply good_next; [apply G|exact Rm|exact W]|eapply good_next; [apply G|exact L|exact W]].
    - destruct (lock m (n_prev me)) as [q|] eqn:LK; [|injection H1 as <-; auto]. apply lock_some in LK. destruct LK as [_ Aq].
      destruct (@kept_edit m q (fun n => set_next n (n_next me)) G Aq) as (m2 & E & G2 & HH).
      + intros n b L [W|W]; cbn in W; [eapply good_first; [apply G|exact L|exact W]|eapply good_next; [apply G|exact Rm|exact W]].
      + rewrite E in H1. injection H1 as <-. auto. }
  destruct G1 as (G1 & HD & LN). apply obind_ok_inv in H. destruct H as (p' & Rp' & H). apply read_ok in Rp'.
  destruct (same (lock m1 (n_last p')) (Some c)); [|injection H as <-; auto].
  apply obind_ok_inv in H. destruct H as (me' & Rm' & H). apply read_ok in Rm'.
  destruct (@edit_spec _ _ _ _ (proj1 G1) H) as (A & B & C & D).
  - intros n b L [W|W]; cbn in W; [eapply good_first; [apply G1|exact L|exact W]|eapply good_next; [apply G1|exact L|exact W]].
  - split; [split; assumption|]. split; congruence.
Qed.
Lemma link_good m c new m' : good m -> link m c new = Ok m' -> good m' /\ held m' = held m /\ length (objs m') = length (objs m).
Proof.
  intros G H. destruct new as [o|]; [|cbn in H; injection H as <-; auto]. unfold link in H.
  apply obind_ok_inv in H. destruct H as (p & Rp & H). apply obind_ok_inv in H. destruct H as (m1 & H1 & H).
  apply obind_ok_inv in H. destruct H as (me & Rm & H). apply obind_ok_inv in H. destruct H as (m2 & H2 & H). apply read_ok in Rp, Rm.
  destruct (@edit_spec _ _ _ _ (proj1 G) H1) as (V1 & T1 & E1 & N1).
  { intros n b L [W|W]; cbn in W; [eapply good_first; [apply G|exact L|exact W]|eapply good_next; [apply G|exact L|exact W]]. }
  assert (AC : alive m1 c) by (unfold alive; congruence).
  assert (G2 : good m2 /\ held m2 = held m1 /\ length (objs m2) = length (objs m1)).
  { destruct (lock m1 (n_last p)) as [q|] eqn:LK.
    - apply lock_some in LK. destruct LK as [_ Aq].
      destruct (@kept_edit m1 q (fun n => set_next n (Some c)) (conj V1 T1) Aq) as (m3 & E & G2 & HH).
      + intros n b L [W|W]; cbn in W; [eapply good_first; [apply V1|exact L|exact W]|injection W as <-; exact AC].
      + rewrite E in H2. injection H2 as <-. auto.
    - destruct (@edit_spec _ _ _ _ V1 H2) as (A & B & C & D); [|split; [split|]; auto].
      intros n b L [W|W]; cbn in W; [injection W as <-; exact AC|eapply good_next; [apply V1|exact L|exact W]]. }
  destruct G2 as (G2 & E2 & N2). destruct (@edit_spec _ _ _ _ (proj1 G2) H) as (A & B & C & D).
  - intros n b L [W|W]; cbn in W; [eapply good_first; [apply G2|exact L|exact W]|eapply good_next; [apply G2|exact L|exact W]].
  - split; [split; assumption|]. split; congruence.
Qed.
Lemma set_parent_good m c new m' : good m -> set_parent m c new = Ok m' -> good m' /\ held m' = held m /\ length (objs m') = length (objs m).
Proof.
  intros G H. unfold set_parent in H. apply obind_ok_inv in H. destruct H as (me & Rm & H).
  destruct (same new (lock m (n_parent me)) || same new (Some c)); [injection H as <-; auto|].
  apply obind_ok_inv in H. destruct H as (x & _ & H). set (old := lock m (n_parent me)) in *.
  set (m0 := match old with Some o => keep m o | None => m end) in *.
  assert (V0 : valid m0). { unfold m0, old. destruct (lock m (n_parent me)) eqn:LK; [|apply G]. apply lock_some in LK. apply keep_valid; [apply G|apply LK]. }
  apply obind_ok_inv in H. destruct H as (m1 & H1 & H). apply obind_ok_inv in H. destruct H as (m2 & H2 & H).
  apply obind_ok_inv in H. destruct H as (m3 & H3 & H). apply obind_ok_inv in H. destruct H as (y & _ & H). injection H as <-.
  destruct (@edit_spec _ _ _ _ V0 H1) as (V1 & T1 & E1 & N1).
  { intros n b L [W|W]; cbn in W; [eapply good_first; [exact V0|exact L|exact W]|eapply good_next; [exact V0|exact L|exact W]]. }
  destruct (@unlink_good _ _ _ _ (conj V1 T1) H2) as (G2 & E2 & N2). destruct (@link_good _ _ _ _ G2 H3) as (G3 & E3 & N3).
  assert (EH : held m3 = held m0) by congruence. assert (EN : length (objs m3) = length (objs m)). { rewrite N3, N2, N1. unfold m0. destruct old; reflexivity. }
  unfold m0 in EH. destruct old as [o|].
  - destruct (@release_spec m3 o (proj1 G3)) as (A & B & C & D & _). split; [split; assumption|]. split; [|congruence].
    rewrite C, EH. apply without_cons.
  - auto.
Qed.
(** With the object and its new parent held nothing that is gone is used. *)
Lemma held_alive m o : valid m -> In o (held m) -> alive m o.
Proof. intros [A _] I. auto. Qed.
Lemma alive_read m o : alive m o -> exists n, read m o = Ok n /\ look m o = Some n.
Proof. unfold alive, read. destruct (look m o); [eauto|congruence]. Qed.
Lemma obind_Ok {A B} (a : A) (f : A -> outcome B) : obind (Ok a) f = f a.
Proof. reflexivity. Qed.
Lemma set_parent_works m c new : good m -> In c (held m) -> (forall p, new = Some p -> In p (held m)) -> exists m', set_parent m c new = Ok m'.
Proof.
  intros G Hc Hn. unfold set_parent. destruct (@alive_read m c (held_alive (proj1 G) Hc)) as (me & R & _). rewrite R. rewrite obind_Ok.
  destruct (same new (lock m (n_parent me)) || same new (Some c)); [eauto|].
  assert (R2 : exists x, (match new with Some n => read m n | None => Ok me end) = Ok x).
  { destruct new as [p|]; [|eauto]. destruct (@alive_read m p) as (x & Rx & _); [apply held_alive; [apply G|auto]|eauto]. }
  destruct R2 as [x ->]. rewrite obind_Ok. set (old := lock m (n_parent me)) in *. set (m0 := match old with Some o => keep m o | None => m end) in *.
  assert (V0 : valid m0). { unfold m0, old. destruct (lock m (n_parent me)) eqn:LK; [|apply G]. apply lock_some in LK. apply keep_valid; [apply G|apply LK]. }
  assert (H0 : forall y, In y (held m) -> In y (held m0)). { unfold m0. destruct old; cbn; auto. }
  assert (HO : forall o, old = Some o -> In o (held m0)). { unfold m0. intros o ->. cbn. auto. }
  destruct (@edit_some m0 c (fun me => set_par me new) (held_alive V0 (H0 _ Hc))) as [m1 E1]. rewrite E1. rewrite obind_Ok.
  destruct (@edit_spec _ _ _ _ V0 E1) as (V1 & T1 & K1 & _).
  { intros n b L [W|W]; cbn in W; [eapply good_first; [exact V0|exact L|exact W]|eapply good_next; [exact V0|exact L|exact W]]. }
  assert (G1 : good m1) by (split; assumption).
  assert (U : exists m2, unlink m1 c old = Ok m2).
  { destruct old as [o|]; [|cbn; eauto]. unfold unlink.
    destruct (@alive_read m1 o) as (p & Rp & Lp); [apply held_alive; [exact V1|rewrite K1; auto]|]. rewrite Rp. rewrite obind_Ok.
    destruct (@alive_read m1 c) as (me1 & Rm & Lm); [apply held_alive; [exact V1|rewrite K1; auto]|]. rewrite Rm. rewrite obind_Ok.
    assert (X : exists m2, (if same (n_first p) (Some c) then edit m1 o (fun n => set_first n (n_next me1))
         else match lock m1 (n_prev me1) with
              | Some q => do m <- edit (keep m1 q) q (fun n => set_next n (n_next me1)); Ok (release m q)
              | None => Ok m1 end) = Ok m2 /\ good m2 /\ held m2 = held m1).
    { destruct (same (n_first p) (Some c)).
      - destruct (@edit_some m1 o (fun n => set_first n (n_next me1))) as [m2 E2]; [unfold alive; congruence|]. exists m2. split; [exact E2|].
        destruct (@edit_spec _ _ _ _ V1 E2) as (A & B & C & D); [|split; [split|]; auto].
        intros n b L [W|W]; cbn in W; [eapply good_next; [exact V1|exact Lm|exact W]|eapply good_next; [exact V1|exact L|exact W]].
      - destruct (lock m1 (n_prev me1)) as [q|] eqn:LK; [|exists m1; auto]. apply lock_some in LK. destruct LK as [_ Aq].
        destruct (@kept_edit m1 q (fun n => set_next n (n_next me1)) G1 Aq) as (m2 & E & G2 & HH & _).
        + intros n b L [W|W]; cbn in W; [eapply good_first; [exact V1|exact L|exact W]|eapply good_next; [exact V1|exact Lm|exact W]].
        + exists m2. auto. }
    destruct X as (m2 & -> & G2 & K2). rewrite obind_Ok.
    destruct (@alive_read m2 o) as (p2 & Rp2 & _); [apply held_alive; [apply G2|rewrite K2, K1; auto]|]. rewrite Rp2. rewrite obind_Ok.
    destruct (same (lock m2 (n_last p2)) (Some c)); [|eauto].
    destruct (@alive_read m2 c) as (me2 & Rm2 & _); [apply held_alive; [apply G2|rewrite K2, K1; auto]|]. rewrite Rm2. rewrite obind_Ok.
    apply edit_some. apply held_alive; [apply G2|rewrite K2, K1; auto]. }
  destruct U as [m2 U]. rewrite U. rewrite obind_Ok. destruct (@unlink_good _ _ _ _ G1 U) as (G2 & K2 & _).
  assert (L : exists m3, link m2 c new = Ok m3).
  { destruct new as [n|]; [|cbn; eauto]. unfold link.
    assert (HN : In n (held m2)) by (rewrite K2, K1; auto). assert (HC : In c (held m2)) by (rewrite K2, K1; auto).
    destruct (@alive_read m2 n (held_alive (proj1 G2) HN)) as (p & Rp & _). rewrite Rp. rewrite obind_Ok.
    destruct (@edit_some m2 c (fun me0 => set_prev me0 (n_last p)) (held_alive (proj1 G2) HC)) as [m3 E3]. rewrite E3. rewrite obind_Ok.
    destruct (@edit_spec _ _ _ _ (proj1 G2) E3) as (V3 & T3 & K3 & _).
    { intros k b L [W|W]; cbn in W; [eapply good_first; [apply G2|exact L|exact W]|eapply good_next; [apply G2|exact L|exact W]]. }
    rewrite <- K3 in HC, HN. destruct (@alive_read m3 c (held_alive V3 HC)) as (me3 & Rm3 & Lm3). rewrite Rm3. rewrite obind_Ok.
    assert (X : exists m4, (match lock m3 (n_last p) with
        | Some l => do m <- edit (keep m3 l) l (fun n => set_next n (Some c)); Ok (release m l)
        | None => edit m3 n (fun n => set_first n (Some c)) end) = Ok m4 /\ valid m4 /\ held m4 = held m3).
    { destruct (lock m3 (n_last p)) as [q|] eqn:LK.
      - apply lock_some in LK. destruct LK as [_ Aq].
        destruct (@kept_edit m3 q (fun n => set_next n (Some c)) (conj V3 T3) Aq) as (m4 & E & G4 & HH & _).
        + intros k b L [W|W]; cbn in W; [eapply good_first; [exact V3|exact L|exact W]|injection W as <-; unfold alive; congruence].
        + exists m4. split; [exact E|]. split; [apply G4|exact HH].
      - destruct (@edit_some m3 n (fun n => set_first n (Some c)) (held_alive V3 HN)) as [m4 E4]. exists m4. split; [exact E4|].
        destruct (@edit_spec _ _ _ _ V3 E4) as (A & B & C & D); [|auto].
        intros k b L [W|W]; cbn in W; [injection W as <-; unfold alive; congruence|eapply good_next; [exact V3|exact L|exact W]]. }
    destruct X as (m4 & -> & V4 & K4). rewrite obind_Ok. apply edit_some. apply held_alive; [exact V4|]. rewrite K4. exact HN. }
  destruct L as [m3 L]. rewrite L. rewrite obind_Ok. destruct (@link_good _ _ _ _ G2 L) as (G3 & K3 & _).
  destruct (@alive_read m3 c) as (me3 & Rm3 & _); [apply held_alive; [apply G3|rewrite K3, K2, K1; auto]|]. rewrite Rm3. rewrite obind_Ok. eauto.
Qed.

Lemma step_good m x m' : good m -> step m x = Ok m' -> good m'.
Proof.
  intros G H. destruct x as [|o|o|c new]; cbn in H.
  - injection H as <-. destruct G as [[A B] T].
    assert (LK : forall x, look {| objs := objs m ++ [Some fresh]; held := length (objs m) :: held m |} x = if x =? length (objs m) then Some fresh else look m x).
    { intros x. unfold look. cbn. destruct (Nat.eqb_spec x (length (objs m))) as [->|N].
      - rewrite nth_error_app2, Nat.sub_diag by lia. reflexivity.
      - destruct (Nat.lt_ge_cases x (length (objs m))) as [L|L]; [rewrite nth_error_app1 by exact L; reflexivity|].
        rewrite (proj2 (nth_error_None _ _)) by (rewrite app_length; cbn; lia). rewrite (proj2 (nth_error_None _ _)) by lia. reflexivity. }
    assert (UP : forall x, alive m x -> alive {| objs := objs m ++ [Some fresh]; held := length (objs m) :: held m |} x).
    { intros x. unfold alive. rewrite LK. destruct (x =? length (objs m)); [discriminate|auto]. }
    split; [split|].
    + intros x [<-|I]; [unfold alive; rewrite LK, Nat.eqb_refl; discriminate|apply UP; auto].
    + intros a b (n & E & Q). rewrite LK in E. destruct (a =? length (objs m)); [injection E as <-; destruct Q; discriminate|].
      apply UP. apply (B a). exists n. auto.
    + intros x L. unfold alive in L. rewrite LK in L. destruct (Nat.eqb_spec x (length (objs m))) as [E0|N]; [left; cbn; auto|].
      destruct (T x L) as [I|(a & n & E & Q)]; [left; cbn; auto|]. right. exists a, n. rewrite LK.
      pose proof (look_lt E). destruct (Nat.eqb_spec a (length (objs m))); [lia|]. auto.
  - apply obind_ok_inv in H. destruct H as (n & R & [= <-]). apply read_ok in R. destruct G as [V T]. split; [apply keep_valid; [exact V|unfold alive; congruence]|].
    intros x L. destruct (T x L) as [I|W]; [left; cbn; auto|right; exact W].
  - injection H as <-. destruct (@release_spec m o (proj1 G)) as (A & B & _). split; assumption.
  - apply (set_parent_good G) in H. apply H.
Qed.
Lemma run_good xs : forall m m', good m -> run m xs = Ok m' -> good m'.
Proof.
  induction xs as [|x xs IH]; intros m m' G H; cbn in H; [injection H as <-; exact G|].
  apply obind_ok_inv in H. destruct H as (m1 & E & H). eapply IH; [eapply step_good; eauto|exact H].
Qed.
Lemma nothing_good : good nothing.
Proof.
  split; [split|]; [intros o []| |].
  - intros a b (n & E & _). unfold look in E. cbn in E. destruct a; discriminate.
  - intros o H. exfalso. apply H. unfold look. cbn. destruct o; reflexivity.
Qed.
