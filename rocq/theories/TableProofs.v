(** Font tables: who owns which buffer. *)
From Coq Require Import Permutation Lia.
From Verif Require Import Base BaseFacts HbFontModel HbFontSpec HbFontProofs TableModel TableSpec.
Open Scope Z_scope.

Definition ids (m : memory) : list nat := map fst (mm_live m).
Definition kept (b : nat) (l : list (nat * list Z)) := filter (fun p => negb (is_buffer b p)) l.
Lemma kept_in b l p : In p (kept b l) <-> In p l /\ fst p <> b.
Proof. unfold kept. rewrite filter_In. unfold is_buffer. rewrite negb_true_iff, Nat.eqb_neq. reflexivity. Qed.
Lemma kept_all b l : ~ In b (map fst l) -> kept b l = l.
Proof.
  induction l as [|p l IH]; intros N; [reflexivity|]. cbn [kept filter map In] in *. unfold is_buffer at 1. destruct (Nat.eqb_spec (fst p) b); [tauto|].
  cbn [negb]. f_equal. apply IH. tauto.
Qed.
Lemma kept_ids b l : NoDup (map fst l) -> In b (map fst l) -> Permutation (map fst l) (b :: map fst (kept b l)).
Proof.
  induction l as [|p l IH]; intros N I; [destruct I|]. cbn [map] in N, I. apply NoDup_cons_iff in N as [N1 N2]. cbn [kept filter map]. unfold is_buffer at 1.
  destruct (Nat.eqb_spec (fst p) b) as [E|E]; cbn [negb].
  - fold (kept b l). rewrite kept_all by congruence. rewrite E. reflexivity.
  - destruct I as [I|I]; [congruence|]. fold (kept b l). cbn [map]. rewrite (IH N2 I) at 1. apply perm_swap.
Qed.
Lemma kept_nodup b l : NoDup (map fst l) -> NoDup (map fst (kept b l)).
Proof.
  induction l as [|p l IH]; intros N; [constructor|]. cbn [map] in N. apply NoDup_cons_iff in N as [N1 N2]. cbn [kept filter]. destruct (negb (is_buffer b p)); [|exact (IH N2)].
  cbn [map]. constructor; [|exact (IH N2)]. intros I. apply N1. apply in_map_iff in I as (q & E & I). apply kept_in in I as [I _]. apply in_map_iff. exists q. auto.
Qed.
Lemma free_ok m b : In b (ids m) -> free m b = Ok {| mm_live := kept b (mm_live m); mm_next := mm_next m |}.
Proof.
  intros I. unfold free. assert (X : existsb (is_buffer b) (mm_live m) = true); [|rewrite X; reflexivity].
  apply existsb_exists. apply in_map_iff in I as (p & E & I). exists p. split; [exact I|]. apply Nat.eqb_eq. exact E.
Qed.
Lemma find_ok l b d : NoDup (map fst l) -> In (b, d) l -> find (is_buffer b) l = Some (b, d).
Proof.
  induction l as [|p l IH]; intros N I; [destruct I|]. cbn [map] in N. apply NoDup_cons_iff in N as [N1 N2]. cbn [find]. unfold is_buffer at 1.
  destruct (Nat.eqb_spec (fst p) b) as [E|E]; destruct I as [I|I].
  - congruence.
  - exfalso. apply N1. rewrite E. apply in_map_iff. exists (b, d). auto.
  - subst p. cbn in E. congruence.
  - exact (IH N2 I).
Qed.

(** * The invariant *)
Definition fits (l : Z) : Prop := 0 < l < 2 ^ 31.
Definition holds (Q : Z -> list Z -> Z -> Prop) (m : memory) (p : Z * blob) : Prop :=
  match bl_buffer (snd p) with Some b => exists d, In (b, d) (mm_live m) /\ Q (fst p) d (bl_length (snd p)) | None => bl_length (snd p) = 0 end.
Record good (Q : Z -> list Z -> Z -> Prop) (s : uses * memory) : Prop := {
  gd_nodup : NoDup (ids (snd s));
  gd_below : Forall (fun b => (b < mm_next (snd s))%nat) (ids (snd s));
  gd_owned : Permutation (owned (fst s)) (ids (snd s));
  gd_holds : Forall (holds Q (snd s)) (fst s) }.

Lemma owned_app a b : owned (a ++ b) = owned a ++ owned b.
Proof. unfold owned. apply flat_map_app. Qed.
Lemma fresh Q s : good Q s -> ~ In (mm_next (snd s)) (ids (snd s)).
Proof. intros G I. pose proof (gd_below _ _ G) as B. rewrite Forall_forall in B. specialize (B _ I). cbn in B. lia. Qed.
Lemma back m b d : ~ In b (ids m) -> free {| mm_live := (b, d) :: mm_live m; mm_next := S b |} b = Ok {| mm_live := mm_live m; mm_next := S b |}.
Proof.
  intros N. rewrite free_ok by (left; reflexivity). cbn [mm_live mm_next kept filter]. unfold is_buffer at 1. cbn [fst]. rewrite Nat.eqb_refl. cbn [negb].
  fold (kept b (mm_live m)). rewrite kept_all by exact N. reflexivity.
Qed.
Lemma step_good Q s u : good Q s ->
  (forall tag a n bs, u = Ask tag a -> an_length a = Some n -> an_bytes a = Some bs -> fits (wrap32 n) -> Q tag bs (wrap32 n)) ->
  exists s', step_use s u = Ok s' /\ good Q s'.
Proof.
  intros G HQ. pose proof (fresh Q s G) as F. destruct s as [bs m]. destruct G as [N B O H]. cbn [fst snd] in *. destruct u as [tag a|i]; cbn [step_use].
  - unfold reference_table. destruct (an_length a) as [n|] eqn:EL; [|eexists; split; [reflexivity|constructor; assumption]].
    destruct (an_memory a); [|eexists; split; [reflexivity|constructor; assumption]].
    assert (G' : good Q (bs, {| mm_live := mm_live m; mm_next := S (mm_next m) |})).
    { constructor; cbn [fst snd]; [exact N| |exact O|exact H]. unfold ids in *. cbn [mm_live mm_next]. eapply Forall_impl; [|exact B]. cbn. lia. }
    destruct (an_bytes a) as [d|] eqn:EB.
    + unfold blob_create. destruct ((wrap32 n =? 0) || (2 ^ 31 <=? wrap32 n) || negb (an_object a)) eqn:EC.
      * rewrite back by exact F. cbn [obind]. eexists. split; [reflexivity|]. destruct G' as [N' B' O' H']. constructor; cbn [fst snd] in *; try assumption.
        constructor; [reflexivity|exact H'].
      * cbn [obind]. eexists. split; [reflexivity|]. constructor; cbn [fst snd]; unfold ids; cbn [mm_live mm_next map fst].
        -- constructor; [exact F|exact N].
        -- constructor; [lia|]. eapply Forall_impl; [|exact B]. cbn. lia.
        -- unfold owned. cbn [flat_map snd bl_buffer app]. apply perm_skip. exact O.
        -- constructor.
           ++ unfold holds. cbn [fst snd bl_buffer bl_length mm_live]. exists d. split; [left; reflexivity|]. apply (HQ tag a n d eq_refl EL EB).
              apply orb_false_iff in EC as [EC _]. apply orb_false_iff in EC as [E1 E2]. apply Z.eqb_neq in E1. apply Z.leb_gt in E2.
              unfold fits. assert (0 <= wrap32 n) by (unfold wrap32; apply Z.mod_pos_bound; lia). lia.
           ++ eapply Forall_impl; [|exact H]. intros p. unfold holds. destruct (bl_buffer (snd p)); [|auto]. intros (d' & I & Y). exists d'. split; [right; exact I|exact Y].
    + rewrite back by exact F. cbn [obind]. eexists. split; [reflexivity|exact G'].
  - destruct (nth_error bs i) as [[tag bl]|] eqn:E; [|eexists; split; [reflexivity|constructor; assumption]].
    assert (SP : bs = firstn i bs ++ (tag, bl) :: skipn (S i) bs).
    { clear -E. revert i E. induction bs as [|x bs IH]; intros [|i] E; cbn [nth_error firstn skipn app] in *; try discriminate; [congruence|]. f_equal. exact (IH i E). }
    set (l1 := firstn i bs) in *. set (l2 := skipn (S i) bs) in *. clearbody l1 l2. subst bs. clear E.
    apply Forall_app in H as [H1 H2]. apply Forall_cons_iff in H2 as [H0 H2]. rewrite owned_app in O. unfold owned at 2 in O. cbn [flat_map snd] in O. fold (owned l2) in O.
    unfold blob_end. unfold holds in H0. cbn [fst snd] in H0. destruct (bl_buffer bl) as [b|] eqn:EB.
    + destruct H0 as (d & I & _). assert (IB : In b (ids m)) by (apply in_map_iff; exists (b, d); auto). rewrite free_ok by exact IB. cbn [obind]. eexists. split; [reflexivity|].
      assert (OP : Permutation (owned (l1 ++ l2)) (map fst (kept b (mm_live m)))).
      { rewrite owned_app. apply Permutation_cons_inv with b. unfold ids in *. rewrite <- kept_ids by assumption. rewrite <- O. cbn [app]. apply Permutation_middle. }
      assert (NB : forall p, In p (l1 ++ l2) -> bl_buffer (snd p) <> Some b).
      { intros p Ip Eb. assert (In b (owned (l1 ++ l2))) as Io by (unfold owned; apply in_flat_map; exists p; split; [exact Ip|rewrite Eb; left; reflexivity]).
        rewrite OP in Io. apply in_map_iff in Io as (q & E1 & E2). apply kept_in in E2 as [_ E2]. congruence. }
      constructor; cbn [fst snd]; unfold ids; cbn [mm_live mm_next].
      * apply kept_nodup. exact N.
      * rewrite Forall_forall in *. intros x Ix. apply B. apply in_map_iff in Ix as (q & <- & Iq). apply kept_in in Iq as [Iq _]. apply in_map. exact Iq.
      * exact OP.
      * rewrite Forall_forall. intros p Ip. assert (HP : holds Q m p) by (apply in_app_iff in Ip; rewrite Forall_forall in H1, H2; destruct Ip; auto). specialize (NB p Ip).
        unfold holds in *. destruct (bl_buffer (snd p)) as [b'|] eqn:E'; [|exact HP]. destruct HP as (d' & I' & Y). exists d'. split; [|exact Y]. cbn [mm_live]. apply kept_in. split; [exact I'|].
        cbn [fst]. congruence.
    + cbn [obind]. eexists. split; [reflexivity|]. constructor; cbn [fst snd]; try assumption.
      * rewrite owned_app. exact O.
      * apply Forall_app. auto.
Qed.
Lemma run_good Q us : forall s, good Q s ->
  Forall (fun u => forall tag a n bs, u = Ask tag a -> an_length a = Some n -> an_bytes a = Some bs -> fits (wrap32 n) -> Q tag bs (wrap32 n)) us ->
  exists s', run_uses s us = Ok s' /\ good Q s'.
Proof.
  induction us as [|u us IH]; intros s G F; cbn [run_uses]; [eauto|]. apply Forall_cons_iff in F as [F1 F2].
  destruct (step_good Q s u G F1) as (s' & E & G'). rewrite E. cbn [obind]. exact (IH s' G' F2).
Qed.
Lemma start_good Q : good Q ([], no_memory).
Proof. constructor; cbn; constructor. Qed.

Lemma t_owned us : exists bs m, run_uses ([], no_memory) us = Ok (bs, m) /\ Permutation (owned bs) (map fst (mm_live m)) /\ NoDup (owned bs).
Proof.
  destruct (run_good (fun _ _ _ => True) us _ (start_good _)) as ([bs m] & E & G); [apply Forall_forall; auto|]. exists bs, m. split; [exact E|].
  destruct G as [N _ O _]. cbn [fst snd] in *. split; [exact O|]. rewrite O. exact N.
Qed.
Lemma t_contents tables us bs m tag bl : Forall (reads_use tables) us -> run_uses ([], no_memory) us = Ok (bs, m) -> In (tag, bl) bs ->
  exists d, blob_bytes m bl = Ok d /\ (d = [] \/ exists t, tables tag = Some t /\ (Z.of_nat (length t) < 2 ^ 32 -> d = t)).
Proof.
  intros F E I. set (Q := fun tag (d : list Z) l => tables tag = Some d /\ l = wrap32 (Z.of_nat (length d))).
  destruct (run_good Q us _ (start_good Q)) as (s & E' & G).
  { eapply Forall_impl; [|exact F]. intros u R tag' a n bs' -> L1 L2 _. destruct R as [R1 R2]. destruct (R1 n L1) as (t & T1 & ->). pose proof (R2 _ L2) as T2.
    split; [exact T2|]. congruence. }
  rewrite E in E'. injection E' as <-. destruct G as [N _ _ H]. cbn [fst snd] in *. rewrite Forall_forall in H. specialize (H _ I). unfold holds in H. cbn [fst snd] in H.
  unfold blob_bytes. destruct (bl_buffer bl) as [b|]; [|eexists; split; [reflexivity|left; reflexivity]].
  destruct H as (d & Id & T & L). rewrite (find_ok _ _ _ N Id). eexists. split; [reflexivity|]. right. exists d. split; [exact T|]. intros S. cbn [snd]. rewrite L. unfold wrap32.
  rewrite Z.mod_small by lia. rewrite Nat2Z.id. apply firstn_all.
Qed.
