(** The circular bracket stack refines the list stack of the specification. *)
From Verif Require Import Base BaseFacts ScriptRunModel ScriptRunSpec.
Open Scope Z_scope.
Ltac Zify.zify_post_hook ::= Z.div_mod_to_equations.
Set Implicit Arguments.

Lemma zget_in {A} (l : list A) i : 0 <= i < Z.of_nat (length l) -> exists x, zget l i = Ok x.
Proof.
  intros H. unfold zget. destruct (i <? 0) eqn:E; [lia|].
  unfold vget. destruct (nth_error l (Z.to_nat i)) eqn:N; [eauto|].
  apply nth_error_None in N. lia.
Qed.
Lemma zget_inv {A} (l : list A) i x : zget l i = Ok x -> 0 <= i /\ nth_error l (Z.to_nat i) = Some x.
Proof.
  unfold zget, vget. destruct (i <? 0) eqn:E; [discriminate|].
  destruct (nth_error l (Z.to_nat i)) eqn:N; [|discriminate]. intros [= <-]. split; [lia|reflexivity].
Qed.
Lemma zget_nth {A} (l : list A) i x : 0 <= i -> nth_error l (Z.to_nat i) = Some x -> zget l i = Ok x.
Proof. intros H N. unfold zget, vget. rewrite N. destruct (i <? 0) eqn:E; [lia|reflexivity]. Qed.

Lemma Forall2_imp {A B} (P Q : A -> B -> Prop) l l' :
  (forall a b, P a b -> Q a b) -> Forall2 P l l' -> Forall2 Q l l'.
Proof. intros H. induction 1; constructor; auto. Qed.

Lemma Forall2_len {A B} (P : A -> B -> Prop) l l' : Forall2 P l l' -> length l = length l'.
Proof. induction 1; cbn; auto. Qed.

Lemma Forall2_inv_r {A B} (P : A -> B -> Prop) l b l' : Forall2 P l (b :: l') ->
  exists a l1, l = a :: l1 /\ P a b /\ Forall2 P l1 l'.
Proof. intros H. inversion H; subst. eauto. Qed.

(** * Pair lookup *)
Lemma probe_in n : forall fuel i ch,
  0 <= i -> i + 2 ^ Z.of_nat n <= 34 -> (n <= fuel)%nat ->
  exists j, probe_loop fuel (2 ^ Z.of_nat n) i ch = Ok j /\ 0 <= j < 34.
Proof.
  induction n as [|n IH]; intros fuel i ch H0 H1 HF.
  - exists i. change (2 ^ Z.of_nat 0) with 1 in *. destruct fuel; cbn; (split; [reflexivity|lia]).
  - assert (P : 2 ^ Z.of_nat (S n) = 2 * 2 ^ Z.of_nat n) by (rewrite Nat2Z.inj_succ, Z.pow_succ_r; lia).
    assert (Q : 0 < 2 ^ Z.of_nat n) by (apply Z.pow_pos_nonneg; lia).
    destruct fuel as [|fuel]; [lia|]. cbn [probe_loop].
    destruct (1 <? 2 ^ Z.of_nat (S n)) eqn:E; [|lia].
    assert (S1 : Z.shiftr (2 ^ Z.of_nat (S n)) 1 = 2 ^ Z.of_nat n).
    { rewrite Z.shiftr_div_pow2 by lia. change (2 ^ 1) with 2. rewrite P, Z.mul_comm. apply Z.div_mul. lia. }
    rewrite S1.
    destruct (@zget_in Z pairedChars (i + 2 ^ Z.of_nat n)) as [c Hc]; [cbn [length pairedChars]; lia|].
    rewrite Hc. cbn [obind]. destruct (c <=? ch); apply IH; lia.
Qed.

Definition index_key (i : Z) (r : role) : Prop :=
  match r with
  | Plain => i = -1
  | Opens o => 0 <= i /\ Z.land i 1 = 0 /\ zget pairedChars i = Ok o
  | Closes o => 0 <= i /\ Z.land i 1 = 1 /\ zget pairedChars (Z.land i (-2)) = Ok o
  end.

Lemma pairs_in : forall p, In p bracket_pairs -> In (fst p) pairedChars /\ In (snd p) pairedChars.
Proof.
  intros p I.
  assert (B : forallb (fun p => existsb (Z.eqb (fst p)) pairedChars && existsb (Z.eqb (snd p)) pairedChars) bracket_pairs = true)
    by (vm_compute; reflexivity).
  rewrite forallb_forall in B. specialize (B p I). apply andb_prop in B.
  destruct B as [B1 B2]. apply existsb_exists in B1, B2.
  destruct B1 as [x [X1 X2]], B2 as [y [Y1 Y2]].
  apply Z.eqb_eq in X2, Y2. subst. auto.
Qed.
Lemma role_plain ch : ~ In ch pairedChars -> role_of ch = Plain.
Proof.
  intros H. unfold role_of.
  destruct (find (fun p => fst p =? ch) bracket_pairs) eqn:E.
  - apply find_some in E. destruct E as [I E]. exfalso. apply H. apply Z.eqb_eq in E. subst ch.
    apply pairs_in. exact I.
  - destruct (find (fun p => snd p =? ch) bracket_pairs) eqn:E2; [|reflexivity].
    apply find_some in E2. destruct E2 as [I E2]. exfalso. apply H. apply Z.eqb_eq in E2. subst ch.
    apply pairs_in. exact I.
Qed.

Lemma get_pair_index_ok ch : exists i, get_pair_index ch = Ok i /\ index_key i (role_of ch).
Proof.
  destruct (in_dec Z.eq_dec ch pairedChars) as [I|N].
  - revert I. unfold pairedChars at 1. cbn [In]. intros I.
    repeat (destruct I as [<-|I]; [vm_compute; eexists; split; [reflexivity|repeat split; discriminate]|]).
    destruct I.
  - rewrite (role_plain N). exists (-1). split; [|reflexivity].
    unfold get_pair_index. change (Z.of_nat (length pairedChars)) with 34.
    change (high_bit 34) with 5. change (Z.shiftl 1 5) with (2 ^ Z.of_nat 5).
    change (34 - 2 ^ Z.of_nat 5) with 2.
    destruct (@zget_in Z pairedChars 2) as [c Hc]; [cbn [length pairedChars]; lia|].
    rewrite Hc. cbn [obind].
    destruct (@probe_in 5 (length pairedChars) (if c <=? ch then 2 else 0) ch) as [j [Hj Rj]];
      [destruct (c <=? ch); lia | change (2 ^ Z.of_nat 5) with 32; destruct (c <=? ch); lia
      | cbn [length pairedChars]; lia |].
    rewrite Hj. cbn [obind].
    destruct (@zget_in Z pairedChars j) as [d Hd]; [cbn [length pairedChars]; lia|].
    rewrite Hd. cbn [obind]. destruct (d =? ch) eqn:E; [|reflexivity].
    exfalso. apply N. apply zget_inv in Hd. destruct Hd as [_ Hd]. apply nth_error_In in Hd.
    assert (d = ch) by lia. subst. exact Hd.
Qed.

Lemma pairedChars_inj i j x : zget pairedChars i = Ok x -> zget pairedChars j = Ok x -> i = j.
Proof.
  intros Hi Hj. apply zget_inv in Hi. apply zget_inv in Hj.
  assert (ND : NoDup pairedChars).
  { unfold pairedChars. repeat (constructor; [cbn; intros H; repeat (destruct H as [H|H]; [discriminate H|]); exact H|]). constructor. }
  assert (Z.to_nat i = Z.to_nat j); [|lia].
  rewrite NoDup_nth_error in ND. apply ND; [|destruct Hi as [_ ->], Hj as [_ ->]; reflexivity].
  apply nth_error_Some. destruct Hi as [_ ->]. discriminate.
Qed.

(** * The stack *)
Definition entry_ok (cells : list (option Z * option Z)) (sp : Z) (k : nat) (e : Z * Z) : Prop :=
  exists i, nth_error cells (Z.to_nat ((sp - Z.of_nat k) mod 32)) = Some (Some i, Some (snd e)) /\
            zget pairedChars i = Ok (fst e).

Record rel (s : siter) (st : stack) : Prop := {
  rel_cells : length (si_cells s) = 32%nat;
  rel_push : si_push s = Z.of_nat (length st);
  rel_depth : (length st <= 32)%nat;
  rel_empty : st = [] -> si_sp s = -1;
  rel_sp : -1 <= si_sp s < 32 /\ (st <> [] -> 0 <= si_sp s);
  rel_entries : forall k e, nth_error st k = Some e -> entry_ok (si_cells s) (si_sp s) k e
}.

(** The newest [fix_] entries are those of the current run while its script is unknown. *)
Definition phase (fix_ : Z) (st : stack) (code : Z) : Prop :=
  (code = 0 /\ 0 <= fix_ <= Z.of_nat (length st) /\
   forall k e, nth_error st k = Some e ->
     (Z.of_nat k < fix_ -> snd e = 0) /\ (fix_ <= Z.of_nat k -> 1 < snd e)) \/
  (1 < code /\ Forall (fun e => 1 < snd e) st).

Lemma phase_zero st : Forall (fun e => 1 < snd e) st -> phase 0 st 0.
Proof.
  intros F. left. split; [reflexivity|]. split; [lia|]. intros k e H. split; [lia|].
  intros _. rewrite Forall_forall in F. apply F. eapply nth_error_In; eauto.
Qed.

Lemma nth_error_firstn_some {A} (l : list A) n k x :
  nth_error (firstn n l) k = Some x -> nth_error l k = Some x /\ (k < n)%nat.
Proof.
  revert l k. induction n as [|n IH]; intros l k H; [destruct k; discriminate|].
  destruct l as [|y l]; [destruct k; discriminate|]. destruct k as [|k]; cbn in *; [split; [auto|lia]|].
  apply IH in H. split; [tauto|lia].
Qed.

Lemma push_ok s st code i o :
  rel s st -> phase (si_fix s) st code -> zget pairedChars i = Ok o ->
  exists s', si_do_push s i code = Ok s' /\ rel s' (firstn 32 ((o, code) :: st)) /\
             phase (si_fix s') (firstn 32 ((o, code) :: st)) code /\
             si_rest s' = si_rest s /\ si_length s' = si_length s /\ si_limit s' = si_limit s.
Proof.
  intros R P HI. destruct R as [RC RP RD RE [RS RS'] RN].
  unfold si_do_push, cell_set, INC1. change DEPTH with 32.
  destruct ((si_sp s + 1) mod 32 <? 0) eqn:E; [lia|].
  unfold vset. destruct (Z.to_nat ((si_sp s + 1) mod 32) <? length (si_cells s))%nat eqn:E2; [|lia].
  cbn [obind]. eexists. split; [reflexivity|].
  assert (L : length (firstn 32 ((o, code) :: st)) = Nat.min 32 (S (length st))) by (rewrite firstn_length; reflexivity).
  split; [|split].
  - constructor; cbn [with_stack si_cells si_push si_sp].
    + rewrite length_list_set. exact RC.
    + rewrite L, RP. unfold LIMIT_INC. change DEPTH with 32.
      destruct ((0 <=? Z.of_nat (length st)) && (Z.of_nat (length st) <? 32)) eqn:E3; lia.
    + rewrite L. lia.
    + discriminate.
    + split; [lia|]. intros _. lia.
    + intros k e H. apply nth_error_firstn_some in H. destruct H as [H HK]. unfold entry_ok.
      destruct k as [|k]; cbn in H.
      * injection H as <-. exists i. split; [|exact HI].
        replace (((si_sp s + 1) mod 32 - Z.of_nat 0) mod 32) with ((si_sp s + 1) mod 32) by lia.
        apply nth_error_list_set_same. lia.
      * destruct (RN _ _ H) as [j [Hj Hk]]. exists j. split; [|exact Hk].
        replace (((si_sp s + 1) mod 32 - Z.of_nat (S k)) mod 32) with ((si_sp s - Z.of_nat k) mod 32) by lia.
        rewrite nth_error_list_set_other; [exact Hj|lia].
  - cbn [with_stack si_fix]. destruct P as [[-> [P1 P2]]|[P1 P2]].
    + left. split; [reflexivity|]. rewrite L. unfold LIMIT_INC. change DEPTH with 32.
      destruct ((0 <=? si_fix s) && (si_fix s <? 32)) eqn:E3.
      * split; [lia|]. intros k e H. apply nth_error_firstn_some in H. destruct H as [H HK].
        destruct k as [|k]; cbn in H; [injection H as <-; split; [reflexivity|lia]|].
        destruct (P2 _ _ H). split; intros; [apply H0|apply H1]; lia.
      * split; [lia|]. intros k e H. apply nth_error_firstn_some in H. destruct H as [H HK].
        destruct k as [|k]; cbn in H; [injection H as <-; split; [reflexivity|lia]|].
        destruct (P2 _ _ H). split; intros; [apply H0|]; lia.
    + right. split; [exact P1|]. apply Forall_forall. intros e I. apply In_nth_error in I. destruct I as [k H].
      apply nth_error_firstn_some in H. destruct H as [H _]. apply nth_error_In in H.
      destruct H as [<-|H]; [exact P1|]. rewrite Forall_forall in P2. auto.
  - cbn. auto.
Qed.

Lemma pop_ok s st code :
  rel s st -> phase (si_fix s) st code ->
  rel (si_do_pop s) (tl st) /\ phase (si_fix (si_do_pop s)) (tl st) code /\
  si_rest (si_do_pop s) = si_rest s /\ si_length (si_do_pop s) = si_length s /\ si_limit (si_do_pop s) = si_limit s.
Proof.
  intros R P. destruct R as [RC RP RD RE [RS RS'] RN].
  unfold si_do_pop. destruct (si_push s <=? 0) eqn:E.
  - assert (st = []) by (destruct st; cbn in RP; [auto|lia]). subst st. cbn [tl].
    split; [constructor; auto|]. auto.
  - destruct st as [|e0 st]; [cbn in RP; lia|]. cbn [tl].
    assert (RSp : 0 <= si_sp s) by (apply RS'; discriminate).
    cbn [length] in *.
    split; [|split; [|cbn; auto]].
    + constructor; cbn [with_stack si_cells si_push si_sp]; [auto|lia|lia| | |].
      * intros ->. cbn [length] in RP. destruct (si_push s - 1 <=? 0) eqn:E2; [reflexivity|lia].
      * unfold DEC. change DEPTH with 32. destruct (si_push s - 1 <=? 0) eqn:E2.
        -- split; [lia|]. intros N. destruct st; [congruence|cbn [length] in *; lia].
        -- split; intros; lia.
      * intros k e H. assert (k < length st)%nat by (apply nth_error_Some; congruence).
        destruct (si_push s - 1 <=? 0) eqn:E2; [lia|].
        destruct (RN (S k) e H) as [j [Hj Hk]]. exists j. split; [|exact Hk].
        unfold DEC. change DEPTH with 32.
        replace (((si_sp s + 32 - 1) mod 32 - Z.of_nat k) mod 32) with ((si_sp s - Z.of_nat (S k)) mod 32) by lia.
        exact Hj.
    + cbn [with_stack si_fix]. destruct P as [[-> [P1 P2]]|[P1 P2]].
      * left. split; [reflexivity|]. cbn [length] in P1. split; [destruct (0 <? si_fix s) eqn:E3; lia|].
        intros k e H. destruct (P2 (S k) e H). split; intros.
        -- apply H0. destruct (0 <? si_fix s) eqn:E3; lia.
        -- apply H1. destruct (0 <? si_fix s) eqn:E3; lia.
      * right. split; [auto|]. inversion P2; auto.
Qed.

Lemma fixup_loop_ok n : forall cells sp c,
  (n <= 32)%nat -> length cells = 32%nat -> -1 <= sp ->
  exists cells', fixup_loop n cells sp c = Ok cells' /\ length cells' = 32%nat /\
    forall j, 0 <= j < 32 ->
      nth_error cells' (Z.to_nat j) =
      if (j - sp - 1) mod 32 <? Z.of_nat n
      then option_map (fun e => (fst e, Some c)) (nth_error cells (Z.to_nat j))
      else nth_error cells (Z.to_nat j).
Proof.
  induction n as [|n IH]; intros cells sp c HN HL HS; cbn [fixup_loop].
  - exists cells. split; [reflexivity|]. split; [auto|]. intros j Hj.
    destruct ((j - sp - 1) mod 32 <? Z.of_nat 0) eqn:E; [lia|reflexivity].
  - unfold INC1. change DEPTH with 32.
    destruct (@zget_in _ cells ((sp + 1) mod 32)) as [e He]; [lia|].
    rewrite He. cbn [obind]. unfold cell_set. destruct ((sp + 1) mod 32 <? 0) eqn:E; [lia|].
    unfold vset. destruct (Z.to_nat ((sp + 1) mod 32) <? length cells)%nat eqn:E2; [|lia]. cbn [obind].
    destruct (IH (list_set cells (Z.to_nat ((sp + 1) mod 32)) (fst e, Some c)) ((sp + 1) mod 32) c)
      as [cells' [H1 [H2 H3]]]; [lia|rewrite length_list_set; auto|lia|].
    exists cells'. split; [exact H1|]. split; [exact H2|]. intros j Hj. rewrite (H3 j Hj).
    apply zget_inv in He. destruct He as [_ He].
    destruct (Z.eq_dec j ((sp + 1) mod 32)) as [->|NE].
    + rewrite nth_error_list_set_same by lia. rewrite He. cbn [option_map fst].
      destruct (((sp + 1) mod 32 - (sp + 1) mod 32 - 1) mod 32 <? Z.of_nat n) eqn:E3; [lia|].
      destruct (((sp + 1) mod 32 - sp - 1) mod 32 <? Z.of_nat (S n)) eqn:E4; [reflexivity|lia].
    + rewrite nth_error_list_set_other by lia.
      assert (X : ((j - (sp + 1) mod 32 - 1) mod 32 <? Z.of_nat n) = ((j - sp - 1) mod 32 <? Z.of_nat (S n))).
      { destruct ((j - (sp + 1) mod 32 - 1) mod 32 <? Z.of_nat n) eqn:E3;
          destruct ((j - sp - 1) mod 32 <? Z.of_nat (S n)) eqn:E4; lia. }
      rewrite X. reflexivity.
Qed.

Lemma nth_error_map_some {A B} (f : A -> B) l k y :
  nth_error (map f l) k = Some y -> exists x, nth_error l k = Some x /\ y = f x.
Proof.
  rewrite nth_error_map. destruct (nth_error l k) as [x|]; cbn; [|discriminate].
  intros [= <-]. eauto.
Qed.

Lemma fixup_ok s st c :
  rel s st -> phase (si_fix s) st 0 -> 1 < c ->
  exists s', si_fixup s c = Ok s' /\ rel s' (resolve c st) /\ phase (si_fix s') (resolve c st) c /\
             si_rest s' = si_rest s /\ si_length s' = si_length s /\ si_limit s' = si_limit s.
Proof.
  intros R P HC. destruct R as [RC RP RD RE [RS RS'] RN].
  destruct P as [[_ [P1 P2]]|[P1 _]]; [|lia].
  unfold si_fixup.
  destruct (@fixup_loop_ok (Z.to_nat (si_fix s)) (si_cells s) (DEC (si_sp s) (si_fix s)) c)
    as [cells' [H1 [H2 H3]]]; [lia|auto|unfold DEC; change DEPTH with 32; lia|].
  rewrite H1. cbn [obind]. eexists. split; [reflexivity|].
  assert (LL : length (resolve c st) = length st) by apply map_length.
  split; [|split; [|cbn; auto]].
  - constructor; cbn [with_stack si_cells si_push si_sp]; [auto|lia|lia| | |].
    + intros Z0. apply RE. destruct st; [reflexivity|discriminate Z0].
    + split; [auto|]. intros N. apply RS'. destruct st; [cbn in N; congruence|discriminate].
    + intros k e H. apply nth_error_map_some in H. destruct H as [e0 [H ->]].
      assert (K : (k < length st)%nat) by (apply nth_error_Some; congruence).
      destruct (RN k e0 H) as [i [Hi Hk]]. destruct (P2 k e0 H) as [Q1 Q2].
      exists i. unfold entry_ok. rewrite H3 by lia. rewrite Hi. unfold DEC. change DEPTH with 32.
      assert (0 <= si_sp s) by (apply RS'; intros ->; destruct k; discriminate H).
      destruct (Z.ltb_spec (Z.of_nat k) (si_fix s)) as [LT|GE].
      * specialize (Q1 LT). unfold strong. rewrite Q1. cbn [fst snd].
        destruct (((si_sp s - Z.of_nat k) mod 32 - (si_sp s + 32 - si_fix s) mod 32 - 1) mod 32 <? Z.of_nat (Z.to_nat (si_fix s))) eqn:E; [|lia].
        cbn. split; [reflexivity|exact Hk].
      * specialize (Q2 GE). unfold strong. destruct (1 <? snd e0) eqn:E0; [|lia].
        destruct (((si_sp s - Z.of_nat k) mod 32 - (si_sp s + 32 - si_fix s) mod 32 - 1) mod 32 <? Z.of_nat (Z.to_nat (si_fix s))) eqn:E; [lia|].
        split; [reflexivity|exact Hk].
  - right. split; [auto|]. apply Forall_forall. intros e I. apply in_map_iff in I.
    destruct I as [e0 [<- I]]. unfold strong. destruct (1 <? snd e0) eqn:E; [lia|cbn; lia].
Qed.

Lemma pop_until_ok pi o : zget pairedChars pi = Ok o ->
  forall st fuel s code, rel s st -> phase (si_fix s) st code -> (length st <= fuel)%nat ->
  exists s', pop_until fuel s pi = Ok s' /\ rel s' (drop_to o st) /\ phase (si_fix s') (drop_to o st) code /\
             si_rest s' = si_rest s /\ si_length s' = si_length s /\ si_limit s' = si_limit s.
Proof.
  intros HI st. induction st as [|[p c] st IH]; intros fuel s code R P HF.
  - exists s. pose proof (rel_push R) as RP. cbn in RP.
    destruct fuel; cbn [pop_until drop_to]; destruct (0 <? si_push s) eqn:E; try lia; auto 10.
  - assert (T : exists i, top_pair s = Ok i /\ zget pairedChars i = Ok p).
    { destruct (rel_entries R 0 (e := (p, c)) eq_refl) as [i [Hi Hk]]. exists i. split; [|exact Hk].
      unfold top_pair. pose proof (rel_sp R) as [S1 S2]. assert (0 <= si_sp s) by (apply S2; discriminate).
      rewrite (@zget_nth _ (si_cells s) (si_sp s) (Some i, Some c)); [reflexivity|auto|].
      cbn [snd] in Hi. rewrite <- Hi. f_equal. lia. }
    destruct T as [i [T HK]]. pose proof (rel_push R) as RP. cbn [length] in RP, HF.
    destruct fuel as [|fuel]; [lia|]. cbn [pop_until drop_to].
    destruct (0 <? si_push s) eqn:E; [|lia]. rewrite T. cbn [obind].
    destruct (i =? pi) eqn:E1.
    + assert (i = pi) by lia. subst i. rewrite HI in HK. injection HK as <-. rewrite Z.eqb_refl.
      exists s. auto 10.
    + destruct (p =? o) eqn:E2.
      * assert (p = o) by lia. subst p. pose proof (pairedChars_inj _ _ HK HI). lia.
      * destruct (@pop_ok s _ code R P) as [R' [P' [A1 [A2 A3]]]]. cbn [tl] in R', P'.
        destruct (IH fuel (si_do_pop s) code R' P') as [s' [B1 [B2 [B3 [B4 [B5 B6]]]]]]; [lia|].
        exists s'. split; [exact B1|]. split; [exact B2|]. split; [exact B3|]. split; [congruence|]. split; congruence.
Qed.

Lemma script_same_compatible a b : script_is_same a b = compatible a b.
Proof. unfold script_is_same, compatible, strong, INHERITED. lia. Qed.

Section Refine.
Variable script : Z -> Z.

Lemma get_script_ok bad ch :
  get_script script bad ch =
  (if bad || negb (valid_char ch) then (-1, true) else (script ch, false)).
Proof.
  unfold get_script, valid_char, INVALID.
  replace (bad || negb ((0 <=? ch) && (ch <=? 1114111))) with (bad || (ch <? 0) || (1114111 <? ch)); [reflexivity|].
  destruct bad; [reflexivity|]. cbn [orb]. lia.
Qed.

(** Meeting a character in the program is meeting it in the specification. *)
Lemma next_loop_ok : forall text fuel s st code bad cur,
  rel s st -> phase (si_fix s) st code -> si_rest s = text -> decoded text ->
  si_length s - si_limit s = bytes text -> (length text < fuel)%nat ->
  exists taken rest code' s' st',
    next_loop script fuel s code bad = Ok (code', s') /\
    text = taken ++ rest /\ si_rest s' = rest /\ si_limit s' = si_limit s + bytes taken /\
    si_length s' = si_length s /\ rel s' st' /\
    (rest <> [] -> Forall (fun e => 1 < snd e) st') /\
    groups_from script st code bad cur text =
      (rev cur ++ taken, code') ::
      match rest with [] => [] | _ => groups_from script st' 0 false [] rest end.
Proof.
  induction text as [|[ch len] text IH]; intros fuel s st code bad cur R P HR HD HL HF.
  - exists [], [], code, s, st. destruct fuel as [|fuel]; [cbn in HF; lia|]. cbn [next_loop].
    cbn in HL. destruct (si_limit s <? si_length s) eqn:E; [lia|].
    cbn [app groups_from]. rewrite app_nil_r.
    split; [reflexivity|]. split; [reflexivity|]. split; [exact HR|]. split; [cbn; lia|].
    split; [reflexivity|]. split; [exact R|]. split; [congruence|reflexivity].
  - destruct fuel as [|fuel]; [cbn in HF; lia|].
    assert (HB : 0 <= bytes text).
    { clear -HD. inversion HD; subst. clear -H2. induction text; cbn; [lia|]. inversion H2; subst. specialize (IHtext H3). unfold bytes in IHtext. lia. }
    inversion HD as [|? ? HD1 HD2]; subst. cbn [snd] in HD1.
    assert (HL' : si_length s - si_limit s = len + bytes text) by exact HL.
    cbn [next_loop]. destruct (si_limit s <? si_length s) eqn:E; [|lia]. rewrite HR.
    rewrite get_script_ok.
    remember (bad || negb (valid_char ch)) as bad' eqn:EB.
    remember (if bad' then -1 else script ch) as own eqn:EO.
    replace (if bad' then (-1, true) else (script ch, false)) with (own, bad') by (subst own; destruct bad'; reflexivity).
    destruct (get_pair_index_ok ch) as [pi [Hpi Hkey]]. rewrite Hpi. cbn [obind].
    (* the stack operation *)
    assert (M : exists s1 st1 sc,
      (if 0 <=? pi then
         if Z.land pi 1 =? 0 then do s0 <- si_do_push s pi code; Ok (s0, own)
         else do s0 <- pop_until (Z.to_nat (si_push s)) s (Z.land pi (-2));
              (if 0 <? si_push s0 then do t <- top_script s0; Ok (s0, t) else Ok (s0, own))
       else Ok (s, own)) = Ok (s1, sc) /\
      meet script st code bad ch = (st1, sc, bad') /\
      rel s1 st1 /\ phase (si_fix s1) st1 code /\
      si_rest s1 = si_rest s /\ si_length s1 = si_length s /\ si_limit s1 = si_limit s).
    { unfold meet. rewrite <- EB, <- EO. destruct (role_of ch) as [|o|o]; cbn [index_key] in Hkey.
      - subst pi. exists s, st, own. change (0 <=? -1) with false. cbv iota. auto 10.
      - destruct Hkey as [K1 [K2 K3]]. destruct (@push_ok s st code pi o R P K3) as [s1 [A [B [C D]]]].
        exists s1, (firstn 32 ((o, code) :: st)), own.
        destruct (0 <=? pi) eqn:E1; [|lia]. rewrite K2. change (0 =? 0) with true. cbv iota.
        rewrite A. cbn [obind]. auto 10.
      - destruct Hkey as [K1 [K2 K3]].
        assert (HPF : (length st <= Z.to_nat (si_push s))%nat) by (rewrite (rel_push R); lia).
        destruct (@pop_until_ok (Z.land pi (-2)) o K3 st _ s code R P HPF) as [s1 [A [B [C D]]]].
        destruct (0 <=? pi) eqn:E1; [|lia]. rewrite K2. change (1 =? 0) with false. cbv iota.
        rewrite A. cbn [obind]. pose proof (rel_push B) as BP.
        destruct (drop_to o st) as [|[p c] st1] eqn:ED.
        + exists s1, [], own. cbn in BP. destruct (0 <? si_push s1) eqn:E2; [lia|]. auto 10.
        + exists s1, ((p, c) :: st1), c. cbn [length] in BP. destruct (0 <? si_push s1) eqn:E2; [|lia].
          assert (T : top_script s1 = Ok c).
          { destruct (rel_entries B 0 (e := (p, c)) eq_refl) as [i [Hi Hk]].
            unfold top_script. pose proof (rel_sp B) as [S1 S2]. assert (0 <= si_sp s1) by (apply S2; discriminate).
            rewrite (@zget_nth _ (si_cells s1) (si_sp s1) (Some i, Some c)); [reflexivity|auto|].
            cbn [snd] in Hi. rewrite <- Hi. f_equal. lia. }
          rewrite T. cbn [obind]. auto 10. }
    destruct M as [s1 [st1 [sc [M1 [M2 [R1 [P1 [F1 [F2 F3]]]]]]]]].
    rewrite M1. cbn [obind]. cbn [groups_from fst]. rewrite M2. rewrite script_same_compatible.
    destruct (compatible code sc) eqn:EC.
    + (* accepted *)
      assert (N : exists s2 st2 code2,
        (if (code <=? INHERITED) && (INHERITED <? sc) then do s0 <- si_fixup s1 sc; Ok (s0, sc) else Ok (s1, code)) = Ok (s2, code2) /\
        (if negb (strong code) && strong sc then (resolve sc st1, sc) else (st1, code)) = (st2, code2) /\
        rel s2 st2 /\ phase (si_fix s2) st2 code2 /\
        si_rest s2 = si_rest s1 /\ si_length s2 = si_length s1 /\ si_limit s2 = si_limit s1).
      { unfold INHERITED, strong.
        replace (code <=? 1) with (negb (1 <? code)) by lia.
        destruct (negb (1 <? code) && (1 <? sc)) eqn:EF.
        - assert (C0 : code = 0) by (destruct P1 as [[-> _]|[? _]]; [reflexivity|lia]). subst code.
          destruct (@fixup_ok s1 st1 sc R1 P1) as [s2 [A [B [C D]]]]; [lia|].
          exists s2, (resolve sc st1), sc. rewrite A. cbn [obind]. auto 10.
        - exists s1, st1, code. auto 10. }
      destruct N as [s2 [st2 [code2 [N1 [N2 [R2 [P2 [G1 [G2 G3]]]]]]]]].
      rewrite N1. cbn [obind]. unfold absorb. rewrite N2.
      set (s3 := if (0 <=? pi) && negb (Z.land pi 1 =? 0) then si_do_pop s2 else s2).
      set (st3 := match role_of ch with Closes _ => tl st2 | _ => st2 end).
      assert (Q : rel s3 st3 /\ phase (si_fix s3) st3 code2 /\
                  si_rest s3 = si_rest s2 /\ si_length s3 = si_length s2 /\ si_limit s3 = si_limit s2).
      { unfold s3, st3. destruct (role_of ch); cbn [index_key] in Hkey.
        - subst pi. change ((0 <=? -1) && negb (Z.land (-1) 1 =? 0)) with false. cbv iota. auto.
        - destruct Hkey as [K1 [K2 K3]]. rewrite K2. change (0 =? 0) with true. cbn [negb].
          rewrite andb_false_r. auto.
        - destruct Hkey as [K1 [K2 K3]]. rewrite K2. change (1 =? 0) with false. cbn [negb].
          rewrite andb_true_r. destruct (0 <=? pi) eqn:E1; [|lia]. apply pop_ok; auto. }
      destruct Q as [R3 [P3 [I1 [I2 I3]]]].
      edestruct (IH fuel {| si_rest := text; si_length := si_length s3; si_limit := si_limit s3 + len;
        si_cells := si_cells s3; si_sp := si_sp s3; si_push := si_push s3; si_fix := si_fix s3 |}
        st3 code2 bad' ((ch, len) :: cur)) as [taken [rest [code' [s' [st' [J1 [J2 [J3 [J4 [J5 [J6 [J7 J8]]]]]]]]]]]].
      * destruct R3; constructor; auto.
      * exact P3.
      * reflexivity.
      * exact HD2.
      * cbn [si_length si_limit]. rewrite I2, I3, G2, G3, F2, F3. lia.
      * cbn in HF. lia.
      * exists ((ch, len) :: taken), rest, code', s', st'. cbn [si_rest si_limit si_length] in *.
        rewrite I2 in J1 |- *. rewrite I2 in *.
        split; [exact J1|]. split; [cbn; congruence|]. split; [exact J3|].
        split; [rewrite J4, I3, G3, F3; cbn; unfold bytes; lia|].
        split; [congruence|]. split; [exact J6|]. split; [exact J7|].
        rewrite J8. cbn [rev]. rewrite <- app_assoc. reflexivity.
    + (* break *)
      exists [], ((ch, len) :: text), code, s1, st1.
      assert (CS : 1 < code /\ 1 < sc) by (unfold compatible, strong in EC; lia).
      assert (F1' : Forall (fun e => 1 < snd e) st1) by (destruct P1 as [[? _]|[_ ?]]; [lia|assumption]).
      split; [reflexivity|]. split; [reflexivity|]. split; [congruence|].
      split; [cbn; lia|]. split; [auto|]. split; [exact R1|]. split; [auto|].
      rewrite app_nil_r. cbn [groups_from fst].
      destruct (meet script st1 0 false ch) as [[st4 sc4] bad4].
      assert (X : compatible 0 sc4 = true) by (unfold compatible, strong; lia). rewrite X.
      destruct (absorb st4 0 sc4 ch) as [st5 c5]. reflexivity.
Qed.

Lemma bytes_nonneg text : decoded text -> 0 <= bytes text.
Proof. induction 1 as [|it t H _ IH]; cbn; [lia|unfold bytes in IH; lia]. Qed.
Lemma bytes_pos text : decoded text -> text <> [] -> 0 < bytes text.
Proof. intros [|it t H H']; [congruence|]. intros _. apply bytes_nonneg in H'. cbn. unfold bytes in H'. lia. Qed.

Lemma groups_progress st code bad cur text :
  (exists g gs c, groups_from script st code bad cur text = (rev cur ++ g, c) :: gs).
Proof.
  revert st code bad cur. induction text as [|it text IH]; intros; cbn [groups_from].
  - exists [], [], code. rewrite app_nil_r. reflexivity.
  - destruct (meet script st code bad (fst it)) as [[st1 sc] bad1]. destruct (compatible code sc).
    + destruct (absorb st1 code sc (fst it)) as [st2 c2].
      destruct (IH st2 c2 bad1 (it :: cur)) as [g [gs [c ->]]]. cbn [rev]. rewrite <- app_assoc. cbn. eauto.
    + destruct (meet script st1 0 false (fst it)) as [[st2 sc2] bad2].
      destruct (absorb st2 0 sc2 (fst it)) as [st3 c3].
      exists [], (groups_from script st3 c3 bad2 [it] text), code. rewrite app_nil_r. reflexivity.
Qed.

Lemma groups_start st text : text <> [] ->
  exists it g gs c, hd_error text = Some it /\ groups_from script st 0 false [] text = (it :: g, c) :: gs.
Proof.
  destruct text as [|it text]; [congruence|]. intros _. cbn [groups_from].
  destruct (meet script st 0 false (fst it)) as [[st1 sc] bad1].
  assert (X : compatible 0 sc = true) by (unfold compatible, strong; lia). rewrite X.
  destruct (absorb st1 0 sc (fst it)) as [st2 c2].
  destruct (groups_progress st2 c2 bad1 [it] text) as [g [gs [c ->]]].
  exists it, g, gs, c. split; reflexivity.
Qed.

Lemma all_runs_ok : forall fuel text s st,
  rel s st -> (text <> [] -> Forall (fun e => 1 < snd e) st) -> si_rest s = text -> decoded text ->
  si_length s - si_limit s = bytes text -> (length text < fuel)%nat ->
  all_runs script fuel s =
  Ok (laid_out (si_limit s) (match text with [] => [] | _ => groups_from script st 0 false [] text end)).
Proof.
  induction fuel as [|fuel IH]; intros text s st R F HR HD HL HF; [lia|].
  cbn [all_runs]. unfold si_next. destruct text as [|it text].
  - cbn in HL. destruct (si_length s <=? si_limit s) eqn:E; [reflexivity|lia].
  - pose proof (@bytes_pos (it :: text) HD ltac:(discriminate)) as HB.
    destruct (si_length s <=? si_limit s) eqn:E; [lia|].
    destruct (@next_loop_ok (it :: text) (S (length (si_rest s))) (with_stack s (si_cells s) (si_sp s) (si_push s) 0) st 0 false [])
      as [taken [rest [code' [s' [st' [J1 [J2 [J3 [J4 [J5 [J6 [J7 J8]]]]]]]]]]]].
    + destruct R; constructor; auto.
    + cbn [with_stack si_fix]. apply phase_zero. apply F. discriminate.
    + exact HR.
    + exact HD.
    + exact HL.
    + rewrite HR. lia.
    + unfold COMMON. rewrite J1. cbn [obind].
      destruct (@groups_start st (it :: text) ltac:(discriminate)) as [it0 [g0 [gs0 [c0 [H0 H1]]]]].
      rewrite J8 in H1. cbn [rev app] in H1. injection H1 as HT _ _.
      assert (HLen : (length rest < length (it :: text))%nat) by (rewrite J2, HT, app_length; cbn; lia).
      rewrite J2 in HD, HL.
      assert (HD' : decoded rest) by (apply Forall_app in HD; tauto).
      assert (BA : bytes (taken ++ rest) = bytes taken + bytes rest).
      { clear. induction taken as [|x l IHl]; cbn; [reflexivity|]. unfold bytes in *. rewrite IHl. lia. }
      rewrite J8. cbn [rev app laid_out]. cbn [with_stack si_limit si_length] in J4, J5.
      rewrite (IH rest s' st'); auto.
      * cbn [obind]. rewrite <- J4. destruct rest; reflexivity.
      * rewrite J4, J5. rewrite BA in HL. lia.
      * cbn [length] in *. lia.
Qed.

Theorem script_runs_ok text : decoded text ->
  script_runs script text = Ok (laid_out 0 (script_groups script text)).
Proof.
  intros HD. unfold script_runs, script_groups.
  rewrite (@all_runs_ok (S (length text)) text (si_make text) []); auto.
  - constructor; cbn [si_make si_cells si_push si_sp length]; try lia; auto.
    + split; [lia|]. congruence.
    + intros [|k] e H; discriminate H.
  - cbn. unfold bytes, text_length. lia.
Qed.

(** * What the groups look like *)
Lemma groups_concat : forall text st code bad cur,
  concat (map fst (groups_from script st code bad cur text)) = rev cur ++ text.
Proof.
  induction text as [|it text IH]; intros; cbn [groups_from].
  - cbn. reflexivity.
  - destruct (meet script st code bad (fst it)) as [[st1 sc] bad1]. destruct (compatible code sc).
    + destruct (absorb st1 code sc (fst it)) as [st2 c2]. rewrite IH. cbn [rev]. rewrite <- app_assoc. reflexivity.
    + destruct (meet script st1 0 false (fst it)) as [[st2 sc2] bad2].
      destruct (absorb st2 0 sc2 (fst it)) as [st3 c3]. cbn [map concat fst]. rewrite IH. reflexivity.
Qed.

Lemma groups_nonempty : forall text st code bad cur, cur <> [] ->
  Forall (fun g => fst g <> []) (groups_from script st code bad cur text).
Proof.
  assert (RN : forall cur : list (Z * Z), cur <> [] -> rev cur <> []).
  { intros cur H E. apply H. rewrite <- (rev_involutive cur), E. reflexivity. }
  induction text as [|it text IH]; intros st code bad cur H; cbn [groups_from].
  - constructor; [cbn; auto|constructor].
  - destruct (meet script st code bad (fst it)) as [[st1 sc] bad1]. destruct (compatible code sc).
    + destruct (absorb st1 code sc (fst it)) as [st2 c2]. apply IH. discriminate.
    + destruct (meet script st1 0 false (fst it)) as [[st2 sc2] bad2].
      destruct (absorb st2 0 sc2 (fst it)) as [st3 c3]. constructor; [cbn; auto|]. apply IH. discriminate.
Qed.

Lemma groups_first text st it :
  exists st2 c2 bad2, (c2 = 0 \/ 1 < c2) /\
  groups_from script st 0 false [] (it :: text) = groups_from script st2 c2 bad2 [it] text.
Proof.
  cbn [groups_from]. destruct (meet script st 0 false (fst it)) as [[st1 sc] bad1].
  assert (X : compatible 0 sc = true) by (unfold compatible, strong; lia). rewrite X.
  unfold absorb. change (negb (strong 0)) with true. cbn [andb].
  destruct (strong sc) eqn:ES; do 3 eexists; (split; [|reflexivity]); unfold strong in ES; lia.
Qed.

Lemma script_groups_concat text : concat (map fst (script_groups script text)) = text.
Proof. destruct text as [|it text]; [reflexivity|]. unfold script_groups. now rewrite groups_concat. Qed.

Lemma script_groups_nonempty text : Forall (fun g => fst g <> []) (script_groups script text).
Proof.
  destruct text as [|it text]; [constructor|]. unfold script_groups.
  destruct (groups_first text [] it) as [st2 [c2 [b2 [_ ->]]]]. apply groups_nonempty. discriminate.
Qed.

(** The run's script never changes once strong. *)
Lemma groups_head_strong : forall text st code bad cur, 1 < code ->
  exists g gs, groups_from script st code bad cur text = (g, code) :: gs.
Proof.
  induction text as [|it text IH]; intros st code bad cur H; cbn [groups_from]; [eauto|].
  destruct (meet script st code bad (fst it)) as [[st1 sc] bad1]. destruct (compatible code sc).
  - unfold absorb. assert (X : strong code = true) by (unfold strong; lia). rewrite X. cbn [negb andb]. apply IH. exact H.
  - destruct (meet script st1 0 false (fst it)) as [[st2 sc2] bad2].
    destruct (absorb st2 0 sc2 (fst it)) as [st3 c3]. eauto.
Qed.

Definition plain_strong (it : Z * Z) : Prop := role_of (fst it) = Plain /\ 1 < script (fst it).

Definition good_group (g : list (Z * Z) * Z) : Prop :=
  (snd g = 0 \/ 1 < snd g) /\ forall it, In it (fst g) -> plain_strong it -> snd g = script (fst it).

Lemma meet_valid st code ch : valid_char ch = true -> exists st1 sc, meet script st code false ch = (st1, sc, false) /\
  (role_of ch = Plain -> sc = script ch).
Proof.
  intros V. unfold meet. rewrite V. cbn [negb orb].
  destruct (role_of ch); do 2 eexists; (split; [reflexivity|]); intros; congruence || reflexivity.
Qed.

Lemma absorb_code st code sc ch : (code = 0 \/ 1 < code) -> compatible code sc = true ->
  exists st2 c2, absorb st code sc ch = (st2, c2) /\ (c2 = 0 \/ 1 < c2) /\ (1 < code -> c2 = code) /\ (1 < sc -> c2 = sc).
Proof.
  intros H C. unfold absorb, compatible, strong in *.
  destruct (negb (1 <? code) && (1 <? sc)) eqn:E; do 2 eexists; (split; [reflexivity|]); lia.
Qed.

Lemma groups_good : forall text st code cur,
  well_formed text -> (code = 0 \/ 1 < code) ->
  (forall it, In it cur -> plain_strong it -> code = script (fst it)) ->
  Forall good_group (groups_from script st code false cur text).
Proof.
  induction text as [|it text IH]; intros st code cur W HC HI; cbn [groups_from].
  - constructor; [|constructor]. split; cbn [fst snd]; [auto|]. intros it I. apply HI. now apply in_rev.
  - inversion W as [|? ? W1 W2]; subst.
    destruct (@meet_valid st code (fst it) W1) as [st1 [sc [-> HS]]].
    destruct (compatible code sc) eqn:EC.
    + destruct (@absorb_code st1 code sc (fst it) HC EC) as [st2 [c2 [-> [A1 [A2 A3]]]]].
      apply IH; auto. intros it' [<-|I] PS.
      * destruct PS as [P1 P2]. rewrite A3; [auto|]. rewrite HS; auto.
      * rewrite <- (HI it' I PS). apply A2. destruct HC as [->|]; [|auto].
        pose proof (HI it' I PS). destruct PS as [_ PS]. lia.
    + destruct (@meet_valid st1 0 (fst it) W1) as [st2 [sc2 [-> HS2]]].
      assert (X : compatible 0 sc2 = true) by (unfold compatible, strong; lia).
      destruct (@absorb_code st2 0 sc2 (fst it) (or_introl eq_refl) X) as [st3 [c3 [-> [A1 [A2 A3]]]]].
      constructor.
      * split; cbn [fst snd]; [auto|]. intros it' I. apply HI. now apply in_rev.
      * apply IH; auto. intros it' [<-|[]] [P1 P2]. rewrite A3; [auto|]. rewrite HS2; auto.
Qed.

Lemma script_groups_good text : well_formed text -> Forall good_group (script_groups script text).
Proof.
  intros W. destruct text as [|it text]; [constructor|]. unfold script_groups.
  apply groups_good; auto. intros it' [].
Qed.

(** Adjacent groups have different, strong scripts. *)
Fixpoint changes (gs : list (list (Z * Z) * Z)) : Prop :=
  match gs with
  | g1 :: ((g2 :: _) as gs') => (1 < snd g1 /\ 1 < snd g2 /\ snd g1 <> snd g2) /\ changes gs'
  | _ => True
  end.

Lemma drop_to_idem o st : drop_to o (drop_to o st) = drop_to o st.
Proof.
  induction st as [|[p c] st IH]; cbn; [reflexivity|]. destruct (p =? o) eqn:E; [|exact IH].
  cbn. rewrite E. reflexivity.
Qed.

(** Meeting the character that broke a run again asks for the same script. *)
Lemma meet_again st code bad ch st1 sc bad1 : 
  meet script st code bad ch = (st1, sc, bad1) -> compatible code sc = false ->
  exists st2 bad2, meet script st1 0 false ch = (st2, sc, bad2).
Proof.
  unfold meet. intros M C.
  assert (CS : 1 < code /\ 1 < sc) by (unfold compatible, strong in C; lia).
  remember (bad || negb (valid_char ch)) as b eqn:EB.
  destruct (role_of ch) as [|o|o].
  - injection M as <- <- <-. destruct b; [lia|]. symmetry in EB. apply orb_false_elim in EB. destruct EB as [_ EB].
    cbn [orb]. rewrite EB. eauto.
  - injection M as <- <- <-. destruct b; [lia|]. symmetry in EB. apply orb_false_elim in EB. destruct EB as [_ EB].
    cbn [orb]. rewrite EB. eauto.
  - injection M as <- <- <-. rewrite drop_to_idem. destruct (drop_to o st) as [|[p c] st'].
    + destruct b; [lia|]. symmetry in EB. apply orb_false_elim in EB. destruct EB as [_ EB].
      cbn [orb]. rewrite EB. eauto.
    + eauto.
Qed.

Lemma groups_change : forall text st code bad cur, changes (groups_from script st code bad cur text).
Proof.
  induction text as [|it text IH]; intros; cbn [groups_from]; [exact I|].
  destruct (meet script st code bad (fst it)) as [[st1 sc] bad1] eqn:EM. destruct (compatible code sc) eqn:EC.
  - destruct (absorb st1 code sc (fst it)) as [st2 c2]. apply IH.
  - destruct (meet_again _ _ _ _ EM EC) as [st2 [bad2 ->]].
    assert (CS : 1 < code /\ 1 < sc /\ code <> sc) by (unfold compatible, strong in EC; lia).
    unfold absorb. assert (X : negb (strong 0) && strong sc = true) by (unfold strong; lia). rewrite X.
    match goal with |- changes (_ :: groups_from script ?s2 _ _ _ _) => specialize (IH s2 sc bad2 [it]);
      destruct (@groups_head_strong text s2 sc bad2 [it] ltac:(lia)) as [g [gs E]] end.
    rewrite E in *. cbn [changes snd]. auto.
Qed.

Lemma script_groups_change text : changes (script_groups script text).
Proof. destruct text; [exact I|]. apply groups_change. Qed.

(** The script of a group is the script of some character of the text. *)
Definition seen (all : list (Z * Z)) (c : Z) : Prop := exists it, In it all /\ script (fst it) = c.

Lemma groups_seen all : forall text st code bad cur,
  incl text all -> (1 < code -> seen all code) -> Forall (fun e => 1 < snd e -> seen all (snd e)) st ->
  Forall (fun g => 1 < snd g -> seen all (snd g)) (groups_from script st code bad cur text).
Proof.
  assert (MS : forall st code bad it st1 sc bad1, In it all -> (1 < code -> seen all code) ->
    Forall (fun e => 1 < snd e -> seen all (snd e)) st -> meet script st code bad (fst it) = (st1, sc, bad1) ->
    Forall (fun e => 1 < snd e -> seen all (snd e)) st1 /\ (1 < sc -> seen all sc)).
  { intros st code bad it st1 sc bad1 I HC F M. unfold meet in M.
    assert (O : forall b : bool, 1 < (if b then -1 else script (fst it)) -> seen all (if b then -1 else script (fst it))).
    { intros []; [lia|]. intros _. exists it. auto. }
    destruct (role_of (fst it)) as [|o|o]; injection M as <- <- <-.
    - split; [auto|apply O].
    - split; [|apply O]. rewrite Forall_forall in *. intros e HE.
      assert (HE' : In e ((o, code) :: st)).
      { rewrite <- (firstn_skipn 32 ((o, code) :: st)). apply in_or_app. left. exact HE. }
      destruct HE' as [<-|HE']; auto.
    - assert (FD : Forall (fun e => 1 < snd e -> seen all (snd e)) (drop_to o st)).
      { clear -F. induction F as [|[p c] st H F IH]; cbn; [constructor|]. destruct (p =? o); [constructor; auto|auto]. }
      split; [exact FD|]. destruct (drop_to o st) as [|[p c] st']; [apply O|]. inversion FD; subst. auto. }
  assert (AS : forall st code sc ch st2 c2, (1 < code -> seen all code) -> (1 < sc -> seen all sc) ->
    Forall (fun e => 1 < snd e -> seen all (snd e)) st -> absorb st code sc ch = (st2, c2) ->
    Forall (fun e => 1 < snd e -> seen all (snd e)) st2 /\ (1 < c2 -> seen all c2)).
  { intros st code sc ch st2 c2 HC HS F A. unfold absorb in A.
    assert (TL : forall st, Forall (fun e : Z * Z => 1 < snd e -> seen all (snd e)) st -> Forall (fun e => 1 < snd e -> seen all (snd e)) (match role_of ch with Closes _ => tl st | _ => st end)).
    { intros st0 F0. destruct (role_of ch); auto. destruct F0; cbn; auto. }
    destruct (negb (strong code) && strong sc) eqn:E; injection A as <- <-.
    - split; [|auto]. apply TL. unfold resolve. apply Forall_map. eapply Forall_impl; [|exact F].
      cbn. intros e He. destruct (strong (snd e)) eqn:ES; [auto|]. cbn. auto.
    - split; auto. }
  induction text as [|it text IH]; intros st code bad cur I HC F; cbn [groups_from].
  - constructor; auto.
  - assert (In it all) by (apply I; cbn; auto). assert (incl text all) by (intros x Hx; apply I; cbn; auto).
    destruct (meet script st code bad (fst it)) as [[st1 sc] bad1] eqn:EM.
    destruct (MS _ _ _ _ _ _ _ H HC F EM) as [F1 H1].
    destruct (compatible code sc) eqn:EC.
    + destruct (absorb st1 code sc (fst it)) as [st2 c2] eqn:EA. destruct (AS _ _ _ _ _ _ HC H1 F1 EA). auto.
    + destruct (meet script st1 0 false (fst it)) as [[st2 sc2] bad2] eqn:EM2.
      assert (C0 : 1 < 0 -> seen all 0) by lia.
      destruct (MS _ _ _ _ _ _ _ H C0 F1 EM2) as [F2 H2].
      destruct (absorb st2 0 sc2 (fst it)) as [st3 c3] eqn:EA. destruct (AS _ _ _ _ _ _ C0 H2 F2 EA).
      constructor; auto.
Qed.

Lemma script_groups_seen text : Forall (fun g => 1 < snd g -> seen text (snd g)) (script_groups script text).
Proof.
  destruct text as [|it text]; [constructor|]. apply groups_seen; [apply incl_refl|lia|constructor].
Qed.

(** * Matching brackets *)
(** Script of the group under construction once the rest of the text is read. *)
Definition final (st : stack) (code : Z) (text : list (Z * Z)) : Z :=
  match groups_from script st code false [] text with (_, c) :: _ => c | [] => 0 end.
(** Labels of the remaining characters. *)
Definition rest_labels (st : stack) (code : Z) (text : list (Z * Z)) : list Z :=
  labels (groups_from script st code false [] text).

Definition add_front (pre : list (Z * Z)) (gs : list (list (Z * Z) * Z)) :=
  match gs with [] => [] | (g, c) :: gs' => (pre ++ g, c) :: gs' end.
Lemma groups_cur : forall text st code bad cur,
  groups_from script st code bad cur text = add_front (rev cur) (groups_from script st code bad [] text).
Proof.
  induction text as [|it text IH]; intros; cbn [groups_from].
  - cbn. rewrite app_nil_r. reflexivity.
  - destruct (meet script st code bad (fst it)) as [[st1 sc] bad1]. destruct (compatible code sc).
    + destruct (absorb st1 code sc (fst it)) as [st2 c2]. rewrite (IH _ _ _ (it :: cur)), (IH _ _ _ [it]).
      destruct (groups_from script st2 c2 bad1 [] text) as [|[g c] gs]; [reflexivity|].
      cbn. rewrite <- !app_assoc. reflexivity.
    + destruct (meet script st1 0 false (fst it)) as [[st2 sc2] bad2].
      destruct (absorb st2 0 sc2 (fst it)) as [st3 c3]. cbn. rewrite app_nil_r. reflexivity.
Qed.

(** One character: either it joins the run, or it starts a new one. *)
Lemma step_join st code it text st1 sc :
  valid_char (fst it) = true -> meet script st code false (fst it) = (st1, sc, false) -> compatible code sc = true ->
  final st code (it :: text) = final (fst (absorb st1 code sc (fst it))) (snd (absorb st1 code sc (fst it))) text /\
  rest_labels st code (it :: text) =
    final (fst (absorb st1 code sc (fst it))) (snd (absorb st1 code sc (fst it))) text ::
    rest_labels (fst (absorb st1 code sc (fst it))) (snd (absorb st1 code sc (fst it))) text.
Proof.
  intros V M C. unfold final, rest_labels. cbn [groups_from]. rewrite M, C.
  destruct (absorb st1 code sc (fst it)) as [st2 c2]. cbn [fst snd]. rewrite groups_cur.
  destruct (groups_progress st2 c2 false [] text) as [g [gs [c E]]]. rewrite E. cbn. auto.
Qed.
Lemma step_break st code it text st1 sc st2 :
  valid_char (fst it) = true -> meet script st code false (fst it) = (st1, sc, false) -> compatible code sc = false ->
  meet script st1 0 false (fst it) = (st2, sc, false) ->
  final st code (it :: text) = code /\
  rest_labels st code (it :: text) =
    final (fst (absorb st2 0 sc (fst it))) (snd (absorb st2 0 sc (fst it))) text ::
    rest_labels (fst (absorb st2 0 sc (fst it))) (snd (absorb st2 0 sc (fst it))) text.
Proof.
  intros V M C M2. unfold final, rest_labels. cbn [groups_from]. rewrite M, C, M2.
  destruct (absorb st2 0 sc (fst it)) as [st3 c3]. cbn [fst snd]. rewrite (groups_cur _ _ _ _ [it]).
  destruct (groups_progress st3 c3 false [] text) as [g [gs [c E]]]. rewrite E. cbn. auto.
Qed.
Lemma final_strong st code text : 1 < code -> final st code text = code.
Proof.
  intros H. unfold final. destruct (@groups_head_strong text st code false [] H) as [g [gs ->]]. reflexivity.
Qed.

(** The newest open brackets [bs] each know the label of the run they are in. *)
Definition knows (st : stack) (code : Z) (text : list (Z * Z)) (bs : list (Z * Z)) : Prop :=
  exists below, exists top, st = top ++ below /\
  Forall2 (fun e b => fst e = fst b /\
             (1 < snd e /\ snd e = snd b \/ snd e <= 1 /\ code <= 1 /\ final st code text = snd b)) top bs.

Hypothesis brackets_weak : forall ch, role_of ch <> Plain -> script ch <= 1.

Definition coded (code : Z) : Prop := code = 0 \/ 1 < code.

Lemma step_any st code it text : valid_char (fst it) = true -> coded code ->
  exists st' code', coded code' /\
    rest_labels st code (it :: text) = final st' code' text :: rest_labels st' code' text.
Proof.
  intros V HC. destruct (@meet_valid st code (fst it) V) as [st1 [sc [M _]]].
  destruct (compatible code sc) eqn:EC.
  - destruct (step_join _ _ it text V M EC) as [_ E].
    destruct (@absorb_code st1 code sc (fst it) HC EC) as [st2 [c2 [A [A1 _]]]].
    rewrite A in E. eauto.
  - destruct (meet_again _ _ _ _ M EC) as [st2 [bad2 M2]].
    assert (bad2 = false) by (destruct (@meet_valid st1 0 (fst it) V) as [? [? [M3 _]]]; congruence). subst bad2.
    destruct (step_break _ _ it text V M EC M2) as [_ E].
    assert (X : compatible 0 sc = true) by (unfold compatible, strong; lia).
    destruct (@absorb_code st2 0 sc (fst it) (or_introl eq_refl) X) as [st3 [c3 [A [A1 _]]]].
    rewrite A in E. eauto.
Qed.

Lemma knows_resolve st code text st' text' bs c :
  knows st code text bs -> code <= 1 -> 1 < c -> st' = resolve c st ->
  final st code text = c -> knows st' c text' bs.
Proof.
  intros [below [top [-> F]]] HC HS -> HF.
  exists (resolve c below), (resolve c top). split; [apply map_app|].
  rewrite HF in F. clear HF. generalize (final (resolve c (top ++ below)) c text'). intros f.
  clear -F HS. induction F as [|e b top0 bs0 H F IH]; unfold resolve; cbn [map]; [constructor|].
  constructor; [|apply IH]. destruct H as [H1 H2]. unfold strong.
  destruct (1 <? snd e) eqn:E.
  - split; [auto|]. destruct H2 as [H2|H2]; [auto|lia].
  - cbn [fst snd]. split; [auto|]. left. destruct H2 as [H2|H2]; [lia|]. lia.
Qed.

(** Once the run's script is known all remembered brackets are strong; the
    remaining text no longer matters to them. *)
Lemma knows_strong st code text code' text' bs :
  knows st code text bs -> 1 < code -> knows st code' text' bs.
Proof.
  intros [below [top [-> F]]] HC. exists below, top. split; [reflexivity|].
  eapply Forall2_imp; [|exact F]. cbn. intros e b [H1 H2]. split; [auto|]. lia.
Qed.
Lemma knows_resolve_strong st code text code' text' bs c :
  knows st code text bs -> 1 < code -> knows (resolve c st) code' text' bs.
Proof.
  intros [below [top [-> F]]] HC. exists (resolve c below), top. split.
  - unfold resolve. rewrite map_app. f_equal. clear -F HC.
    induction F as [|e b top0 bs0 H F IH]; cbn [map]; [reflexivity|]. rewrite IH. unfold strong.
    destruct (1 <? snd e) eqn:E; [reflexivity|]. lia.
  - eapply Forall2_imp; [|exact F]. cbn. intros e b [H1 H2]. split; [auto|]. lia.
Qed.
Lemma knows_same st code text text' bs :
  knows st code text bs -> final st code text = final st code text' -> knows st code text' bs.
Proof. intros [below [top [E F]]] HF. exists below, top. split; [auto|]. rewrite <- HF. exact F. Qed.

Lemma step_plain st code it text bs :
  valid_char (fst it) = true -> role_of (fst it) = Plain -> coded code -> knows st code (it :: text) bs ->
  exists st' code', coded code' /\ knows st' code' text bs /\
    rest_labels st code (it :: text) = final st' code' text :: rest_labels st' code' text.
Proof.
  intros V HP HC K.
  assert (M : forall c, meet script st c false (fst it) = (st, script (fst it), false)).
  { intros c. unfold meet. rewrite V, HP. reflexivity. }
  destruct (compatible code (script (fst it))) eqn:EC.
  - destruct (step_join _ _ it text V (M code) EC) as [E1 E2]. unfold absorb in E1, E2. rewrite HP in E1, E2.
    destruct (negb (strong code) && strong (script (fst it))) eqn:ES; cbn [fst snd] in E1, E2;
      unfold strong in ES.
    + do 2 eexists. split; [|split; [|exact E2]]; [unfold coded; lia|].
      eapply knows_resolve; eauto; try lia. rewrite E1. apply final_strong. lia.
    + do 2 eexists. split; [|split; [|exact E2]]; [auto|]. eapply knows_same; eauto.
  - assert (CS : 1 < code /\ 1 < script (fst it)) by (unfold compatible, strong in EC; lia).
    destruct (step_break _ _ it text V (M code) EC (M 0)) as [_ E2]. unfold absorb in E2. rewrite HP in E2.
    assert (X : negb (strong 0) && strong (script (fst it)) = true) by (unfold strong; lia).
    rewrite X in E2. cbn [fst snd] in E2.
    do 2 eexists. split; [|split; [|exact E2]]; [unfold coded; lia|].
    eapply knows_resolve_strong; eauto; lia.
Qed.

Lemma step_open st code it o text bs :
  valid_char (fst it) = true -> role_of (fst it) = Opens o -> coded code -> knows st code (it :: text) bs ->
  (length bs <= 31)%nat ->
  exists st' code' L, coded code' /\ knows st' code' text ((o, L) :: bs) /\
    rest_labels st code (it :: text) = L :: rest_labels st' code' text.
Proof.
  intros V HP HC K HL.
  assert (W : script (fst it) <= 1) by (apply brackets_weak; congruence).
  assert (M : meet script st code false (fst it) = (firstn 32 ((o, code) :: st), script (fst it), false)).
  { unfold meet. rewrite V, HP. reflexivity. }
  assert (EC : compatible code (script (fst it)) = true) by (unfold compatible, strong; lia).
  destruct (step_join _ _ it text V M EC) as [E1 E2]. unfold absorb in E1, E2. rewrite HP in E1, E2.
  assert (ES : negb (strong code) && strong (script (fst it)) = false) by (unfold strong; lia).
  rewrite ES in E1, E2. cbn [fst snd] in E1, E2.
  do 3 eexists. split; [exact HC|]. split; [|exact E2].
  destruct K as [below [top [-> F]]].
  assert (LT : length top = length bs) by (eapply Forall2_len; eauto).
  exists (firstn (31 - length top) below), ((o, code) :: top). split.
  - change (firstn 32 ((o, code) :: top ++ below)) with ((o, code) :: firstn 31 (top ++ below)).
    change (((o, code) :: top) ++ firstn (31 - length top) below) with ((o, code) :: top ++ firstn (31 - length top) below).
    rewrite firstn_app, (firstn_all2 top) by lia. reflexivity.
  - constructor.
    + cbn [fst snd]. split; [reflexivity|]. destruct HC as [->|HC]; [right; split; [lia|]; split; [lia|reflexivity]|].
      left. split; [auto|]. symmetry. apply final_strong. auto.
    + rewrite <- E1. eapply Forall2_imp; [|exact F]. cbn. intros e b H. exact H.
Qed.

Lemma step_close st code it o L text bs :
  valid_char (fst it) = true -> role_of (fst it) = Closes o -> coded code ->
  knows st code (it :: text) ((o, L) :: bs) ->
  exists st' code', coded code' /\ knows st' code' text bs /\
    rest_labels st code (it :: text) = L :: rest_labels st' code' text.
Proof.
  intros V HP HC K. pose proof K as K0. destruct K as [below [top [ES F]]].
  inversion F as [|e b top' bs' H F' ET EB]; subst. destruct e as [p c]. cbn [fst snd] in H. destruct H as [-> H].
  cbn [app] in *. remember (top' ++ below) as rest eqn:ER. set (st := (o, c) :: rest) in *.
  assert (K' : forall text, knows st code text ((o, L) :: bs) -> knows rest code text bs -> True) by auto. clear K'.
  assert (TAIL : forall code' text', knows st code' text' ((o, L) :: bs) -> final st code' text' = final rest code' text' \/ 1 < code' -> knows rest code' text' bs).
  { intros code' text' [bl [tp [EQ FF]]] HF. apply Forall2_inv_r in FF. destruct FF as [e1 [tp1 [-> [H1 FF1]]]].
    cbn [app] in EQ. injection EQ as _ EQ. exists bl, tp1. split; [auto|].
    eapply Forall2_imp; [|exact FF1]. cbn. intros e b [Q1 Q2]. split; [auto|].
    destruct HF as [<-|HF]; [auto|]. left. lia. }
  assert (M : forall k, meet script st k false (fst it) = (st, c, false)).
  { intros k. unfold meet. rewrite V, HP. unfold st. cbn [drop_to]. rewrite Z.eqb_refl. reflexivity. }
  destruct (compatible code c) eqn:EC.
  - destruct (step_join _ _ it text V (M code) EC) as [E1 E2]. unfold absorb in E1, E2. rewrite HP in E1, E2.
    destruct (negb (strong code) && strong c) eqn:EA; cbn [fst snd] in E1, E2; unfold strong in EA.
    + assert (FS : final st code (it :: text) = c) by (rewrite E1; apply final_strong; lia).
      assert (c = L) by lia. subst L.
      rewrite (final_strong (tl (resolve c st)) text) in E2 by lia.
      do 2 eexists. split; [|split; [|exact E2]]; [unfold coded; lia|].
      assert (KR : knows (resolve c st) c text ((o, c) :: bs)) by (eapply knows_resolve; eauto; lia).
      destruct KR as [bl [tp [EQ FF]]]. apply Forall2_inv_r in FF. destruct FF as [e1 [tp1 [-> [H1 FF1]]]].
      exists bl, tp1. split; [rewrite EQ; reflexivity|].
      eapply Forall2_imp; [|exact FF1]. cbn. intros e b [Q1 Q2]. split; [auto|]. left. lia.
    + cbn [tl st] in E1, E2. fold st in E1, E2.
      assert (FL : final rest code text = L).
      { destruct H as [[H1 H2]|[H1 [H2 H3]]]; [|congruence].
        assert (code = c) by (unfold compatible, strong in EC; lia). subst code.
        rewrite final_strong; lia. }
      rewrite FL in E2. do 2 eexists. split; [|split; [|exact E2]]; [auto|].
      destruct K0 as [bl [tp [EQ FF]]]. apply Forall2_inv_r in FF. destruct FF as [e1 [tp1 [-> [H1 FF1]]]].
      unfold st in EQ. cbn [app] in EQ. injection EQ as _ EQ. exists bl, tp1. split; [auto|].
      eapply Forall2_imp; [|exact FF1]. cbn. intros e b [Q1 Q2]. split; [auto|].
      rewrite E1 in Q2. exact Q2.
  - assert (CS : 1 < code /\ 1 < c) by (unfold compatible, strong in EC; lia).
    assert (c = L) by lia. subst L.
    destruct (step_break _ _ it text V (M code) EC (M 0)) as [_ E2]. unfold absorb in E2. rewrite HP in E2.
    assert (X : negb (strong 0) && strong c = true) by (unfold strong; lia).
    rewrite X in E2. cbn [fst snd] in E2. rewrite (final_strong (tl (resolve c st)) text) in E2 by lia.
    do 2 eexists. split; [|split; [|exact E2]]; [unfold coded; lia|].
    assert (KR : knows (resolve c st) c text ((o, c) :: bs)) by (eapply knows_resolve_strong; eauto; lia).
    destruct KR as [bl [tp [EQ FF]]]. apply Forall2_inv_r in FF. destruct FF as [e1 [tp1 [-> [H1 FF1]]]].
    exists bl, tp1. split; [rewrite EQ; reflexivity|].
    eapply Forall2_imp; [|exact FF1]. cbn. intros e b [Q1 Q2]. split; [auto|]. left. lia.
Qed.

Lemma nested_known d m : nested d m -> forall st code text bs,
  well_formed m -> coded code -> knows st code (m ++ text) bs -> (length bs + d <= 32)%nat ->
  exists st' code' ls, coded code' /\ knows st' code' text bs /\ length ls = length m /\
    rest_labels st code (m ++ text) = ls ++ rest_labels st' code' text.
Proof.
  induction 1 as [d|d it t HP HN IH|d o a b m t HA HB HM IHM HT IHT]; intros st code text bs W HC K HL.
  - exists st, code, []. auto.
  - inversion W as [|? ? W1 W2]; subst. cbn [app] in *.
    destruct (step_plain W1 HP HC K) as [st1 [c1 [A1 [A2 A3]]]].
    destruct (IH st1 c1 text bs W2 A1 A2 HL) as [st2 [c2 [ls [B1 [B2 [B3 B4]]]]]].
    exists st2, c2, (final st1 c1 (t ++ text) :: ls). rewrite A3, B4. cbn. auto.
  - inversion W as [|? ? W1 W2]; subst. apply Forall_app in W2. destruct W2 as [W2 W3].
    inversion W3 as [|? ? W4 W5]; subst.
    cbn [app] in *. rewrite <- app_assoc in *. cbn [app] in *.
    destruct (step_open W1 HA HC K) as [st1 [c1 [L [A1 [A2 A3]]]]]; [lia|].
    destruct (IHM st1 c1 (b :: t ++ text) _ W2 A1 A2) as [st2 [c2 [ls [B1 [B2 [B3 B4]]]]]]; [cbn; lia|].
    destruct (step_close W4 HB B1 B2) as [st3 [c3 [D1 [D2 D3]]]].
    destruct (IHT st3 c3 text bs W5 D1 D2 HL) as [st4 [c4 [ls2 [F1 [F2 [F3 F4]]]]]].
    exists st4, c4, (L :: ls ++ L :: ls2). split; [auto|]. split; [auto|]. split.
    + cbn. rewrite !app_length. cbn. lia.
    + rewrite A3, B4, D3, F4. cbn. rewrite <- app_assoc. reflexivity.
Qed.

Lemma any_known : forall pre st code text, well_formed pre -> coded code ->
  exists st' code' ls, coded code' /\ length ls = length pre /\
    rest_labels st code (pre ++ text) = ls ++ rest_labels st' code' text.
Proof.
  induction pre as [|it pre IH]; intros st code text W HC.
  - exists st, code, []. auto.
  - inversion W as [|? ? W1 W2]; subst. cbn [app].
    destruct (@step_any st code it (pre ++ text) W1 HC) as [st1 [c1 [A1 A2]]].
    destruct (IH st1 c1 text W2 A1) as [st2 [c2 [ls [B1 [B2 B3]]]]].
    exists st2, c2, (final st1 c1 (pre ++ text) :: ls). rewrite A2, B3. cbn. auto.
Qed.

Lemma matching_brackets pre a m b post o :
  well_formed (pre ++ a :: m ++ b :: post) -> role_of (fst a) = Opens o -> role_of (fst b) = Closes o ->
  nested 31 m ->
  let ls := labels (script_groups script (pre ++ a :: m ++ b :: post)) in
  exists c, nth_error ls (length pre) = Some c /\ nth_error ls (length pre + S (length m)) = Some c.
Proof.
  intros W HA HB HN ls.
  assert (EL : ls = rest_labels [] 0 (pre ++ a :: m ++ b :: post)).
  { unfold ls, script_groups, rest_labels. destruct pre; reflexivity. }
  rewrite EL. clear ls EL.
  apply Forall_app in W. destruct W as [W0 W]. inversion W as [|? ? W1 W']; subst.
  apply Forall_app in W'. destruct W' as [W2 W']. inversion W' as [|? ? W3 W4]; subst.
  destruct (@any_known pre [] 0 (a :: m ++ b :: post) W0 (or_introl eq_refl)) as [st0 [c0 [l0 [A1 [A2 A3]]]]].
  assert (K0 : knows st0 c0 (a :: m ++ b :: post) []) by (exists st0, []; split; [reflexivity|constructor]).
  destruct (step_open W1 HA A1 K0) as [st1 [c1 [L [B1 [B2 B3]]]]]; [cbn; lia|].
  destruct (@nested_known 31 m HN st1 c1 (b :: post) _ W2 B1 B2) as [st2 [c2 [l2 [C1 [C2 [C3 C4]]]]]]; [cbn; lia|].
  destruct (step_close W3 HB C1 C2) as [st3 [c3 [D1 [D2 D3]]]].
  exists L. rewrite A3, B3, C4, D3, <- A2, <- C3. split.
  - rewrite nth_error_app2 by lia. rewrite Nat.sub_diag. reflexivity.
  - rewrite nth_error_app2 by lia. replace (length l0 + S (length l2) - length l0)%nat with (S (length l2)) by lia.
    cbn [nth_error]. rewrite nth_error_app2 by lia. rewrite Nat.sub_diag. reflexivity.
Qed.
End Refine.
