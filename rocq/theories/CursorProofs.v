From Coq Require Import ZifyBool ZifyNat Permutation.
From Verif Require Import Base BaseFacts PackingModel PackingProofs CursorModel CursorSpec.
Open Scope Z_scope.
Lemma make_position p : 0 <= p < 2 ^ 31 -> cp_get_position (cp_make p) = p.
Proof. intros P. unfold cp_make. rewrite wrap_small by lia. rewrite get_position_eq. unfold lo. apply Z.mod_small. exact P. Qed.
Lemma make_affinity p : 0 <= p < 2 ^ 31 -> cp_get_affinity (cp_make p) = ADefault.
Proof. intros P. unfold cp_make. rewrite wrap_small by lia. rewrite get_affinity_eq by lia. unfold hi. rewrite Z.div_small by exact P. reflexivity. Qed.
Lemma position_range c : 0 <= cp_get_position c < 2 ^ 31.
Proof. rewrite get_position_eq. unfold lo. apply Z.mod_pos_bound. lia. Qed.

Lemma get_ok text decode i : 0 <= i < Z.of_nat (length text) -> u8_get text decode i = Ok (decode i).
Proof.
  intros I. unfold u8_get, zget. destruct (Z.ltb_spec i 0); [lia|]. destruct (@vget_lt _ text (Z.to_nat i)) as (x & E & _); [lia|]. rewrite E. reflexivity.
Qed.
Lemma line_break_is c : is_line_break c = true <-> ends_line c.
Proof. unfold is_line_break, ends_line. lia. Qed.

Section Moves.
Variables (text : list Z) (B : Z -> Prop) (n : Z) (following preceding : Z -> Z) (decode : Z -> Z) (white : Z -> bool).
Hypothesis N : 0 <= n < 2 ^ 31.
Hypothesis Stops : stops_ok B n.
Hypothesis F : follows_stops B following.
Hypothesis P : precedes_stops B preceding.

Lemma stop_range b : B b -> 0 <= b < 2 ^ 31.
Proof. intros H. destruct Stops as (_ & _ & S). specialize (S b H). lia. Qed.
Lemma following_spec c : let x := cp_get_position c in
  (exists r, following x = r /\ r <> DONE /\ next_stop B x r /\ 0 <= r < 2 ^ 31) \/ (following x = DONE /\ forall b, B b -> b <= x).
Proof.
  cbv zeta. destruct (F (cp_get_position c) (proj1 (position_range c))) as [H|H]; [left|right; exact H].
  eexists. split; [reflexivity|]. pose proof (stop_range _ (proj1 H)). split; [unfold DONE; lia|]. split; [exact H|lia].
Qed.
Lemma preceding_spec c : let x := cp_get_position c in
  (exists r, preceding x = r /\ r <> DONE /\ prev_stop B x r /\ 0 <= r < 2 ^ 31) \/ (preceding x = DONE /\ forall b, B b -> x <= b).
Proof.
  cbv zeta. destruct (P (cp_get_position c) (proj1 (position_range c))) as [H|H]; [left|right; exact H].
  eexists. split; [reflexivity|]. pose proof (stop_range _ (proj1 H)). split; [unfold DONE; lia|]. split; [exact H|lia].
Qed.

Lemma next_loop x (Readable : n < Z.of_nat (length text)) : forall fuel c lastw, cp_get_position c <= n -> n - cp_get_position c <= Z.of_nat fuel -> x <= cp_get_position c -> (cp_get_position c = x \/ B (cp_get_position c)) ->
  (cp_get_position c = x -> True) -> lastw = white (decode (cp_get_position c)) ->
  (forall b, B b -> x < b <= cp_get_position c -> ~ starts_word B decode white x b) ->
  exists r, next_word_loop text following decode white fuel c lastw = Ok r /\
    (((forall b, B b -> b <= cp_get_position c) /\ r = c) \/
     (let q := cp_get_position r in B q /\ cp_get_position c < q /\ cp_get_affinity r = ADefault /\ (forall b, B b -> x < b < q -> ~ starts_word B decode white x b) /\
       (starts_word B decode white x q \/ forall b, B b -> b <= q))).
Proof.
  induction fuel as [|fuel IH]; intros c lastw CN FU XC CB _ LW NS; cbn [next_word_loop]; destruct (following_spec c) as [(r & -> & RD & (RB & RC & RM) & RR)|[-> AL]].
  - destruct Stops as (_ & _ & S). specialize (S r RB). lia.
  - rewrite Z.eqb_refl. exists c. split; [reflexivity|]. left. auto.
  - rewrite (proj2 (Z.eqb_neq _ _) RD). destruct Stops as (_ & _ & S). pose proof (S r RB) as SR. rewrite get_ok by lia. cbn [obind].
    pose proof (make_position r RR) as MP. pose proof (make_affinity r RR) as MA.
    assert (BT : forall b, B b -> x < b < r -> ~ starts_word B decode white x b).
    { intros b Bb L. apply NS; [exact Bb|]. destruct (Z.le_gt_cases b (cp_get_position c)); [lia|]. specialize (RM b Bb ltac:(lia)). lia. }
    assert (SW : starts_word B decode white x r <-> (negb (white (decode r)) && lastw || is_line_break (decode r)) = true).
    { rewrite orb_true_iff, andb_true_iff, negb_true_iff. unfold starts_word. split.
      - intros [H|(H & p & P1 & P2 & P3 & P4)]; [right; apply line_break_is; exact H|left]. split; [exact H|]. subst lastw.
        assert (p = cp_get_position c); [|subst p; exact P4].
        assert (p <= cp_get_position c). { destruct P1 as [->|P1]; [exact XC|]. destruct (Z.le_gt_cases p (cp_get_position c)); [assumption|]. specialize (RM p P1 ltac:(lia)). lia. }
        destruct CB as [CB|CB]; [lia|]. destruct (Z.eq_dec (cp_get_position c) x); [lia|]. specialize (P3 _ CB ltac:(lia)). lia.
      - intros [(H1 & H2)|H]; [right|left; apply line_break_is; exact H]. split; [exact H1|]. exists (cp_get_position c). split; [exact CB|]. split; [lia|]. split; [|congruence].
        intros q Bq L. destruct (Z.le_gt_cases q (cp_get_position c)); [assumption|]. specialize (RM q Bq ltac:(lia)). lia. }
    destruct (negb (white (decode r)) && lastw || is_line_break (decode r)).
    + exists (cp_make r). split; [reflexivity|]. right. cbv zeta. rewrite MP. split; [exact RB|]. split; [lia|]. split; [exact MA|]. split; [exact BT|]. left. apply SW. reflexivity.
    + destruct (IH (cp_make r) (white (decode r))) as (r2 & E & H); rewrite ?MP; auto; try lia.
      { intros b Bb L. destruct (Z.eq_dec b r) as [->|]; [|apply BT; [exact Bb|lia]]. intros H. apply SW in H. discriminate. }
      exists r2. split; [exact E|]. right. cbv zeta. destruct H as [[A ->]|(A1 & A2 & A3 & A4 & A5)].
      * rewrite MP in *. split; [exact RB|]. split; [lia|]. split; [exact MA|]. split; [exact BT|]. right. exact A.
      * rewrite MP in *. split; [exact A1|]. split; [lia|]. split; [exact A3|]. split; [exact A4|exact A5].
  - rewrite Z.eqb_refl. exists c. split; [reflexivity|]. left. auto.
Qed.

Lemma prev_loop x (Readable : n <= Z.of_nat (length text)) : forall fuel c lastw, cp_get_position c <= Z.of_nat fuel -> cp_get_position c <= x -> x <= n ->
  (cp_get_position c = x /\ lastw = true \/
   cp_get_position c < x /\ B (cp_get_position c) /\ lastw = white (decode (cp_get_position c)) /\ is_line_break (decode (cp_get_position c)) = false) ->
  (forall b, B b -> cp_get_position c < b < x -> ~ first_of_word B decode white b) ->
  exists r, prev_word_loop text preceding decode white fuel c lastw = Ok r /\
    (((cp_get_position c = x /\ (forall b, B b -> x <= b)) /\ r = c) \/
     (let q := cp_get_position r in B q /\ q < x /\ (cp_get_affinity r = ADefault \/ r = c) /\ (forall b, B b -> q < b < x -> ~ first_of_word B decode white b) /\
       (first_of_word B decode white q \/ forall b, B b -> q <= b))).
Proof.
  induction fuel as [|fuel IH]; intros c lastw FU XC XN CB NS; cbn [prev_word_loop]; destruct (preceding_spec c) as [(r & -> & RD & (RB & RC & RM) & RR)|[-> AL]].
  1: lia.
  1,3: rewrite Z.eqb_refl; exists c; split; [reflexivity|]; destruct CB as [[CE ->]|(CL & CBB & LW & LB)];
    [left; rewrite <- CE; auto|right; cbv zeta; repeat split; auto].
  rewrite (proj2 (Z.eqb_neq _ _) RD). destruct Stops as (_ & _ & S). pose proof (S r RB) as SR. rewrite get_ok by lia. cbn [obind].
  pose proof (make_position r RR) as MP. pose proof (make_affinity r RR) as MA.
  assert (PS : prev_stop B (cp_get_position c) r) by (split; [exact RB|split; [lia|exact RM]]).
  assert (UN : forall p, prev_stop B (cp_get_position c) p -> p = r).
  { intros p (P1 & P2 & P3). specialize (P3 r RB RC). specialize (RM p P1 P2). lia. }
  destruct (white (decode r) && negb lastw) eqn:E1.
  - exists c. split; [reflexivity|]. destruct CB as [[CE ->]|(CL & CBB & LW & LB)]; [rewrite andb_false_r in E1; discriminate|].
    right. cbv zeta. split; [exact CBB|]. split; [exact CL|]. split; [right; reflexivity|]. split; [exact NS|]. left. right.
    apply andb_true_iff in E1. destruct E1 as [E1 E2]. split; [destruct lastw; [discriminate|congruence]|]. intros p H. apply UN in H. subst p. exact E1.
  - assert (NC : forall b, B b -> r < b < x -> ~ first_of_word B decode white b).
    { intros b Bb L. destruct (Z.lt_trichotomy b (cp_get_position c)) as [H|[H|H]].
      - specialize (RM b Bb H). lia.
      - subst b. destruct CB as [[CE _]|(CL & CBB & LW & LB)]; [lia|]. intros [H|[H1 H2]]; [apply line_break_is in H; congruence|].
        rewrite H1 in LW. rewrite LW in E1. cbn in E1. rewrite andb_true_r in E1. specialize (H2 r PS). congruence.
      - apply NS; [exact Bb|lia]. }
    destruct (is_line_break (decode r)) eqn:E2.
    + exists (cp_make r). split; [reflexivity|]. right. cbv zeta. rewrite MP. split; [exact RB|]. split; [lia|]. split; [left; exact MA|]. split; [exact NC|]. left. left. apply line_break_is. exact E2.
    + destruct (IH (cp_make r) (white (decode r))) as (r2 & E & H); rewrite ?MP; auto; try lia; [right; repeat split; auto; lia|].
      exists r2. split; [exact E|]. right. cbv zeta. destruct H as [[[A _] _]|(A1 & A2 & A3 & A4 & A5)]; [rewrite MP in A; lia|].
      split; [exact A1|]. split; [exact A2|]. split; [destruct A3 as [A3|A3]; [left; exact A3|left; rewrite A3; exact MA]|]. split; [exact A4|exact A5].
Qed.
End Moves.

(** ** Ownership *)
Section Own.
Definition owned (c : option controller) : list nat := match c with Some c => match cc_iter c with Some p => [p] | None => [] end | None => [] end.
Lemma owners_set (l : list (option controller)) : forall i x y, nth_error l i = Some y ->
  Permutation (owned x ++ flat_map owned l) (owned y ++ flat_map owned (list_set l i x)).
Proof.
  induction l as [|z l IH]; intros i x y E; [destruct i; discriminate|]. destruct i as [|i]; cbn [list_set flat_map nth_error] in *.
  - inversion E; subst. rewrite !app_assoc. apply Permutation_app_tail. apply Permutation_app_comm.
  - rewrite !app_assoc. rewrite (Permutation_app_comm (owned x)), (Permutation_app_comm (owned y)). rewrite <- !app_assoc. apply Permutation_app_head. apply IH. exact E.
Qed.
Lemma in_list_set {A} (l : list A) : forall i x y, In y (list_set l i x) -> y = x \/ In y l.
Proof. induction l as [|z l IH]; intros [|i] x y H; cbn in *; auto; destruct H as [H|H]; auto. destruct (IH _ _ _ H); auto. Qed.

Definition good_world (w : cc_world) : Prop :=
  initialised w /\ NoDup (owners w ++ cw_deleted w) /\ forall p, In p (owners w ++ cw_deleted w) -> (p < length (cw_texts w))%nat.

Lemma cc_get_ok w i c : cc_get w i = Ok c -> nth_error (cw_all w) i = Some (Some c).
Proof. unfold cc_get. intros H. apply obind_ok_inv in H. destruct H as (x & H1 & H2). apply vget_ok in H1. destruct x; [|discriminate]. inversion H2; subst. exact H1. Qed.
Lemma cc_pointer_ok c p : cc_pointer c = Ok p -> cc_iter c = Some p.
Proof. unfold cc_pointer. destruct (cc_iter c); [congruence|discriminate]. Qed.

Lemma put_good w i c c' p : good_world w -> nth_error (cw_all w) i = Some (Some c) -> cc_iter c = Some p -> cc_iter c' = Some p -> good_world (cw_put w i (Some c')).
Proof.
  intros (I & ND & LT) G PC PC'. pose proof (@owners_set (cw_all w) i (Some c') (Some c) G) as O. cbn [owned] in O. rewrite PC, PC' in O. apply Permutation_cons_inv in O.
  split; [|split].
  - intros d H. apply in_list_set in H. destruct H as [H|H]; [inversion H; congruence|exact (I d H)].
  - eapply Permutation_NoDup; [|exact ND]. apply Permutation_app_tail. exact O.
  - intros q H. apply LT. eapply Permutation_in; [|exact H]. apply Permutation_app_tail. symmetry. exact O.
Qed.

Lemma move_assign_good w a b w' : good_world w -> cc_move_assign w a b = Ok w' -> good_world w'.
Proof.
  intros GW E. unfold cc_move_assign in E.
  apply obind_ok_inv in E. destruct E as (ca & Ea & E). apply obind_ok_inv in E. destruct E as (cb & Eb & E).
  apply obind_ok_inv in E. destruct E as (p & Ep & E). apply obind_ok_inv in E. destruct E as (q & Eq & E).
  apply obind_ok_inv in E. destruct E as (cb' & Eb' & E). inversion E; subst w'; clear E.
  apply cc_get_ok in Ea, Eb, Eb'. apply cc_pointer_ok in Ep, Eq. cbn [cw_put cw_all] in Eb'.
  set (na := {| cc_iter := Some q; cc_text := cc_text ca |}) in *.
  pose proof (@owners_set (cw_all w) a (Some na) (Some ca) Ea) as O1. cbn [owned na cc_iter] in O1. rewrite Ep in O1.
  pose proof (@owners_set _ b (Some {| cc_iter := Some p; cc_text := cc_text cb' |}) (Some cb') Eb') as O2. cbn [owned cc_iter] in O2.
  assert (IB : cc_iter cb' = Some q).
  { destruct (Nat.eq_dec a b) as [->|D].
    - rewrite nth_error_list_set_same in Eb' by (apply nth_error_Some; congruence). inversion Eb'; subst. reflexivity.
    - rewrite nth_error_list_set_other in Eb' by congruence. congruence. }
  rewrite IB in O2. cbn [app] in O1, O2.
  assert (O : Permutation (flat_map owned (cw_all w)) (flat_map owned (list_set (list_set (cw_all w) a (Some na)) b (Some {| cc_iter := Some p; cc_text := cc_text cb' |})))).
  { apply (@Permutation_cons_inv _ _ _ q). etransitivity; [exact O1|exact O2]. }
  destruct GW as (I & ND & LT). split; [|split].
  - intros d H. cbn in H. apply in_list_set in H. destruct H as [H|H]; [inversion H; subst; discriminate|].
    apply in_list_set in H. destruct H as [H|H]; [inversion H; subst; discriminate|exact (I d H)].
  - eapply Permutation_NoDup; [|exact ND]. apply Permutation_app_tail. exact O.
  - intros z H. apply LT. eapply Permutation_in; [|exact H]. apply Permutation_app_tail. symmetry. exact O.
Qed.

Lemma step_good w o w' : good_world w -> cc_step w o = Ok w' -> good_world w'.
Proof.
  intros GW E. destruct o as [|i|a b|b|i t]; cbn [cc_step] in E.
  - inversion E; subst; clear E. destruct GW as (I & ND & LT). unfold good_world, owners. cbn [cw_all cw_texts cw_deleted]. rewrite flat_map_app. cbn [flat_map owned cc_iter app]. split; [|split].
    + intros d H. cbn [cw_all] in H. apply in_app_iff in H. destruct H as [H|[H|[]]]; [exact (I d H)|inversion H; subst; discriminate].
    + rewrite <- app_assoc. apply Permutation_NoDup with (l := length (cw_texts w) :: owners w ++ cw_deleted w); [apply Permutation_middle|].
      constructor; [|exact ND]. intros H. specialize (LT _ H). lia.
    + intros p H. rewrite app_length. cbn. rewrite <- app_assoc in H. apply in_app_iff in H. destruct H as [H|[H|H]]; [specialize (LT p ltac:(apply in_app_iff; left; exact H)); lia|lia|].
      specialize (LT p ltac:(apply in_app_iff; right; exact H)). lia.
  - apply obind_ok_inv in E. destruct E as (c & Ec & E). apply obind_ok_inv in E. destruct E as (p & Ep & E). inversion E; subst; clear E.
    apply cc_get_ok in Ec. apply cc_pointer_ok in Ep. pose proof (@owners_set (cw_all w) i None (Some c) Ec) as O. cbn [owned app] in O. rewrite Ep in O. cbn [app] in O.
    assert (O2 : Permutation (owners w ++ cw_deleted w) (flat_map owned (list_set (cw_all w) i None) ++ cw_deleted w ++ [p])).
    { etransitivity; [apply Permutation_app_tail; exact O|]. cbn [app]. rewrite app_assoc. apply Permutation_cons_append. }
    destruct GW as (I & ND & LT). unfold good_world, owners. cbn [cw_put cw_all cw_texts cw_deleted]. split; [|split].
    + intros d H. cbn in H. apply in_list_set in H. destruct H as [H|H]; [discriminate|exact (I d H)].
    + eapply Permutation_NoDup; [exact O2|exact ND].
    + intros q H. apply LT. eapply Permutation_in; [symmetry; exact O2|exact H].
  - eapply move_assign_good; eassumption.
  - exfalso. unfold cc_move_assign in E. unfold cc_get at 1 in E. cbn [cw_all] in E. rewrite vget_mid in E. cbn in E.
    destruct (cc_get _ b); discriminate.
  - apply obind_ok_inv in E. destruct E as (c & Ec & E). apply obind_ok_inv in E. destruct E as (p & Ep & E). inversion E; subst; clear E.
    apply cc_get_ok in Ec. apply cc_pointer_ok in Ep.
    destruct (@put_good w i c {| cc_iter := cc_iter c; cc_text := t |} p GW Ec Ep Ep) as (I & ND & LT).
    split; [exact I|]. split; [exact ND|]. intros q H. cbn [cw_texts]. rewrite length_list_set. exact (LT q H).
Qed.
Lemma steps_good os : forall w w', good_world w -> cc_steps w os = Ok w' -> good_world w'.
Proof.
  induction os as [|o os IH]; intros w w' G E; cbn [cc_steps] in E; [inversion E; subst; exact G|].
  apply obind_ok_inv in E. destruct E as (w1 & E1 & E2). eapply IH; [|exact E2]. eapply step_good; eassumption.
Qed.
End Own.
