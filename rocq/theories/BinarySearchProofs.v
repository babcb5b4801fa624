From Verif Require Import Base BaseFacts BinarySearchModel.
Set Implicit Arguments.

Lemma half_lt (c : nat) : (0 < c)%nat -> (Nat.div c 2 < c)%nat.
Proof. intros H. apply Nat.div_lt; lia. Qed.

(** General loop lemma: whatever [cond] answers on the range, the loop stays in
    the range, terminates, and returns a point that is a local boundary. *)
Lemma loop_range fuel : forall cond first count,
  (count <= fuel)%nat ->
  (forall i, (first <= i < first + count)%nat -> exists b, cond i = Ok b) ->
  exists r, binary_search_loop fuel cond first count = Ok r /\
            (first <= r <= first + count)%nat /\
            (first < r -> cond (r - 1) = Ok true)%nat /\
            (r < first + count -> cond r = Ok false)%nat.
Proof.
  induction fuel as [|fuel IH]; intros cond first count Hf Hc.
  - assert (count = 0)%nat by lia. subst. cbn. exists first. repeat split; lia || auto; intros; lia.
  - cbn [binary_search_loop]. destruct (Nat.ltb_spec 0 count) as [Hpos|Hz].
    + pose proof (half_lt Hpos) as Hh.
      destruct (Hc (first + count / 2)%nat) as [b Hb]; [lia|].
      rewrite Hb. cbn [obind]. destruct b.
      * destruct (IH cond (first + count / 2 + 1)%nat (count - (count / 2 + 1))%nat) as (r & Hr & Hrange & Hlo & Hhi).
        { lia. }
        { intros i Hi. apply Hc. lia. }
        exists r. repeat split; auto; try lia.
        { intros Hlt. destruct (Nat.eq_dec r (first + count / 2 + 1)) as [->|Hne].
          - replace (first + count / 2 + 1 - 1)%nat with (first + count / 2)%nat by lia. auto.
          - apply Hlo. lia. }
        { intros Hlt. apply Hhi. lia. }
      * destruct (IH cond first (count / 2)%nat) as (r & Hr & Hrange & Hlo & Hhi).
        { lia. }
        { intros i Hi. apply Hc. lia. }
        exists r. repeat split; auto; try lia.
        intros Hlt. destruct (Nat.eq_dec r (first + count / 2)) as [->|Hne]; auto.
        apply Hhi. lia.
    + assert (count = 0)%nat by lia. subst. exists first. repeat split; lia || auto; intros; lia.
Qed.

Lemma binary_search_in_range cond first count :
  (forall i, (first <= i < first + count)%nat -> exists b, cond i = Ok b) ->
  exists r, binary_search first count cond = Ok r /\ (first <= r <= first + count)%nat.
Proof.
  intros H. destruct (@loop_range count cond first count (le_n _) H) as (r & Hr & Hrange & _).
  exists r. auto.
Qed.

Lemma binary_search_partition first count (p : nat -> bool) :
  (forall i j, first <= i -> i <= j -> j < first + count -> p j = true -> p i = true)%nat ->
  forall cond,
  (forall i, first <= i < first + count -> cond i = Ok (p i))%nat ->
  exists r, binary_search first count cond = Ok r /\ (first <= r <= first + count)%nat /\
    (forall i, first <= i < r -> p i = true)%nat /\
    (forall i, r <= i < first + count -> p i = false)%nat.
Proof.
  intros Hm cond Hc.
  destruct (@loop_range count cond first count (le_n _)) as (r & Hr & Hrange & Hlo & Hhi).
  { intros i Hi. exists (p i). auto. }
  exists r. repeat split; auto; try lia.
  - intros i Hi. assert (Hx : cond (r - 1)%nat = Ok true) by (apply Hlo; lia).
    rewrite Hc in Hx by lia. injection Hx as Hx.
    apply (Hm i (r - 1)%nat); auto; lia.
  - intros i Hi. destruct (p i) eqn:E; auto.
    assert (Hx : cond r = Ok false) by (apply Hhi; lia).
    rewrite Hc in Hx by lia. injection Hx as Hx.
    assert (p r = true) by (apply (Hm r i); auto; lia). congruence.
Qed.
