(** What moving a UI object costs. *)
From Verif Require Import Base BaseFacts TreeModel TreeSpec TreeProofs CostModel CostSpec CostProofs.

(** C95: moving an object computes its own position and those of its children once, nothing
    outside its descendants, and each descendant twice as often as its parent. *)
Theorem C95_cost_partial : forall P (add : P -> P -> P) h c p, reachable add h -> exists fuel h' log,
  set_position_log add fuel h c p = Ok (h', log) /\ set_position add fuel h c p = Ok h' /\
  count_occ Nat.eq_dec log c = 1 /\
  (forall x d, deep h c x (S d) -> count_occ Nat.eq_dec log x = 2 ^ d) /\
  (forall x, ~ below h c x -> count_occ Nat.eq_dec log x = 0).
Proof.
  intros P add h c p R. destruct (reachable_good _ _ _ R) as [S F _].
  set (h0 := upd h c (set_pos (h c) p)).
  assert (E0 : forall x, ob_parent (h0 x) = ob_parent (h x) /\ ob_first (h0 x) = ob_first (h x) /\ ob_next (h0 x) = ob_next (h x) /\ ob_prev (h0 x) = ob_prev (h x) /\ ob_last (h0 x) = ob_last (h x)).
  { intros x. unfold h0, upd. destruct (Nat.eqb_spec x c); subst; cbn; repeat split. }
  assert (S0 : shape P (fun x => ob_parent (h0 x)) h0).
  { eapply shape_ext; [exact S|intros x; apply E0|]. intros x. destruct (E0 x) as (_ & A & B & C & D). repeat split; assumption. }
  assert (F0 : forall x, fin (fun y => ob_parent (h0 y)) x) by (intros x; eapply fin_ext; [|apply F]; intros y; apply E0).
  destruct (visit_counts P add h0 (proj1 S0) F0 c (F0 c)) as (f & H). destruct (H (place add h0 c) (place_links _ _ _ _)) as (h' & log & E & C).
  assert (EL : set_position_log add f h c p = Ok (h', c :: log)).
  { unfold set_position_log, recalc_log. fold h0. cbv zeta. replace (ob_first (place add h0 c c)) with (ob_first (h0 c)) by (symmetry; apply place_links). rewrite E. reflexivity. }
  exists f, h', (c :: log). split; [exact EL|]. split.
  { unfold set_position, recalc. fold h0. cbv zeta. replace (ob_first (place add h0 c c)) with (ob_first (h0 c)) by (symmetry; apply place_links). rewrite log_visit, E. reflexivity. }
  assert (DE : forall x d, deep h c x d -> deep h0 c x d).
  { intros x d D. induction D as [|z y k Q D IH]; [constructor|]. econstructor; [|exact IH]. destruct (E0 z) as [-> _]. exact Q. }
  assert (DB : forall x d, deep h0 c x d -> below h c x).
  { intros x d D. induction D as [|z y k Q D IH]; [constructor|]. econstructor; [|exact IH]. destruct (E0 z) as [<- _]. exact Q. }
  split; [|split].
  - cbn. destruct (Nat.eq_dec c c); [|congruence]. rewrite (proj2 (C c)); [reflexivity|]. apply fin_self. apply F0.
  - intros x d D. apply DE in D. cbn. destruct (Nat.eq_dec c x) as [->|N]; [exfalso; exact (fin_self _ _ _ (F0 x) d D)|]. apply (C x). exact D.
  - intros x NB. cbn. destruct (Nat.eq_dec c x) as [->|N]; [exfalso; apply NB; constructor|]. apply (C x). intros d D. apply NB. eapply DB. exact D.
Qed.
Print Assumptions C95_cost_partial.

(** The time to move an object grows as a power of two of the depth below it: with [S n] objects
    one below the other, the lowest is computed [2 ^ n] times. *)
Theorem C95_time_refuted : forall n, exists h fuel h' log, reachable Z.add h /\ (forall x, below h 0 x <-> x <= S n) /\
  set_position_log Z.add fuel h 0 1%Z = Ok (h', log) /\ count_occ Nat.eq_dec log (S n) = 2 ^ n.
Proof.
  intros n. destruct (chain_reachable (S n)) as (h & R & H). destruct (C95_cost_partial Z Z.add h 0 1%Z R) as (fuel & h' & log & E & _ & _ & C & _).
  assert (D : forall x, x <= S n -> deep h 0 x x).
  { induction x as [|x IH]; intros L; [constructor|]. econstructor; [|apply IH; lia]. rewrite H. replace ((1 <=? S x) && (S x <=? S n)) with true by (symmetry; apply andb_true_intro; split; apply Nat.leb_le; lia). f_equal. lia. }
  exists h, fuel, h', log. split; [exact R|]. split; [|split; [exact E|apply C; apply D; lia]].
  intros x. split.
  - intros B. destruct B as [|x y Q B]; [lia|]. rewrite H in Q. destruct ((1 <=? x) && (x <=? S n)) eqn:X; [|discriminate]. apply andb_prop in X. destruct X as [_ X]. apply Nat.leb_le in X. exact X.
  - intros L. assert (W : forall y k, deep h 0 y k -> below h 0 y) by (intros y k X; induction X; [constructor|econstructor; eassumption]).
    exact (W x x (D x L)).
Qed.
Print Assumptions C95_time_refuted.
