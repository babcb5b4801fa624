(** Effective font sizes: C50. *)
From Coq Require Import Lia ZArith.
From Verif Require Import Base FloatModel FloatProofs FontSizeModel FontSizeProofs.
Open Scope Z_scope.

(** C50: below 2^20 the size is exactly 100, 80, 70 or 56 percent of the nominal one,
    rounded down: neither the rounding of the literals nor that of the product shows. *)
Theorem C50_exact : forall n caps sub, 0 <= n < 2 ^ 20 ->
  effective_size n caps sub = Ok (n * ((if caps : bool then 8 else 10) * (if sub : bool then 7 else 10)) / 100).
Proof.
  intros n caps sub N. destruct (Z.eq_dec n 0) as [->|NZ]; [rewrite effective_0; rewrite Z.mul_0_l; reflexivity|]. destruct (effective_val n caps sub ltac:(lia)) as [E P]. rewrite E. cbv zeta.
  rewrite (exact_floor n caps sub _ eq_refl) in * by lia. destruct (Z.ltb_spec (n * ((if caps then 8 else 10) * (if sub then 7 else 10)) / 100) (2 ^ 32)) as [|G]; [reflexivity|].
  exfalso. assert (n * ((if caps then 8 else 10) * (if sub then 7 else 10)) / 100 <= n); [|lia]. apply Z.div_le_upper_bound; [lia|]. destruct caps, sub; lia.
Qed.
Print Assumptions C50_exact.

(** C50: for every nominal size below 2^24 the size is defined, at most the nominal one,
    and within one of the exact share. *)
Theorem C50_at_most : forall n caps sub, 0 <= n < 2 ^ 24 -> exists v, effective_size n caps sub = Ok v /\ 0 <= v <= n /\
  Z.abs (v - n * ((if caps : bool then 8 else 10) * (if sub : bool then 7 else 10)) / 100) <= 1.
Proof.
  intros n caps sub N. destruct (Z.eq_dec n 0) as [->|NZ]; [exists 0; rewrite effective_0; split; [reflexivity|]; rewrite Z.mul_0_l; split; [lia|vm_compute; discriminate]|].
  destruct (effective_val n caps sub ltac:(lia)) as [E P]. pose proof (grown_le n caps sub ltac:(lia)) as L. pose proof (near_floor n caps sub _ eq_refl ltac:(lia)) as A.
  assert (S0 : 0 < 2 ^ scale) by (rewrite scale_unit; pose proof unit_pos; lia). assert (U : grown n caps sub / 2 ^ scale <= n) by (apply Z.div_le_upper_bound; lia).
  exists (grown n caps sub / 2 ^ scale). rewrite E. cbv zeta. destruct (Z.ltb_spec (grown n caps sub / 2 ^ scale) (2 ^ 32)); [|lia]. split; [reflexivity|]. split; [lia|exact A].
Qed.
Print Assumptions C50_at_most.

(** C50: without a modifier it is the nominal size. *)
Theorem C50_unmodified : forall n, 0 <= n < 2 ^ 24 -> effective_size n false false = Ok n.
Proof.
  intros n N. destruct (Z.eq_dec n 0) as [->|NZ]; [reflexivity|]. destruct (effective_val n false false ltac:(lia)) as [E _]. rewrite E. cbv zeta. rewrite grown_small by lia. cbv [mant].
  assert (X : n * 16777216 * unit = n * 2 ^ scale) by (rewrite scale_unit; change (2 ^ 24) with 16777216; lia). rewrite X. rewrite (rn_exact (n * 2 ^ scale) scale n) by (unfold scale; try reflexivity; lia).
  rewrite Z.div_mul by (rewrite scale_unit; pose proof unit_pos; lia). destruct (Z.ltb_spec n (2 ^ 32)); [reflexivity|lia].
Qed.
Print Assumptions C50_unmodified.

(** C50: a larger nominal size never gives a smaller size, over the whole range of the
    argument. *)
Theorem C50_monotone : forall n n' caps sub v v', 0 <= n <= n' -> n' < 2 ^ 32 -> effective_size n caps sub = Ok v -> effective_size n' caps sub = Ok v' -> v <= v'.
Proof.
  intros n n' caps sub v v' N N' E E'. destruct (Z.eq_dec n' 0) as [Z0|NZ'].
  { assert (n = 0) by lia. subst. rewrite effective_0 in *. injection E as <-. injection E' as <-. lia. }
  destruct (effective_val n' caps sub ltac:(lia)) as [Q' P']. rewrite Q' in E'. cbv zeta in E'. destruct (Z.ltb_spec (grown n' caps sub / 2 ^ scale) (2 ^ 32)); [|discriminate]. injection E' as <-.
  destruct (Z.eq_dec n 0) as [->|NZ]; [rewrite effective_0 in E; injection E as <-; exact P'|].
  destruct (effective_val n caps sub ltac:(lia)) as [Q P]. rewrite Q in E. cbv zeta in E. destruct (Z.ltb_spec (grown n caps sub / 2 ^ scale) (2 ^ 32)); [|discriminate]. injection E as <-.
  apply Z.div_le_mono; [rewrite scale_unit; pose proof unit_pos; lia|]. apply grown_mono. lia.
Qed.
Print Assumptions C50_monotone.

(** C50: with a modifier the size is defined and at most the nominal one for every
    32-bit argument. *)
Theorem C50_modified : forall n caps sub, 0 <= n < 2 ^ 32 -> caps || sub = true -> exists v, effective_size n caps sub = Ok v /\ 0 <= v <= n.
Proof.
  intros n caps sub N MOD. destruct (Z.eq_dec n 0) as [->|NZ]; [exists 0; rewrite effective_0; split; [reflexivity|lia]|].
  destruct (effective_val n caps sub ltac:(lia)) as [E P]. pose proof (grown_le_big n caps sub ltac:(lia) MOD) as L.
  assert (S0 : 0 < 2 ^ scale) by (rewrite scale_unit; pose proof unit_pos; lia). assert (U : grown n caps sub / 2 ^ scale <= n) by (apply Z.div_le_upper_bound; lia).
  exists (grown n caps sub / 2 ^ scale). rewrite E. cbv zeta. destruct (Z.ltb_spec (grown n caps sub / 2 ^ scale) (2 ^ 32)); [|lia]. split; [reflexivity|lia].
Qed.
Print Assumptions C50_modified.

Example C50_used : effective_size 10 false true = Ok 7 /\ effective_size 48 true true = Ok 26 /\ effective_size 15 true false = Ok 12 /\ effective_size 16777215 false false = Ok 16777215.
Proof. vm_compute. repeat split. Qed.

(** From 2^24 on an unmodified size may grow, and the largest ones leave the range of the
    conversion back to an integer. *)
Theorem C50_large_refuted : effective_size (2 ^ 24 + 3) false false = Ok (2 ^ 24 + 4) /\ effective_size (2 ^ 32 - 1) false false = UB.
Proof. vm_compute. split; reflexivity. Qed.
Print Assumptions C50_large_refuted.
(** From 2^20 on the share is not always exact. *)
Theorem C50_share_refuted : exists n v, 0 <= n < 2 ^ 24 /\ effective_size n false true = Ok v /\ v <> n * 70 / 100.
Proof. exists 16770004, 11739003. vm_compute. repeat split; congruence. Qed.
Print Assumptions C50_share_refuted.
