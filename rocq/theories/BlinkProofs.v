(** Proofs about the blinking of the caret. *)
From Coq Require Import ZArith Reals Lia Lra Psatz.
From Verif Require Import Base BaseFacts FloatModel TextBoxModel FloatRealProofs StyleProofs MetricsProofs BlinkSpec.
From Flocq Require Import Core.Core IEEE754.BinarySingleNaN.
Open Scope R_scope.

Notation eps := (/ 16777216).
Lemma rr_err x : Rabs (rr x - x) <= eps * Rabs x + eps * / 2.
Proof.
  destruct (Rle_or_lt (bpow radix2 (-126)) (Rabs x)) as [H|H].
  - pose proof (rr_rel x (or_intror H)). lra.
  - pose proof (rr_bound x (-126) ltac:(lia) ltac:(lra)) as B. pose proof bp126. pose proof (Rabs_pos x). pose proof (Rabs_triang (rr x) (- x)) as T. rewrite Rabs_Ropp in T.
    unfold Rminus. lra.
Qed.
Lemma fin_half : fin half (/ 2).
Proof.
  unfold half. pose proof (fin_int 1 ltac:(lia)) as A. pose proof (fin_int 2 ltac:(lia)) as B.
  change f32_1 with (f32_of_Z 1). replace (/ 2) with (rr (1 / 2)); [apply fin_div; [exact A|exact B|lra|]|].
  - rewrite Rabs_pos_eq by lra. apply Rle_trans with (bpow radix2 0); [cbn; lra|apply bpow_le; lia].
  - assert (P : bpow radix2 (-1) = / 2) by reflexivity. replace (1 / 2) with (IZR 1 * bpow radix2 (-1)) by (rewrite P; lra).
    rewrite rr_id; [rewrite P; lra|]. apply format_fixed; lia.
Qed.
Lemma fin_0 : fin f32_0 0.
Proof. change f32_0 with (f32_of_Z 0). apply (fin_int 0). lia. Qed.

(** Taking half a second off loses nothing. *)
Lemma format_less r : generic_format radix2 fexp32 r -> / 2 <= r <= bpow radix2 21 -> generic_format radix2 fexp32 (r - / 2).
Proof.
  intros F [L U]. set (e := cexp radix2 fexp32 r). assert (M0 : (0 <= mag radix2 r)%Z).
  { apply mag_ge_bpow. rewrite Rabs_pos_eq by lra. change (bpow radix2 (0 - 1)) with (/ 2). lra. }
  assert (M1 : (mag radix2 r <= 22)%Z).
  { apply mag_le_bpow; [lra|]. rewrite Rabs_pos_eq by lra. eapply Rle_lt_trans; [exact U|apply bpow_lt; lia]. }
  assert (E : (-24 <= e <= -2)%Z) by (unfold e, cexp, SpecFloat.fexp, SpecFloat.emin; lia).
  set (m := Ztrunc (scaled_mantissa radix2 fexp32 r)). assert (R : r = IZR m * bpow radix2 e) by exact F.
  assert (H : / 2 = IZR (2 ^ (-1 - e)) * bpow radix2 e).
  { change 2%Z with (radix2 : Z). rewrite IZR_Zpower by lia. rewrite <- bpow_plus. replace (-1 - e + e)%Z with (-1)%Z by lia. reflexivity. }
  assert (MM : (2 ^ (-1 - e) <= m <= 2 ^ 24)%Z).
  { split; apply le_IZR; apply Rmult_le_reg_r with (bpow radix2 e); try apply bpow_gt_0.
    - rewrite <- H, <- R. exact L.
    - rewrite <- R. change (IZR (2 ^ 24)) with (bpow radix2 24). rewrite <- bpow_plus. apply Rlt_le. rewrite <- (Rabs_pos_eq r) by lra.
      eapply Rlt_le_trans; [apply bpow_mag_gt|]. apply bpow_le. unfold e, cexp, SpecFloat.fexp, SpecFloat.emin in *. lia. }
  replace (r - / 2) with (IZR (m - 2 ^ (-1 - e)) * bpow radix2 e) by (rewrite minus_IZR, Rmult_minus_distr_r, <- H, <- R; reflexivity).
  apply format_fixed; lia.
Qed.
Lemma loop_ok rounds : forall t n r, fin t r -> 0 <= r <= bpow radix2 21 -> (0 <= n <= 10)%Z -> (10 - n <= Z.of_nat rounds)%Z ->
  exists t' r' k, flash_loop rounds t n = (t', n + k)%Z /\ fin t' r' /\ (0 <= k)%Z /\ (n + k <= 10)%Z /\ r = r' + IZR k / 2 /\ 0 <= r' /\ ((n + k = 10)%Z \/ r' < / 2).
Proof.
  induction rounds as [|rounds IH]; intros t n r F R N K; cbn [flash_loop].
  - exists t, r, 0%Z. rewrite Z.add_0_r. split; [reflexivity|]. split; [exact F|]. split; [lia|]. split; [lia|]. split; [lra|]. split; [lra|]. left. lia.
  - destruct (Z.ltb_spec n 10) as [LT|GE]; cbn [andb].
    + destruct (f32_le half t) eqn:E.
      * apply (fin_le _ _ _ _ fin_half F) in E.
        assert (F' : fin (f32_sub t half) (r - / 2)).
        { rewrite <- (rr_id (r - / 2)) by (apply format_less; [exact (fin_format _ _ F)|lra]). apply fin_sub; auto using fin_half.
          rewrite Rabs_pos_eq by lra. apply Rle_trans with (bpow radix2 21); [lra|apply bpow_le; lia]. }
        destruct (IH _ (n + 1)%Z _ F' ltac:(lra) ltac:(lia) ltac:(lia)) as (t' & r' & k & L & F2 & K0 & K1 & ER & R0 & D).
        exists t', r', (k + 1)%Z. rewrite L. replace (n + 1 + k)%Z with (n + (k + 1))%Z in * by lia. rewrite plus_IZR. split; [reflexivity|]. split; [exact F2|]. split; [lia|]. split; [lia|]. split; [lra|]. split; [lra|]. exact D.
      * assert (r < / 2). { destruct (Rlt_or_le r (/ 2)) as [H|H]; [exact H|]. apply (fin_le _ _ _ _ fin_half F) in H. congruence. }
        exists t, r, 0%Z. rewrite Z.add_0_r. split; [reflexivity|]. split; [exact F|]. split; [lia|]. split; [lia|]. split; [lra|]. split; [lra|]. right. assumption.
    + exists t, r, 0%Z. rewrite Z.add_0_r. split; [reflexivity|]. split; [exact F|]. split; [lia|]. split; [lia|]. split; [lra|]. split; [lra|]. left. lia.
Qed.

(** Time passes. *)
Definition beats (b : box) (n T : R) : Prop :=
  (exists r, (0 <= tb_flash b < 10)%Z /\ fin (tb_timer b) r /\ 0 <= r < / 2 /\ Rabs (r + IZR (tb_flash b) / 2 - T) <= eps * (n + T)) \/
  (tb_flash b = 10%Z /\ 5 <= T + eps * (n + T)).
Lemma loop_done rounds t : flash_loop rounds t 10 = (t, 10%Z).
Proof. destruct rounds; reflexivity. Qed.
Lemma update_beats b n T x r : beats b n T -> 0 <= n -> 0 <= T -> fin x r -> 0 <= r <= bpow radix2 20 -> beats (update b x) (n + 1) (T + r).
Proof.
  intros [(s & F10 & FT & S & E)|[F10 H]] N0 T0 X R.
  - assert (B20 : bpow radix2 20 = 1048576) by reflexivity. assert (B21 : bpow radix2 21 = 2097152) by reflexivity.
    assert (A : fin (f32_add (tb_timer b) x) (rr (s + r))).
    { apply fin_add; auto. rewrite Rabs_pos_eq by lra. apply Rle_trans with (bpow radix2 21); [lra|apply bpow_le; lia]. }
    assert (P : 0 <= rr (s + r) <= bpow radix2 21).
    { split; [rewrite <- rr_0; apply rr_le; lra|]. rewrite <- (Rabs_pos_eq (rr (s + r))) by (rewrite <- rr_0; apply rr_le; lra). apply rr_bound; [lia|]. rewrite Rabs_pos_eq; lra. }
    pose proof (rr_err (s + r)) as ER. rewrite (Rabs_pos_eq (s + r)) in ER by lra.
    destruct (loop_ok 10 _ (tb_flash b) _ A P ltac:(lia) ltac:(lia)) as (t' & r' & k & L & F' & K0 & K1 & EQ & R0 & D).
    assert (Q : Rabs (r' + IZR (tb_flash b + k) / 2 - (T + r)) <= eps * (n + 1 + (T + r))).
    { rewrite plus_IZR. replace (r' + (IZR (tb_flash b) + IZR k) / 2 - (T + r)) with ((s + IZR (tb_flash b) / 2 - T) + (rr (s + r) - (s + r))) by lra.
      eapply Rle_trans; [apply Rabs_triang|]. lra. }
    unfold beats, update. rewrite L. cbn [with_blink tb_flash tb_timer].
    destruct (Z.eq_dec (tb_flash b + k) 10) as [TEN|NT].
    + right. split; [exact TEN|]. rewrite TEN in Q. apply Rabs_def2b in Q || apply Rabs_le_inv in Q. lra.
    + left. exists r'. destruct D as [D|D]; [lia|]. split; [lia|]. split; [exact F'|]. split; [lra|]. exact Q.
  - right. unfold update. rewrite F10, loop_done. cbn [with_blink tb_flash]. split; [reflexivity|]. lra.
Qed.
Lemma ticks_beat dts : forall rs b n T, Forall2 (fun x r => fin x r /\ 0 <= r <= bpow radix2 20) dts rs -> 0 <= n -> 0 <= T -> beats b n T ->
  beats (fold_left update dts b) (n + INR (length dts)) (T + sum rs) /\ 0 <= sum rs.
Proof.
  induction dts as [|x dts IH]; intros rs b n T F N0 T0 B; inversion F as [|? r ? rs' [X R] F']; subst.
  - cbn. replace (n + 0) with n by lra. replace (T + 0) with T by lra. split; [exact B|lra].
  - destruct (IH rs' (update b x) (n + 1) (T + r) F') as (IB & IS); [lra|lra|apply update_beats; auto|].
    cbn [fold_left length sum fold_right] in *. fold (sum rs') in *. rewrite S_INR. replace (n + (INR (length dts) + 1)) with (n + 1 + INR (length dts)) by lra.
    replace (T + (r + sum rs')) with (T + r + sum rs') by lra. split; [exact IB|lra].
Qed.
Lemma beats_lit b n T : beats b n T -> 0 <= n -> 0 <= T -> exists time, Rabs (time - T) <= eps * (n + T) /\ (lit_at time <-> Z.even (tb_flash b) = true).
Proof.
  intros [(r & F10 & _ & R & E)|[F10 H]] N0 T0.
  - exists (r + IZR (tb_flash b) / 2). split; [exact E|]. unfold lit_at.
    assert (FL : Zfloor (2 * (r + IZR (tb_flash b) / 2)) = tb_flash b). { apply Zfloor_imp. rewrite plus_IZR. lra. }
    rewrite FL. assert (IZR (tb_flash b) <= 9) by (apply IZR_le; lia). split; [intros [X|X]; [lra|exact X]|auto].
  - exists (Rmax 5 T). rewrite F10. split.
    + destruct (Rle_or_lt 5 T); [rewrite Rmax_right by lra; replace (T - T) with 0 by lra; rewrite Rabs_R0; lra|].
      rewrite Rmax_left by lra. rewrite Rabs_pos_eq by lra. lra.
    + split; [reflexivity|]. intros _. left. apply Rmax_l.
Qed.
