(** Facts about the colours of coloured glyphs. *)
From Coq Require Import ZArith Reals Lia Lra.
From Verif Require Import Base FloatModel ColorModel ColorProofs FloatRealProofs StyleProofs MetricsProofs.
From Flocq Require Import Core.Core IEEE754.BinarySingleNaN.
Open Scope Z_scope.

Lemma near_mul a b m n : (Rabs (a - 1) <= m -> Rabs (b - 1) <= n -> Rabs (a * b - 1) <= m + n + m * n)%R.
Proof.
  intros A B. replace (a * b - 1)%R with ((a - 1) + (b - 1) + (a - 1) * (b - 1))%R by ring.
  pose proof (Rabs_triang (a - 1 + (b - 1)) ((a - 1) * (b - 1))). pose proof (Rabs_triang (a - 1) (b - 1)). rewrite Rabs_mult in *.
  pose proof (Rabs_pos (a - 1)). pose proof (Rabs_pos (b - 1)). assert (Rabs (a - 1) * Rabs (b - 1) <= m * n)%R by (apply Rmult_le_compat; assumption). lra.
Qed.
Lemma near_inv a m : (Rabs (a - 1) <= m -> m <= / 2 -> Rabs (/ a - 1) <= 2 * m)%R.
Proof.
  intros A M. assert (/ 2 <= a)%R by (apply Rabs_le_inv in A; lra). assert (0 < / a)%R by (apply Rinv_0_lt_compat; lra).
  assert (/ a <= 2)%R by (rewrite <- (Rinv_inv 2); apply Rinv_le_contravar; lra).
  replace (/ a - 1)%R with (- ((a - 1) * / a))%R by (field; lra). rewrite Rabs_Ropp, Rabs_mult, (Rabs_pos_eq (/ a)) by lra.
  pose proof (Rabs_pos (a - 1)). nra.
Qed.
Lemma rr_near x : (/ 4294967296 <= x)%R -> exists d, rr x = (x * d)%R /\ (Rabs (d - 1) <= / 16777216)%R.
Proof.
  intros P. exists (rr x / x)%R. split; [field; lra|]. pose proof bp126 as B.
  assert (E : (Rabs (rr x - x) <= / 16777216 * Rabs x)%R) by (apply rr_rel; right; rewrite Rabs_pos_eq; lra).
  replace (rr x / x - 1)%R with ((rr x - x) * / x)%R by (field; lra). rewrite Rabs_mult. rewrite (Rabs_pos_eq x) in E by lra.
  assert (0 < / x)%R by (apply Rinv_0_lt_compat; lra). rewrite (Rabs_pos_eq (/ x)) by lra.
  apply Rle_trans with (/ 16777216 * x * / x)%R; [apply Rmult_le_compat_r; lra|]. rewrite Rmult_assoc, Rinv_r by lra. lra.
Qed.
Lemma bytes_fin z : 0 <= z <= 255 -> fin (channel z) (rr (IZR z / 255)).
Proof.
  intros H. unfold channel, fz. apply fin_div; [apply fin_int; lia|exact (fin_int 255 ltac:(lia))|lra|].
  assert (0 <= IZR z <= 255)%R by (split; apply IZR_le; lia). rewrite Rabs_pos_eq by lra. apply Rle_trans with 1%R; [lra|]. change 1%R with (bpow radix2 0). apply bpow_le. lia.
Qed.
Lemma bpow_100 x : (0 <= x <= 512)%R -> (Rabs x <= bpow radix2 100)%R.
Proof. intros H. rewrite Rabs_pos_eq by lra. apply Rle_trans with 512%R; [lra|]. change 512%R with (bpow radix2 9). apply bpow_le. lia. Qed.

(** A channel of a pixel of opacity [a], stored as [c <= a]: the exact quotient, rounded down, or
    one below. *)
Lemma quotient_ok c a : 0 < a <= 255 -> 0 <= c <= a ->
  exists v, channel_byte (f32_div (channel c) (channel a)) = Ok v /\ 0 <= v <= 255 /\ v * a <= 255 * c <= v * a + a.
Proof.
  intros A C. pose proof (bytes_fin a ltac:(lia)) as FA. pose proof (bytes_fin c ltac:(lia)) as FC.
  assert (RA : (1 <= IZR a <= 255)%R) by (split; apply IZR_le; lia).
  destruct (rr_near (IZR a / 255)) as (da & EA & NA); [lra|]. rewrite EA in FA.
  assert (DA : (/ 2 <= da)%R) by (apply Rabs_le_inv in NA; lra).
  assert (F : exists p, fin (f32_mul (f32_div (channel c) (channel a)) f32_255) p /\ (Rabs (p - 255 * IZR c / IZR a) <= / 5000)%R).
  { destruct (Z.eq_dec c 0) as [->|NC].
    - exists 0%R. assert (Z0 : rr (0 / 255) = 0%R) by (unfold Rdiv; rewrite Rmult_0_l; apply rr_0). rewrite Z0 in FC.
      assert (Q : fin (f32_div (channel 0) (channel a)) 0).
      { rewrite <- rr_0. replace 0%R with (0 / (IZR a / 255 * da))%R at 1 by (field; lra). apply fin_div; [exact FC|exact FA|nra|].
        replace (0 / (IZR a / 255 * da))%R with 0%R by (field; lra). apply bpow_100. lra. }
      split; [|replace (0 - 255 * 0 / IZR a)%R with 0%R by (field; lra); rewrite Rabs_R0; lra].
      rewrite <- rr_0. replace 0%R with (0 * 255)%R at 1 by ring. apply fin_mul; [exact Q|exact (fin_int 255 ltac:(lia))|]. apply bpow_100. lra.
    - assert (RC : (1 <= IZR c)%R) by (apply IZR_le; lia). assert (CA : (IZR c <= IZR a)%R) by (apply IZR_le; lia).
      destruct (rr_near (IZR c / 255)) as (dc & EC & NC'); [lra|]. rewrite EC in FC.
      assert (DC : (/ 2 <= dc <= 2)%R) by (apply Rabs_le_inv in NC'; lra).
      assert (QV : (IZR c / 255 * dc / (IZR a / 255 * da) = IZR c / IZR a * (dc * / da))%R) by (field; lra).
      assert (R1 : (/ 255 <= IZR c / IZR a <= 1)%R).
      { unfold Rdiv. split.
        - apply Rle_trans with (1 * / 255)%R; [lra|]. apply Rmult_le_compat; try lra. apply Rinv_le_contravar; lra.
        - rewrite <- (Rinv_r (IZR a)) by lra. apply Rmult_le_compat_r; [left; apply Rinv_0_lt_compat; lra|lra]. }
      pose proof (near_inv _ _ NA ltac:(lra)) as NI. pose proof (near_mul _ _ _ _ NC' NI) as NQ.
      assert (DQ : (/ 2 <= dc * / da <= 3 / 2)%R) by (apply Rabs_le_inv in NQ; lra).
      assert (Q0 : (/ 512 <= IZR c / IZR a * (dc * / da) <= 2)%R) by (split; nra).
      pose proof (fin_div _ _ _ _ FC FA ltac:(nra)) as Q. rewrite QV in Q. specialize (Q (bpow_100 (IZR c / IZR a * (dc * / da))%R ltac:(lra))).
      destruct (rr_near (IZR c / IZR a * (dc * / da))) as (dq & EQ & NQ'); [lra|]. rewrite EQ in Q.
      pose proof (near_mul _ _ _ _ NQ NQ') as NR. assert (DQ' : (/ 2 <= dq <= 3 / 2)%R) by (apply Rabs_le_inv in NQ'; lra).
      set (w := (IZR c / IZR a * (dc * / da))%R) in *.
      assert (B : (/ 1024 * 255 <= w * dq * 255 <= 3 * 255)%R) by (split; nra).
      pose proof (fin_mul _ _ _ _ Q (fin_int 255 ltac:(lia))) as P.
      assert (B100 : (Rabs (w * dq * 255) <= bpow radix2 100)%R).
      { rewrite Rabs_pos_eq by lra. apply Rle_trans with 1024%R; [lra|]. change 1024%R with (bpow radix2 10). apply bpow_le. lia. }
      specialize (P B100). destruct (rr_near (w * dq * 255)) as (dp & EP & NP); [lra|]. rewrite EP in P. eexists. split; [exact P|].
      pose proof (near_mul _ _ _ _ NR NP) as NK.
      replace (w * dq * 255 * dp - 255 * IZR c / IZR a)%R with (255 * (IZR c / IZR a) * (dc * / da * dq * dp - 1))%R by (unfold w; field; lra).
      rewrite Rabs_mult, (Rabs_pos_eq (255 * (IZR c / IZR a))) by lra.
      apply Rle_trans with (255 * 1 * (/ 2000000))%R; [|lra]. apply Rmult_le_compat; [lra|apply Rabs_pos|lra|]. eapply Rle_trans; [exact NK|]. lra. }
  destruct F as (p & P & N). assert (NN : (0 <= 255 * IZR c / IZR a <= 255)%R).
  { assert (0 <= IZR c)%R by (apply IZR_le; lia). assert (IZR c <= IZR a)%R by (apply IZR_le; lia). unfold Rdiv. assert (0 < / IZR a)%R by (apply Rinv_0_lt_compat; lra). split; [nra|].
    apply Rmult_le_reg_r with (IZR a); [lra|]. rewrite Rmult_assoc, Rinv_l by lra. nra. }
  apply Rabs_le_inv in N. unfold channel_byte, f32_to_u32. rewrite (trunc_fin _ _ P).
  assert (T : (p - 1 < IZR (Ztrunc p) < p + 1)%R /\ (IZR (Ztrunc p) <= Rmax p 0)%R /\ 0 <= Ztrunc p).
  { destruct (Rle_or_lt 0 p) as [G|G].
    - rewrite Ztrunc_floor by exact G. pose proof (Zfloor_lb p). pose proof (Zfloor_ub p). split; [lra|]. split; [rewrite Rmax_left by lra; lra|]. apply Zfloor_lub. exact G.
    - rewrite Ztrunc_ceil by lra. assert (Z : Zceil p = 0%Z) by (apply Zceil_imp; change (IZR (0 - 1)) with (-1)%R; change (IZR 0) with 0%R; lra). rewrite Z. split; [cbn; lra|]. split; [rewrite Rmax_right by lra; lra|lia]. }
  set (v := Ztrunc p) in *. destruct T as ([T1 T2] & T3 & V3).
  assert (V1 : v * a <= 255 * c).
  { assert (HV : (IZR v <= 255 * IZR c / IZR a + / 5000)%R) by (unfold Rmax in T3; destruct (Rle_dec p 0); lra).
    assert (H : (IZR v * IZR a <= 255 * IZR c + / 5000 * 255)%R).
    { replace (255 * IZR c + / 5000 * 255)%R with (255 * IZR c / IZR a * IZR a + / 5000 * 255)%R by (field; lra). nra. }
    assert (L : (IZR (v * a) < IZR (255 * c + 1))%R) by (rewrite mult_IZR, plus_IZR, mult_IZR; lra). apply lt_IZR in L. lia. }
  assert (V2 : 255 * c <= v * a + a).
  { assert (H : (255 * IZR c - / 5000 * 255 <= (IZR v + 1) * IZR a)%R).
    { replace (255 * IZR c - / 5000 * 255)%R with (255 * IZR c / IZR a * IZR a - / 5000 * 255)%R by (field; lra). nra. }
    assert (L : (IZR (255 * c) < IZR (v * a + a + 1))%R) by (rewrite !plus_IZR, !mult_IZR; lra). apply lt_IZR in L. lia. }
  assert (V4 : v <= 255) by nia.
  destruct (Z.leb_spec 0 v); [|lia]. destruct (Z.ltb_spec v (2 ^ 32)); [|lia]. cbn [andb obind]. exists v. split; [f_equal; rewrite land255; apply Z.mod_small; lia|lia].
Qed.
