(** Proofs about the measures of a font. *)
From Coq Require Import ZArith Reals Lia Lra Psatz.
From Verif Require Import Base FloatModel FontSizeModel FloatRealProofs StyleProofs MetricsModel MetricsSpec.
From Flocq Require Import Core.Core IEEE754.BinarySingleNaN.
From Flocq Require Import Relative.
Open Scope R_scope.

Lemma rr_rel x : x = 0 \/ bpow radix2 (-126) <= Rabs x -> Rabs (rr x - x) <= / 16777216 * Rabs x.
Proof.
  intros [-> | H].
  - rewrite rr_0. rewrite Rminus_0_r, Rabs_R0. lra.
  - unfold rr. pose proof (relative_error_N_FLT radix2 (-149) 24 Hprec (fun x => negb (Z.even x)) x) as E.
    specialize (E H). assert (V : bpow radix2 (- (24) + 1) = / 8388608) by reflexivity. rewrite V in E.
    change (SpecFloat.fexp 24 128) with (FLT_exp (-149) 24) in *. eapply Rle_trans; [exact E|]. pose proof (Rabs_pos x). lra.
Qed.
Lemma bp126 : bpow radix2 (-126) <= / 4294967296.
Proof. change (/ 4294967296) with (bpow radix2 (-32)). apply bpow_le. lia. Qed.
Lemma rr_sym x : rr (- x) = - rr x.
Proof. unfold rr. apply round_NE_opp. Qed.
Lemma fin_int z : (Z.abs z <= 2 ^ 24)%Z -> fin (f32_of_Z z) (IZR z).
Proof. intros H. rewrite <- (rr_int z H). apply fin_of_Z. lia. Qed.

(** * Scale *)
Lemma ratio_small p u : (0 <= p <= 65535)%Z -> (1 <= u <= 65535)%Z -> IZR p / IZR u = 0 \/ / 65536 <= IZR p / IZR u.
Proof.
  intros P U. destruct (Z.eq_dec p 0) as [->|NE]; [left; unfold Rdiv; lra|right].
  assert (1 <= IZR p) by (apply IZR_le; lia). assert (1 <= IZR u) by (apply IZR_le; lia). assert (IZR u <= 65535) by (apply IZR_le; lia).
  apply Rle_trans with (1 / IZR u); [|unfold Rdiv; apply Rmult_le_compat_r; [|lra]; apply Rlt_le, Rinv_0_lt_compat; lra].
  unfold Rdiv. rewrite Rmult_1_l. apply Rinv_le; lra.
Qed.
Lemma ratio_range p u : (0 <= p <= 65535)%Z -> (1 <= u <= 65535)%Z -> 0 <= IZR p / IZR u <= 65536.
Proof.
  intros P U. assert (0 <= IZR p) by (apply IZR_le; lia). assert (IZR p <= 65535) by (apply IZR_le; lia). assert (1 <= IZR u) by (apply IZR_le; lia).
  assert (I : 0 < / IZR u <= 1) by (split; [apply Rinv_0_lt_compat; lra|rewrite <- Rinv_1; apply Rinv_le; lra]). unfold Rdiv. nra.
Qed.
Lemma scale_fin p u : (0 <= p <= 65535)%Z -> (1 <= u <= 65535)%Z ->
  let r := IZR p / IZR u in fin (f32_div (f32_of_Z p) (f32_of_Z u)) (rr r) /\ Rabs (rr r - r) <= / 16777216 * r /\ 0 <= rr r <= 65536 /\ (r = 0 \/ / 65536 <= rr r).
Proof.
  intros P U r. pose proof (ratio_range p u P U) as R. pose proof (ratio_small p u P U) as S. fold r in R, S. pose proof bp126 as B.
  split; [|split; [|split]].
  - apply fin_div; try (apply fin_int; lia); [apply not_0_IZR; lia|]. fold r. apply small_100. rewrite Rabs_pos_eq by lra. lra.
  - rewrite <- (Rabs_pos_eq r) at 3 by lra. apply rr_rel. destruct S as [S|S]; [left; exact S|right]. rewrite Rabs_pos_eq; lra.
  - split; [rewrite <- rr_0; apply rr_le; lra|]. rewrite <- (rr_int 65536) by lia. apply rr_le. lra.
  - destruct S as [S|S]; [left; exact S|right]. replace (/ 65536) with (rr (/ 65536)); [apply rr_le, S|]. apply rr_id. change (/ 65536) with (bpow radix2 (-16)). apply generic_format_bpow. unfold SpecFloat.fexp, SpecFloat.emin. lia.
Qed.
Lemma two_steps s r z : Rabs (s - r) <= / 16777216 * r -> 0 <= r -> Rabs (rr (s * z) - s * z) <= / 16777216 * Rabs (s * z) -> Rabs (rr (s * z) - r * z) <= / 4194304 * Rabs (r * z).
Proof.
  intros A R B. set (v := rr (s * z)) in *. clearbody v. rewrite !Rabs_mult in *. rewrite (Rabs_pos_eq r R).
  assert (S : Rabs s <= r * (1 + / 16777216)) by (apply Rabs_le; apply Rabs_le_inv in A; lra).
  replace (v - r * z) with ((v - s * z) + (s - r) * z) by ring. eapply Rle_trans; [apply Rabs_triang|]. rewrite Rabs_mult.
  pose proof (Rabs_pos z) as Z. pose proof (Rabs_pos s). assert (Rabs s * Rabs z <= r * (1 + / 16777216) * Rabs z) by (apply Rmult_le_compat_r; lra).
  assert (Rabs (s - r) * Rabs z <= / 16777216 * r * Rabs z) by (apply Rmult_le_compat_r; lra). assert (0 <= r * Rabs z) by (apply Rmult_le_pos; lra). lra.
Qed.
Lemma line_fin p u z : (0 <= p <= 65535)%Z -> (1 <= u <= 65535)%Z -> (Z.abs z <= 65536)%Z ->
  let r := IZR p / IZR u in fin (f32_mul (f32_div (f32_of_Z p) (f32_of_Z u)) (f32_of_Z z)) (rr (rr r * IZR z)) /\ Rabs (rr (rr r * IZR z) - IZR z * IZR p / IZR u) <= tiny * Rabs (IZR z * IZR p / IZR u).
Proof.
  intros P U Z r. destruct (scale_fin p u P U) as (F & E & G & S). fold r in F, E, G, S. pose proof (ratio_range p u P U) as R. fold r in R.
  assert (Zr : Rabs (IZR z) <= 65536) by (rewrite <- abs_IZR; apply IZR_le; exact Z). split.
  - apply fin_mul; [exact F|apply fin_int; lia|]. apply Rle_trans with (bpow radix2 32); [|apply bpow_le; lia]. change (bpow radix2 32) with 4294967296. rewrite Rabs_mult, (Rabs_pos_eq (rr r)) by lra. pose proof (Rabs_pos (IZR z)). apply Rle_trans with (65536 * 65536); [|lra]. apply Rmult_le_compat; lra.
  - replace (IZR z * IZR p / IZR u) with (r * IZR z) by (unfold r, Rdiv; ring). apply two_steps; [exact E|lra|]. apply rr_rel.
    destruct S as [S|S]; [left; rewrite S, rr_0; ring|]. destruct (Z.eq_dec z 0) as [->|NZ]; [left; ring|right].
    assert (1 <= Rabs (IZR z)) by (rewrite <- abs_IZR; apply IZR_le; lia). rewrite Rabs_mult, (Rabs_pos_eq (rr r)) by lra. pose proof bp126. nra.
Qed.

(** * Ascent *)
Lemma fin_70 : fin (scale_modifier false true) (11744051 / 16777216).
Proof. split; [reflexivity|]. split; [reflexivity|]. change (scale_modifier false true) with (S754_finite false 11744051 (-24)). unfold SF2R, F2R. cbn [Fnum Fexp cond_Zopp]. change (bpow radix2 (-24)) with (/ 16777216). lra. Qed.
Lemma fin_100 : fin (scale_modifier false false) 1.
Proof. split; [reflexivity|]. split; [reflexivity|]. change (scale_modifier false false) with (S754_finite false 8388608 (-23)). unfold SF2R, F2R. cbn [Fnum Fexp cond_Zopp]. change (bpow radix2 (-23)) with (/ 8388608). lra. Qed.
Lemma rr_64 z : (Z.abs z <= 2 ^ 24)%Z -> rr (IZR z / 64) = IZR z / 64.
Proof. intros H. apply rr_id. change (IZR z / 64) with (IZR z * bpow radix2 (-6)). apply format_fixed; lia. Qed.
Lemma abs_int z : (Z.abs z <= 2 ^ 24)%Z -> Rabs (IZR z) <= 16777216.
Proof. intros H. rewrite <- abs_IZR. apply IZR_le. exact H. Qed.
Lemma fin_64 z : (Z.abs z <= 2 ^ 24)%Z -> fin (f32_div (f32_of_Z z) (f32_of_Z 64)) (IZR z / 64).
Proof.
  intros H. rewrite <- rr_64 by exact H. pose proof (abs_int _ H). apply fin_div; [apply fin_int, H|apply fin_int; lia|lra|].
  apply small_100. unfold Rdiv. rewrite Rabs_mult, (Rabs_pos_eq (/ 64)) by lra. pose proof (Rabs_pos (IZR z)). lra.
Qed.
Definition height_of (low : bool) (z : Z) : R := rr (IZR z / 64 / (if low then 11744051 / 16777216 else 1)).
Lemma height_fin low z : (Z.abs z <= 2 ^ 24)%Z -> fin (f32_div (f32_div (f32_of_Z z) (f32_of_Z 64)) (scale_modifier false low)) (height_of low z).
Proof.
  intros H. pose proof (abs_int _ H) as A. unfold height_of. apply fin_div; [apply fin_64, H|destruct low; [exact fin_70|exact fin_100]|destruct low; lra|].
  apply small_100. apply Rabs_le. apply Rabs_le_inv in A. destruct low; lra.
Qed.
Lemma height_plain z : (Z.abs z <= 2 ^ 24)%Z -> height_of false z = IZR z / 64.
Proof. intros H. unfold height_of. replace (IZR z / 64 / 1) with (IZR z / 64) by field. apply rr_64, H. Qed.
Lemma height_low z : (Z.abs z <= 2 ^ 24)%Z -> Rabs (height_of true z - IZR z / 64 * 10 / 7) <= tiny * Rabs (IZR z / 64 * 10 / 7).
Proof.
  intros H. unfold height_of, tiny. set (a := IZR z / 64). assert (E : Rabs (rr (a / (11744051 / 16777216)) - a / (11744051 / 16777216)) <= / 16777216 * Rabs (a / (11744051 / 16777216))).
  { apply rr_rel. destruct (Z.eq_dec z 0) as [->|NZ]; [left; unfold a; lra|right]. pose proof bp126. assert (1 <= Rabs (IZR z)) by (rewrite <- abs_IZR; apply IZR_le; lia).
    replace (a / (11744051 / 16777216)) with (IZR z * (16777216 / 751619264)) by (unfold a; field). rewrite Rabs_mult, (Rabs_pos_eq (16777216 / 751619264)) by lra. lra. }
  set (v := rr _) in *. clearbody v. clearbody a. replace (a / (11744051 / 16777216)) with (a * (16777216 / 11744051)) in E by field. replace (a * 10 / 7) with (a * (10 / 7)) by field.
  rewrite Rabs_mult, (Rabs_pos_eq (16777216 / 11744051)) in E by lra. rewrite Rabs_mult, (Rabs_pos_eq (10 / 7)) by lra.
  replace (v - a * (10 / 7)) with ((v - a * (16777216 / 11744051)) + a * (16777216 / 11744051 - 10 / 7)) by ring. eapply Rle_trans; [apply Rabs_triang|]. rewrite Rabs_mult, (Rabs_pos_eq (16777216 / 11744051 - 10 / 7)) by lra.
  pose proof (Rabs_pos a). lra.
Qed.
Lemma height_le low z z' : (z <= z')%Z -> height_of low z <= height_of low z'.
Proof. intros H. apply rr_le. apply IZR_le in H. destruct low; lra. Qed.
Lemma line_mono p p' u z : (0 <= p <= p')%Z -> (p' <= 65535)%Z -> (1 <= u <= 65535)%Z -> (0 <= z)%Z -> rr (rr (IZR p / IZR u) * IZR z) <= rr (rr (IZR p' / IZR u) * IZR z).
Proof.
  intros P P' U Z. apply rr_le. apply Rmult_le_compat_r; [apply IZR_le; exact Z|]. apply rr_le. unfold Rdiv. apply Rmult_le_compat_r; [|apply IZR_le; lia]. apply Rlt_le, Rinv_0_lt_compat. apply (IZR_lt 0). lia.
Qed.
Lemma fin_half : fin (S754_finite false 8388608 (-24)) (/ 2).
Proof. split; [reflexivity|]. split; [reflexivity|]. unfold SF2R, F2R. cbn [Fnum Fexp cond_Zopp]. change (bpow radix2 (-24)) with (/ 16777216). lra. Qed.
Lemma drawn_fin p u z : (0 <= p <= 65535)%Z -> (1 <= u <= 65535)%Z -> (0 <= z <= 32767)%Z ->
  exists v, fin (f32_add (f32_mul (f32_div (f32_of_Z p) (f32_of_Z u)) (f32_of_Z z)) (S754_finite false 8388608 (-24))) v /\ / 2 <= v /\ Rabs (v - (IZR z * IZR p / IZR u + / 2)) <= tiny * 2 * (IZR z * IZR p / IZR u + / 2).
Proof.
  intros P U Z. destruct (line_fin p u z P U ltac:(lia)) as [F E]. destruct (scale_fin p u P U) as (_ & _ & G & _). set (w := rr (rr (IZR p / IZR u) * IZR z)) in *. set (t := IZR z * IZR p / IZR u) in *.
  assert (Zp : 0 <= IZR z <= 65536) by (split; apply IZR_le; lia).
  assert (W0 : 0 <= w) by (unfold w; rewrite <- rr_0; apply rr_le; apply Rmult_le_pos; lra).
  assert (T0 : 0 <= t) by (unfold t; replace (IZR z * IZR p / IZR u) with (IZR p / IZR u * IZR z) by (unfold Rdiv; ring); apply Rmult_le_pos; [apply (ratio_range p u P U)|lra]).
  assert (W1 : w <= bpow radix2 32).
  { apply Rle_trans with (Rabs w); [apply RRle_abs|]. unfold w. apply rr_bound; [lia|]. change (bpow radix2 32) with 4294967296. rewrite Rabs_pos_eq by (apply Rmult_le_pos; lra). replace 4294967296 with (65536 * 65536) by lra. apply Rmult_le_compat; lra. }
  rewrite (Rabs_pos_eq t T0) in E. exists (rr (w + / 2)). split; [|split].
  - apply fin_add; [exact F|exact fin_half|]. rewrite Rabs_pos_eq by lra. apply Rle_trans with (bpow radix2 33); [|apply bpow_le; lia]. change (bpow radix2 33) with 8589934592. change (bpow radix2 32) with 4294967296 in W1. lra.
  - replace (/ 2) with (rr (/ 2)) at 1; [apply rr_le; lra|]. apply rr_id. exact (fin_format _ _ fin_half).
  - pose proof bp126. assert (A : Rabs (rr (w + / 2) - (w + / 2)) <= / 16777216 * Rabs (w + / 2)) by (apply rr_rel; right; rewrite Rabs_pos_eq; lra). rewrite (Rabs_pos_eq (w + / 2)) in A by lra.
    unfold tiny in *. apply Rabs_le. apply Rabs_le_inv in A. apply Rabs_le_inv in E. lra.
Qed.
