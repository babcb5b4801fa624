(** Binary32 numbers whose value is an integer. *)
From Coq Require Import Lia ZArith.
From Verif Require Import Base FloatModel FloatProofs.
Open Scope Z_scope.

(** [x] is the integer [z]. *)
Definition fint (x : f32) (z : Z) : Prop :=
  match x with
  | S754_zero _ => z = 0
  | S754_finite s m e => Z.pos m < 2 ^ 24 /\ -149 <= e /\ z * 2 ^ scale = cond_Zopp s (Z.pos m) * 2 ^ (e + scale)
  | _ => False
  end.
(** An integer rounded to 24 significant bits, to nearest, ties to even. *)
Definition fl (z : Z) : Z := Z.sgn z * rn (Z.abs z).

Lemma rn_times z : 0 < z -> rn (z * 2 ^ scale) = rn z * 2 ^ scale.
Proof. intros P. rewrite rn_scale by (unfold scale; lia). unfold rn. rewrite Z.pow_add_r by (try apply kx_pos; unfold scale; lia). lia. Qed.
Lemma rn_pos z : 0 < z -> 0 < rn z.
Proof. intros P. pose proof (rn_err z ltac:(lia)). change (2 ^ 24) with 16777216 in *. lia. Qed.
Lemma rn_small z : 0 <= z <= 2 ^ 24 -> rn z = z.
Proof. intros B. destruct (Z.eq_dec z 0) as [->|N]; [reflexivity|]. apply (rn_exact z 0 z); [lia|lia|rewrite Z.pow_0_r; lia]. Qed.
Lemma fl_small z : - 2 ^ 24 <= z <= 2 ^ 24 -> fl z = z.
Proof. intros B. unfold fl. rewrite rn_small by lia. lia. Qed.
Lemma fl_opp z : fl (- z) = - fl z.
Proof. unfold fl. rewrite Z.abs_opp, Z.sgn_opp. lia. Qed.
(** Multiples of [2^j] of up to 24 bits are kept. *)
Lemma fl_multiple z j v : 0 <= j -> - 2 ^ 24 <= v <= 2 ^ 24 -> z = v * 2 ^ j -> fl z = z.
Proof.
  intros J V ->. unfold fl. pose proof (pow_pos j J) as P. destruct (Z.eq_dec v 0) as [->|N]; [reflexivity|].
  rewrite Z.abs_mul, (Z.abs_eq (2 ^ j)) by lia. rewrite (rn_exact (Z.abs v * 2 ^ j) j (Z.abs v)) by lia. rewrite Z.sgn_mul, (Z.sgn_pos (2 ^ j)) by lia. nia.
Qed.
Lemma fl_err z : 2 ^ 24 * Z.abs (fl z - z) <= Z.abs z.
Proof.
  unfold fl. pose proof (rn_err (Z.abs z) ltac:(lia)) as [A B]. destruct (Z.lt_trichotomy z 0) as [L|[->|L]].
  - rewrite (Z.sgn_neg z) by lia. rewrite (Z.abs_neq z) in * by lia. change (2 ^ 24) with 16777216 in *. lia.
  - reflexivity.
  - rewrite (Z.sgn_pos z) by lia. rewrite (Z.abs_eq z) in * by lia. change (2 ^ 24) with 16777216 in *. lia.
Qed.

Lemma aux_sign m e : 0 < m -> binary_round_aux 24 128 true m e loc_Exact = SFopp (binary_round_aux 24 128 false m e loc_Exact).
Proof.
  intros _. unfold binary_round_aux. destruct (shr_fexp 24 128 m e loc_Exact) as [a b]. destruct (shr_fexp 24 128 _ b loc_Exact) as [c d]. destruct (shr_m c); [reflexivity| |reflexivity]. destruct (Zle_bool d (128 - 24)); reflexivity.
Qed.
Lemma round_is_val p e : -100 <= e -> Z.log2 (Z.pos p) + e <= 100 -> e <= 100 -> is_val (binary_round 24 128 false p e) (rn (Z.pos p * 2 ^ (e + scale))).
Proof.
  intros E0 LB LE. unfold binary_round. rewrite digits2_log. set (l := Z.log2 (Z.pos p)) in *. assert (0 <= l) by apply Z.log2_nonneg.
  assert (FE : fexp 24 128 (l + 1 + e) = l + e - 23) by (unfold fexp, emin; lia). rewrite FE. unfold shl_align. replace (l + e - 23 - e) with (l - 23) by lia.
  destruct (l - 23) as [|q|q] eqn:D.
  - apply round_aux_val; fold l; lia.
  - apply round_aux_val; fold l; lia.
  - assert (SH : Z.pos (shift_pos q p) = Z.pos p * 2 ^ Z.pos q) by (rewrite shift_pos_correct, Z.mul_comm; reflexivity).
    replace (l + e - 23) with (e + Z.neg q) by lia.
    pose proof (round_aux_val (Z.pos (shift_pos q p)) (e + Z.neg q)) as R. rewrite SH in R. rewrite Z.log2_mul_pow2 in R by lia. fold l in R. rewrite <- SH in R at 2.
    replace (Z.pos p * 2 ^ (e + scale)) with (Z.pos p * 2 ^ Z.pos q * 2 ^ (e + Z.neg q + scale)); [apply R; unfold scale; try lia; pose proof (pow_pos (Z.pos q)); nia|].
    rewrite <- Z.mul_assoc, <- Z.pow_add_r by (unfold scale; lia). f_equal. f_equal. lia.
Qed.
Lemma round_fint s p e z : -100 <= e -> Z.log2 (Z.pos p) + e <= 100 -> e <= 100 -> 0 < z -> Z.pos p * 2 ^ (e + scale) = z * 2 ^ scale ->
  fint (binary_round 24 128 s p e) (cond_Zopp s (rn z)).
Proof.
  intros E0 LB LE Z0 EQ. pose proof (round_is_val p e E0 LB LE) as (m & e' & R & M & E' & V). rewrite EQ, rn_times in V by exact Z0.
  assert (RS : binary_round 24 128 s p e = if s then SFopp (binary_round 24 128 false p e) else binary_round 24 128 false p e).
  { destruct s; [|reflexivity]. unfold binary_round. destruct (shl_align p e _) as [a b]. apply aux_sign. lia. }
  rewrite RS, R. destruct s; cbn [SFopp negb fint cond_Zopp]; (split; [exact M|]); (split; [exact E'|]); [|exact V]. rewrite !Z.mul_opp_l. rewrite V. reflexivity.
Qed.
Lemma scale_pos : 0 < 2 ^ scale. Proof. apply pow_pos. unfold scale. lia. Qed.
Lemma log2_le_of p e z : -100 <= e -> 0 < z < 2 ^ 66 -> Z.pos p * 2 ^ (e + scale) = z * 2 ^ scale -> Z.log2 (Z.pos p) + e <= 66.
Proof.
  intros E0 Z0 EQ. pose proof (Z.log2_spec (Z.pos p) ltac:(lia)) as [L _]. assert (L0 := Z.log2_nonneg (Z.pos p)). set (l := Z.log2 (Z.pos p)) in *.
  assert (Q : 2 ^ (l + (e + scale)) < 2 ^ (66 + scale)).
  { rewrite (Z.pow_add_r 2 66), (Z.pow_add_r 2 l) by (unfold scale; lia). pose proof scale_pos. pose proof (pow_pos (e + scale) ltac:(unfold scale; lia)). nia. }
  apply Z.pow_lt_mono_r_iff in Q; unfold scale in *; lia.
Qed.

Lemma fint_of_Z z : - 2 ^ 64 < z < 2 ^ 64 -> fint (f32_of_Z z) (fl z).
Proof.
  intros B. unfold f32_of_Z, fl. destruct z as [|p|p]; [reflexivity| |]; cbn [binary_normalize Z.sgn Z.abs].
  - replace (1 * rn (Z.pos p)) with (cond_Zopp false (rn (Z.pos p))) by (cbn; lia). assert (Z.log2 (Z.pos p) < 64) by (apply Z.log2_lt_pow2; lia). apply round_fint; [lia|lia|lia|lia|reflexivity].
  - replace (-1 * rn (Z.pos p)) with (cond_Zopp true (rn (Z.pos p))) by (cbn; lia). assert (Z.log2 (Z.pos p) < 64) by (apply Z.log2_lt_pow2; lia). apply round_fint; [lia|lia|lia|lia|reflexivity].
Qed.
(** The exponent of an integer that is not zero is not small. *)
Lemma fint_exp s m e z : fint (S754_finite s m e) z -> - 2 ^ 65 < z < 2 ^ 65 -> -24 < e < 66 /\ z <> 0.
Proof.
  cbn [fint]. intros (M & E & V) B. pose proof scale_pos as SP. pose proof (pow_pos (e + scale) ltac:(unfold scale; lia)) as EP.
  assert (NZ : z <> 0) by (intros ->; destruct s; cbn [cond_Zopp] in V; nia). split; [|exact NZ].
  assert (AV : Z.abs z * 2 ^ scale = Z.pos m * 2 ^ (e + scale)) by (destruct s; cbn [cond_Zopp] in V; nia).
  assert (L : 2 ^ scale < 2 ^ (24 + (e + scale))) by (rewrite (Z.pow_add_r 2 24) by (unfold scale; lia); nia). apply Z.pow_lt_mono_r_iff in L; [|lia|unfold scale; lia].
  assert (U : 2 ^ (e + scale) < 2 ^ (66 + scale)) by (rewrite (Z.pow_add_r 2 66) by (unfold scale; lia); nia). apply Z.pow_lt_mono_r_iff in U; [|lia|unfold scale; lia]. lia.
Qed.
Lemma fint_trunc x z : fint x z -> f32_trunc x = Some z.
Proof.
  destruct x as [s|s| |s m e]; cbn [fint]; [intros ->; reflexivity|contradiction|contradiction|]. intros (M & E & V). cbn [f32_trunc].
  assert (AV : Z.abs z * 2 ^ scale = Z.pos m * 2 ^ (e + scale)). { pose proof scale_pos. pose proof (pow_pos (e + scale) ltac:(unfold scale; lia)). destruct s; cbn [cond_Zopp] in V; nia. }
  assert (TV := trunc_val (S754_finite false m e) (Z.pos m * 2 ^ (e + scale))). cbn [f32_trunc] in TV. assert (IV : is_val (S754_finite false m e) (Z.pos m * 2 ^ (e + scale))) by (exists m, e; auto).
  specialize (TV IV). injection TV as TV. rewrite TV, <- AV, Z.div_mul by (pose proof scale_pos; lia). f_equal.
  pose proof scale_pos. pose proof (pow_pos (e + scale) ltac:(unfold scale; lia)). destruct s; cbn [cond_Zopp] in V; nia.
Qed.
(** Multiplication by 1 and by -1. *)
Definition unit_of (neg : bool) : f32 := if neg then f32_of_Z (-1) else f32_of_Z 1.
Lemma fint_mul_unit x z neg : fint x z -> - 2 ^ 65 < z < 2 ^ 65 -> fint (f32_mul x (unit_of neg)) (if neg then - z else z).
Proof.
  intros F B. assert (U : unit_of neg = S754_finite neg 8388608 (-23)) by (destruct neg; reflexivity). rewrite U. destruct x as [s|s| |s m e]; try contradiction.
  - cbn in F. subst z. destruct neg; reflexivity.
  - pose proof (fint_exp _ _ _ _ F B) as [EB NZ]. destruct F as (M & E & V). unfold f32_mul. cbn [SFmul].
    assert (LM : Z.log2 (Z.pos (m * 8388608)) < 47) by (apply Z.log2_lt_pow2; [lia|]; rewrite Pos2Z.inj_mul; change (2 ^ 47) with (2 ^ 24 * 8388608); nia).
    assert (L0 := Z.log2_nonneg (Z.pos (m * 8388608))).
    destruct (round_aux_val (Z.pos (m * 8388608)) (e + -23)) as (m' & e' & R & M' & E' & V'); [lia|lia|lia|].
    assert (EX : Z.pos (m * 8388608) * 2 ^ (e + -23 + scale) = Z.pos m * 2 ^ (e + scale)).
    { rewrite Pos2Z.inj_mul. change 8388608 with (2 ^ 23). rewrite <- Z.mul_assoc, <- Z.pow_add_r by (unfold scale; lia). f_equal. f_equal. lia. }
    rewrite EX in V'. rewrite (rn_exact _ (e + scale) (Z.pos m)) in V' by (unfold scale in *; lia).
    assert (RS : binary_round_aux 24 128 (xorb s neg) (Z.pos (m * 8388608)) (e + -23) loc_Exact = S754_finite (xorb s neg) m' e').
    { destruct (xorb s neg); [rewrite aux_sign by lia; rewrite R; reflexivity|exact R]. }
    rewrite RS. cbn [fint]. split; [exact M'|]. split; [exact E'|]. destruct s, neg; cbn [xorb cond_Zopp] in *; lia.
Qed.
Lemma align m e ez : ez <= e -> Z.pos (fst (shl_align m e ez)) * 2 ^ (ez + scale) = Z.pos m * 2 ^ (e + scale) \/ ez + scale < 0.
Proof.
  intros L. destruct (Z.lt_ge_cases (ez + scale) 0) as [N|N]; [right; exact N|left]. unfold shl_align. destruct (ez - e) as [|q|q] eqn:D; cbn [fst]; [replace ez with e by lia; reflexivity|lia|].
  assert (SH : Z.pos (shift_pos q m) = Z.pos m * 2 ^ Z.pos q) by (rewrite shift_pos_correct, Z.mul_comm; reflexivity). rewrite SH, <- Z.mul_assoc, <- Z.pow_add_r by lia. f_equal. f_equal. lia.
Qed.
Lemma fl_idem x z : fint x z -> fl z = z.
Proof.
  destruct x as [s|s| |s m e]; try contradiction; [intros ->; reflexivity|]. intros (M & E & V). pose proof scale_pos as SP. pose proof (pow_pos (e + scale) ltac:(unfold scale; lia)) as EP.
  assert (NZ : z <> 0) by (intros ->; destruct s; cbn [cond_Zopp] in V; nia).
  assert (AV : Z.abs z * 2 ^ scale = Z.pos m * 2 ^ (e + scale)) by (destruct s; cbn [cond_Zopp] in V; nia).
  unfold fl. assert (R : rn (Z.abs z) = Z.abs z); [|rewrite R; lia].
  assert (Q : rn (Z.abs z * 2 ^ scale) = Z.abs z * 2 ^ scale) by (rewrite AV; apply (rn_exact _ (e + scale) (Z.pos m)); unfold scale in *; lia).
  rewrite rn_times in Q by lia. nia.
Qed.
Lemma fint_add x y a b : fint x a -> fint y b -> - 2 ^ 65 < a < 2 ^ 65 -> - 2 ^ 65 < b < 2 ^ 65 -> fint (f32_add x y) (fl (a + b)).
Proof.
  intros FX FY A B. destruct x as [s|s| |s m e]; try contradiction; destruct y as [s'|s'| |s' m' e']; try contradiction.
  - cbn in FX, FY. subst. unfold f32_add. cbn [SFadd]. destruct (Bool.eqb s s'); reflexivity.
  - cbn in FX. subst a. unfold f32_add. cbn [SFadd]. rewrite Z.add_0_l, (fl_idem _ _ FY). exact FY.
  - cbn in FY. subst b. unfold f32_add. cbn [SFadd]. rewrite Z.add_0_r, (fl_idem _ _ FX). exact FX.
  - pose proof (fint_exp _ _ _ _ FX A) as [EB _]. pose proof (fint_exp _ _ _ _ FY B) as [EB' _]. destruct FX as (M & E & V). destruct FY as (M' & E' & V'). unfold f32_add. cbn [SFadd].
    set (ez := Z.min e e'). destruct (align m e ez ltac:(lia)) as [AL|AL]; [|unfold scale in AL; lia]. destruct (align m' e' ez ltac:(lia)) as [AL'|AL']; [|unfold scale in AL'; lia].
    set (N := cond_Zopp s (Z.pos (fst (shl_align m e ez))) + cond_Zopp s' (Z.pos (fst (shl_align m' e' ez)))).
    assert (SUM : N * 2 ^ (ez + scale) = (a + b) * 2 ^ scale).
    { unfold N. rewrite (Z.mul_add_distr_r a), V, V'. destruct s, s'; cbn [cond_Zopp]; rewrite Z.mul_add_distr_r; rewrite ?Z.mul_opp_l; rewrite AL, AL'; reflexivity. }
    pose proof scale_pos as SP. pose proof (pow_pos (ez + scale) ltac:(unfold scale; lia)) as EP.
    destruct N as [|p|p] eqn:EN; cbn [binary_normalize].
    + assert (Z0 : a + b = 0) by nia. rewrite Z0. reflexivity.
    + assert (PS : 0 < a + b) by nia. replace (fl (a + b)) with (cond_Zopp false (rn (a + b))) by (unfold fl; cbn; rewrite Z.sgn_pos, Z.abs_eq; lia).
      pose proof (log2_le_of p ez (a + b) ltac:(lia) ltac:(change (2 ^ 66) with (2 ^ 65 + 2 ^ 65); lia) SUM). apply round_fint; [lia|lia|lia|exact PS|exact SUM].
    + assert (PS : 0 < - (a + b)) by nia. replace (fl (a + b)) with (cond_Zopp true (rn (- (a + b)))) by (unfold fl; cbn; rewrite Z.sgn_neg, Z.abs_neq; lia).
      assert (SUM' : Z.pos p * 2 ^ (ez + scale) = - (a + b) * 2 ^ scale) by nia.
      pose proof (log2_le_of p ez (- (a + b)) ltac:(lia) ltac:(change (2 ^ 66) with (2 ^ 65 + 2 ^ 65); lia) SUM'). apply round_fint; [lia|lia|lia|exact PS|exact SUM'].
Qed.
