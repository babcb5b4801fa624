(** Binary32 numbers as real numbers, by Flocq's proofs about the same algorithms. *)
From Coq Require Import ZArith Reals Lia Lra.
From Verif Require Import Base FloatModel.
From Flocq Require Import Core.Core IEEE754.BinarySingleNaN.

Global Instance Hprec : FLX.Prec_gt_0 24 := eq_refl.
Global Instance Hmax : Prec_lt_emax 24 128 := eq_refl.
Notation bf := (binary_float 24 128).
Notation fexp32 := (SpecFloat.fexp 24 128).
Definition rr (x : R) : R := round radix2 fexp32 ZnearestE x.
Global Instance Vexp : Valid_exp fexp32 := fexp_correct 24 128 Hprec.

(** [x] is finite and its value is [r]. *)
Definition fin (x : f32) (r : R) : Prop := valid_binary 24 128 x = true /\ is_finite_SF x = true /\ SF2R radix2 x = r.

Lemma fin_bf x r : fin x r -> exists b : bf, B2SF b = x /\ is_finite b = true /\ B2R b = r.
Proof.
  intros (V & F & E). exists (SF2B x V). split; [apply B2SF_SF2B|]. split; [rewrite is_finite_SF2B; exact F|rewrite B2R_SF2B; exact E].
Qed.
Lemma bf_fin (b : bf) r : is_finite b = true -> B2R b = r -> fin (B2SF b) r.
Proof. intros F E. split; [apply valid_binary_B2SF|]. split; [rewrite is_finite_SF_B2SF; exact F|rewrite SF2R_B2SF; exact E]. Qed.

Lemma rne_equiv s m l : round_nearest_even m l = choice_mode mode_NE s m l.
Proof. destruct l as [|[| |]]; try reflexivity. cbn. unfold Round.cond_incr. destruct (Z.even m); reflexivity. Qed.
Lemma round_aux_equiv sx mx ex lx : SpecFloat.binary_round_aux 24 128 sx mx ex lx = binary_round_aux 24 128 mode_NE sx mx ex lx.
Proof. unfold SpecFloat.binary_round_aux, binary_round_aux. destruct (shr_fexp _ _ _) as [mrs' e']; cbn. rewrite (rne_equiv sx). reflexivity. Qed.
Lemma round_equiv s m e : SpecFloat.binary_round 24 128 s m e = binary_round 24 128 mode_NE s m e.
Proof. unfold SpecFloat.binary_round, binary_round, shl_align_fexp. destruct (shl_align _ _ _) as [mz ez]. apply round_aux_equiv. Qed.
Lemma normalize_equiv m e z : SpecFloat.binary_normalize 24 128 m e z = B2SF (binary_normalize 24 128 Hprec Hmax mode_NE m e z).
Proof. destruct m as [|p|p]; [reflexivity| |]; cbn; rewrite B2SF_SF2B; apply round_equiv. Qed.
Lemma add_equiv (x y : bf) : f32_add (B2SF x) (B2SF y) = B2SF (Bplus mode_NE x y).
Proof. destruct x as [sx|sx| |sx mx ex Bx], y as [sy|sy| |sy my ey By]; try reflexivity; try (cbn; destruct (Bool.eqb _ _); reflexivity). apply normalize_equiv. Qed.
Lemma sub_equiv (x y : bf) : f32_sub (B2SF x) (B2SF y) = B2SF (Bminus mode_NE x y).
Proof.
  destruct x as [sx|sx| |sx mx ex Bx], y as [sy|sy| |sy my ey By]; try reflexivity; try (cbn; destruct (Bool.eqb _ _); reflexivity).
  unfold f32_sub. cbn [B2SF SFsub]. unfold Zminus. rewrite <- cond_Zopp_negb. apply normalize_equiv.
Qed.
Lemma mul_equiv (x y : bf) : f32_mul (B2SF x) (B2SF y) = B2SF (Bmult mode_NE x y).
Proof. destruct x as [sx|sx| |sx mx ex Bx], y as [sy|sy| |sy my ey By]; try reflexivity. cbn. rewrite B2SF_SF2B. apply round_aux_equiv. Qed.
Lemma div_equiv (x y : bf) : f32_div (B2SF x) (B2SF y) = B2SF (Bdiv mode_NE x y).
Proof.
  destruct x as [sx|sx| |sx mx ex Bx], y as [sy|sy| |sy my ey By]; try reflexivity. cbn -[SFdiv_core_binary]. rewrite B2SF_SF2B.
  unfold f32_div. cbn -[SFdiv_core_binary]. destruct (SFdiv_core_binary _ _ _ _ _ _) as [[mz ez] lz]. apply round_aux_equiv.
Qed.

(** * Rounding *)

Lemma rr_le x y : (x <= y)%R -> (rr x <= rr y)%R.
Proof. apply round_le; typeclasses eauto. Qed.
Lemma rr_id x : generic_format radix2 fexp32 x -> rr x = x.
Proof. apply round_generic; typeclasses eauto. Qed.
Lemma rr_0 : rr 0 = 0%R. Proof. apply round_0; typeclasses eauto. Qed.
Lemma fin_format x r : fin x r -> generic_format radix2 fexp32 r.
Proof. intros F. destruct (fin_bf _ _ F) as (b & _ & _ & <-). apply generic_format_B2R. Qed.
Lemma fin_rr x r : fin x r -> rr r = r.
Proof. intros F. apply rr_id, (fin_format _ _ F). Qed.
Lemma format_fixed z e : (Z.abs z <= 2 ^ 24)%Z -> (-149 <= e)%Z -> generic_format radix2 fexp32 (IZR z * bpow radix2 e).
Proof.
  intros B E. destruct (Z.eq_dec (Z.abs z) (2 ^ 24)) as [EQ|NE].
  - assert (H : generic_format radix2 fexp32 (bpow radix2 (24 + e))).
    { apply generic_format_bpow. unfold SpecFloat.fexp, SpecFloat.emin. lia. }
    assert (D : (z = 2 ^ 24 \/ z = - 2 ^ 24)%Z) by lia. rewrite bpow_plus in H. change (bpow radix2 24) with (IZR (2 ^ 24)) in H. destruct D as [-> | ->]; [exact H|].
    rewrite opp_IZR, Ropp_mult_distr_l_reverse. apply generic_format_opp. exact H.
  - apply generic_format_FLT. exists (Float radix2 z e); [reflexivity|cbn; change (radix2 : Z) with 2%Z; lia|exact E].
Qed.
Lemma rr_bound x e : (-149 <= e)%Z -> (Rabs x <= bpow radix2 e)%R -> (Rabs (rr x) <= bpow radix2 e)%R.
Proof. intros E H. apply abs_round_le_generic; try typeclasses eauto; [|exact H]. apply generic_format_bpow. unfold SpecFloat.fexp, SpecFloat.emin. lia. Qed.
Lemma rr_small x : (Rabs x <= bpow radix2 100)%R -> Rlt_bool (Rabs (round radix2 fexp32 (round_mode mode_NE) x)) (bpow radix2 128) = true.
Proof. intros H. apply Rlt_bool_true. change (round radix2 fexp32 (round_mode mode_NE) x) with (rr x). eapply Rle_lt_trans; [apply (rr_bound x 100); [lia|exact H]|]. apply bpow_lt. lia. Qed.

(** * Operations: the exact result, rounded *)

Lemma fin_add x y a b : fin x a -> fin y b -> (Rabs (a + b) <= bpow radix2 100)%R -> fin (f32_add x y) (rr (a + b)).
Proof.
  intros X Y S. destruct (fin_bf _ _ X) as (bx & <- & FX & <-). destruct (fin_bf _ _ Y) as (c & <- & FY & <-). rewrite add_equiv.
  pose proof (Bplus_correct 24 128 _ _ mode_NE bx c FX FY) as C. rewrite rr_small in C by exact S. destruct C as (V & F & _). apply bf_fin; assumption.
Qed.
Lemma fin_sub x y a b : fin x a -> fin y b -> (Rabs (a - b) <= bpow radix2 100)%R -> fin (f32_sub x y) (rr (a - b)).
Proof.
  intros X Y S. destruct (fin_bf _ _ X) as (bx & <- & FX & <-). destruct (fin_bf _ _ Y) as (c & <- & FY & <-). rewrite sub_equiv.
  pose proof (Bminus_correct 24 128 _ _ mode_NE bx c FX FY) as C. rewrite rr_small in C by exact S. destruct C as (V & F & _). apply bf_fin; assumption.
Qed.
Lemma fin_mul x y a b : fin x a -> fin y b -> (Rabs (a * b) <= bpow radix2 100)%R -> fin (f32_mul x y) (rr (a * b)).
Proof.
  intros X Y S. destruct (fin_bf _ _ X) as (bx & <- & FX & <-). destruct (fin_bf _ _ Y) as (c & <- & FY & <-). rewrite mul_equiv.
  pose proof (Bmult_correct 24 128 _ _ mode_NE bx c) as C. rewrite rr_small in C by exact S. destruct C as (V & F & _). rewrite FX, FY in F. apply bf_fin; assumption.
Qed.
Lemma fin_div x y a b : fin x a -> fin y b -> b <> 0%R -> (Rabs (a / b) <= bpow radix2 100)%R -> fin (f32_div x y) (rr (a / b)).
Proof.
  intros X Y NZ S. destruct (fin_bf _ _ X) as (bx & <- & FX & <-). destruct (fin_bf _ _ Y) as (c & <- & FY & <-). rewrite div_equiv.
  pose proof (Bdiv_correct 24 128 _ _ mode_NE bx c NZ) as C. rewrite rr_small in C by exact S. destruct C as (V & F & _). rewrite FX in F. apply bf_fin; assumption.
Qed.
Lemma fin_of_Z z : (Z.abs z <= 2 ^ 100)%Z -> fin (f32_of_Z z) (rr (IZR z)).
Proof.
  intros B. unfold f32_of_Z. rewrite normalize_equiv. pose proof (binary_normalize_correct 24 128 _ _ mode_NE z 0 false) as C. cbv zeta in C.
  assert (E : F2R (Float radix2 z 0) = IZR z) by (unfold F2R; cbn; lra). rewrite E in C. rewrite rr_small in C.
  - destruct C as (V & F & _). apply bf_fin; assumption.
  - rewrite <- abs_IZR. change (bpow radix2 100) with (IZR (2 ^ 100)). apply IZR_le. exact B.
Qed.
Lemma fin_le x y a b : fin x a -> fin y b -> f32_le x y = true <-> (a <= b)%R.
Proof.
  intros X Y. destruct (fin_bf _ _ X) as (bx & <- & FX & <-). destruct (fin_bf _ _ Y) as (c & <- & FY & <-).
  pose proof (Bcompare_correct 24 128 bx c FX FY) as C. unfold Bcompare in C. unfold f32_le. rewrite C. destruct (Rcompare_spec (B2R bx) (B2R c)); split; intros; try reflexivity; try discriminate; lra.
Qed.
