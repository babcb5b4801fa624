(** The times the frames are told, as real numbers. *)
From Coq Require Import ZArith QArith Reals Lia Lra.
From Verif Require Import Base FloatModel MainModel MainSpec.
From Flocq Require Import Core.Core IEEE754.BinarySingleNaN.
From Flocq Require Import Relative.
From Verif Require Import FloatRealProofs BlinkSpec.
Set Implicit Arguments.
Open Scope list_scope.

Global Instance Hprec64 : FLX.Prec_gt_0 53 := eq_refl.
Global Instance Hmax64 : Prec_lt_emax 53 1024 := eq_refl.
Notation bd := (binary_float 53 1024).
Notation fexp64 := (SpecFloat.fexp 53 1024).
Definition rd (x : R) : R := round radix2 fexp64 ZnearestE x.
Global Instance Vexp64 : Valid_exp fexp64 := fexp_correct 53 1024 Hprec64.

Lemma reads_bd t r : reads t r -> exists b : bd, B2SF b = t /\ is_finite b = true /\ B2R b = r.
Proof. intros (V & F & E). exists (SF2B t V). split; [apply B2SF_SF2B|]. split; [rewrite is_finite_SF2B; exact F|rewrite B2R_SF2B; exact E]. Qed.
Lemma bd_reads (b : bd) r : is_finite b = true -> B2R b = r -> reads (B2SF b) r.
Proof. intros F E. split; [apply valid_binary_B2SF|]. split; [rewrite is_finite_SF_B2SF; exact F|rewrite SF2R_B2SF; exact E]. Qed.
Lemma round_aux_equiv64 sx mx ex lx : SpecFloat.binary_round_aux 53 1024 sx mx ex lx = binary_round_aux 53 1024 mode_NE sx mx ex lx.
Proof. unfold SpecFloat.binary_round_aux, binary_round_aux. destruct (shr_fexp _ _ _) as [mrs' e']; cbn. rewrite (rne_equiv sx). reflexivity. Qed.
Lemma round_equiv64 s m e : SpecFloat.binary_round 53 1024 s m e = binary_round 53 1024 mode_NE s m e.
Proof. unfold SpecFloat.binary_round, binary_round, shl_align_fexp. destruct (shl_align _ _ _) as [mz ez]. apply round_aux_equiv64. Qed.
Lemma normalize_equiv64 m e z : SpecFloat.binary_normalize 53 1024 m e z = B2SF (binary_normalize 53 1024 Hprec64 Hmax64 mode_NE m e z).
Proof. destruct m as [|p|p]; [reflexivity| |]; cbn; rewrite B2SF_SF2B; apply round_equiv64. Qed.
Lemma sub_equiv64 (x y : bd) : f64_sub (B2SF x) (B2SF y) = B2SF (Bminus mode_NE x y).
Proof.
  destruct x as [sx|sx| |sx mx ex Bx], y as [sy|sy| |sy my ey By]; try reflexivity; try (cbn; destruct (Bool.eqb _ _); reflexivity).
  unfold f64_sub. cbn [B2SF SFsub]. unfold Zminus. rewrite <- cond_Zopp_negb. apply normalize_equiv64.
Qed.
Lemma rd_small x : (Rabs x <= bpow radix2 100)%R -> Rlt_bool (Rabs (round radix2 fexp64 (round_mode mode_NE) x)) (bpow radix2 1024) = true.
Proof.
  intros H. apply Rlt_bool_true. change (round radix2 fexp64 (round_mode mode_NE) x) with (rd x). apply Rle_lt_trans with (bpow radix2 100); [|apply bpow_lt; lia].
  apply abs_round_le_generic; try typeclasses eauto; [|exact H]. apply generic_format_bpow. unfold SpecFloat.fexp, SpecFloat.emin. lia.
Qed.
Lemma reads_sub s t a b : reads s a -> reads t b -> (Rabs (a - b) <= bpow radix2 100)%R -> reads (f64_sub s t) (rd (a - b)).
Proof.
  intros X Y S. destruct (reads_bd X) as (bx & <- & FX & <-). destruct (reads_bd Y) as (c & <- & FY & <-). rewrite sub_equiv64.
  pose proof (Bminus_correct 53 1024 _ _ mode_NE bx c FX FY) as C. rewrite rd_small in C by exact S. destruct C as (V & F & _). apply bd_reads; assumption.
Qed.
Lemma reads_to_f32 t r : reads t r -> (Rabs r <= bpow radix2 100)%R -> fin (f64_to_f32 t) (rr r).
Proof.
  intros X B. destruct X as (V & F & E). destruct t as [s|s| |s m e]; cbn in F; try discriminate; cbn [f64_to_f32].
  - cbn in E. subst r. rewrite rr_0. split; [reflexivity|]. split; reflexivity.
  - rewrite normalize_equiv. pose proof (binary_normalize_correct 24 128 _ _ mode_NE (if s then Zneg m else Zpos m) e s) as C. cbv zeta in C.
    assert (E2 : F2R (Float radix2 (if s then Zneg m else Zpos m) e) = r) by (rewrite <- E; destruct s; reflexivity).
    rewrite E2 in C. rewrite rr_small in C by exact B. destruct C as (C1 & C2 & _). apply bf_fin; assumption.
Qed.

(** What rounding adds. *)
Lemma rd_near x : (Rabs (rd x - x) <= / 9000000000000000 * Rabs x + / 1000000000000)%R.
Proof.
  destruct (relative_error_N_FLT'_ex radix2 (3 - 1024 - 53) 53 ltac:(reflexivity) (fun x => negb (Z.even x)) x) as (eps & eta & A & B & _ & E).
  change (round radix2 (FLT_exp (3 - 1024 - 53) 53) ZnearestE x) with (rd x) in E.
  assert (U : (u_ro radix2 53 <= / 9000000000000000)%R).
  { unfold u_ro. change (bpow radix2 (- (53) + 1)) with (/ IZR (2 ^ 52))%R. change (2 ^ 52)%Z with 4503599627370496%Z. lra. }
  assert (A' : (Rabs eps <= / 9000000000000000)%R).
  { eapply Rle_trans; [exact A|]. assert (0 <= u_ro radix2 53)%R by apply u_ro_pos. apply Rle_trans with (u_ro radix2 53 / 1)%R; [|lra].
    apply Rmult_le_compat_l; [assumption|]. apply Rinv_le; lra. }
  assert (B' : (Rabs eta <= / 1000000000000)%R).
  { eapply Rle_trans; [exact B|]. apply Rle_trans with (/ 2 * bpow radix2 (-50))%R; [apply Rmult_le_compat_l; [lra|apply bpow_le; lia]|].
    change (bpow radix2 (-50)) with (/ IZR (2 ^ 50))%R. change (2 ^ 50)%Z with 1125899906842624%Z. lra. }
  rewrite E. replace (x * (1 + eps) + eta - x)%R with (eps * x + eta)%R by ring. eapply Rle_trans; [apply Rabs_triang|]. rewrite Rabs_mult.
  apply Rplus_le_compat; [|exact B']. apply Rmult_le_compat_r; [apply Rabs_pos|exact A'].
Qed.
Lemma rr_near x : (Rabs (rr x - x) <= / 16777216 * Rabs x + / 1000000000000)%R.
Proof.
  destruct (relative_error_N_FLT'_ex radix2 (3 - 128 - 24) 24 ltac:(reflexivity) (fun x => negb (Z.even x)) x) as (eps & eta & A & B & _ & E).
  change (round radix2 (FLT_exp (3 - 128 - 24) 24) ZnearestE x) with (rr x) in E.
  assert (U : (u_ro radix2 24 <= / 16777216)%R).
  { unfold u_ro. change (bpow radix2 (- (24) + 1)) with (/ IZR (2 ^ 23))%R. change (2 ^ 23)%Z with 8388608%Z. lra. }
  assert (A' : (Rabs eps <= / 16777216)%R).
  { eapply Rle_trans; [exact A|]. assert (0 <= u_ro radix2 24)%R by apply u_ro_pos. apply Rle_trans with (u_ro radix2 24 / 1)%R; [|lra].
    apply Rmult_le_compat_l; [assumption|]. apply Rinv_le; lra. }
  assert (B' : (Rabs eta <= / 1000000000000)%R).
  { eapply Rle_trans; [exact B|]. apply Rle_trans with (/ 2 * bpow radix2 (-50))%R; [apply Rmult_le_compat_l; [lra|apply bpow_le; lia]|].
    change (bpow radix2 (-50)) with (/ IZR (2 ^ 50))%R. change (2 ^ 50)%Z with 1125899906842624%Z. lra. }
  rewrite E. replace (x * (1 + eps) + eta - x)%R with (eps * x + eta)%R by ring. eapply Rle_trans; [apply Rabs_triang|]. rewrite Rabs_mult.
  apply Rplus_le_compat; [|exact B']. apply Rmult_le_compat_r; [apply Rabs_pos|exact A'].
Qed.

Lemma rd_le x y : (x <= y)%R -> (rd x <= rd y)%R.
Proof. apply round_le; typeclasses eauto. Qed.
Lemma rd_fixed z : (z = 0 \/ z = 1048576)%R -> rd z = z.
Proof.
  intros [-> | ->]; [apply round_0; typeclasses eauto|]. apply round_generic; [typeclasses eauto|]. change 1048576%R with (bpow radix2 20).
  apply generic_format_bpow. unfold SpecFloat.fexp, SpecFloat.emin. lia.
Qed.
Lemma rr_fixed z : (z = 0 \/ z = 1048576)%R -> rr z = z.
Proof.
  intros [-> | ->]; [apply rr_0|]. apply rr_id. change 1048576%R with (bpow radix2 20). apply generic_format_bpow. unfold SpecFloat.fexp, SpecFloat.emin. lia.
Qed.

(** One frame. *)
Lemma delta_near s t a b : reads s a -> reads t b -> (a <= b <= a + 1048576)%R ->
  exists r, fin (f64_to_f32 (f64_sub t s)) r /\ (0 <= r <= 1048576)%R /\ (Rabs (r - (b - a)) <= / 16777215 * (b - a) + / 100000000000)%R.
Proof.
  intros A B O. assert (P : (bpow radix2 100 >= 1048577)%R) by (change (bpow radix2 100) with (IZR (2 ^ 100)); apply Rle_ge, IZR_le; lia).
  assert (X : (Rabs (b - a) <= bpow radix2 100)%R) by (rewrite Rabs_pos_eq; lra).
  pose proof (reads_sub B A X) as R1. set (x := (b - a)%R) in *. assert (X0 : (0 <= x <= 1048576)%R) by (unfold x; lra).
  assert (D0 : (0 <= rd x <= 1048576)%R).
  { split; [rewrite <- (rd_fixed (or_introl eq_refl)); apply rd_le; lra|rewrite <- (rd_fixed (or_intror eq_refl)); apply rd_le; lra]. }
  assert (X1 : (Rabs (rd x) <= bpow radix2 100)%R) by (rewrite Rabs_pos_eq; lra).
  exists (rr (rd x)). split; [exact (reads_to_f32 R1 X1)|]. split.
  { split; [rewrite <- (rr_fixed (or_introl eq_refl)); apply rr_le; lra|rewrite <- (rr_fixed (or_intror eq_refl)); apply rr_le; lra]. }
  pose proof (rd_near x) as N1. pose proof (rr_near (rd x)) as N2. rewrite (Rabs_pos_eq x) in N1 by lra. rewrite (Rabs_pos_eq (rd x)) in N2 by lra.
  apply Rabs_le. apply Rabs_le_inv in N1. apply Rabs_le_inv in N2. lra.
Qed.
(** All frames. *)
Lemma deltas_near : forall ts s a bs, reads s a -> Forall2 reads ts bs -> goes_on a bs ->
  exists rs, Forall2 (fun x r => fin x r /\ (0 <= r <= 1048576)%R) (deltas s ts) rs /\
    (0 <= last bs a - a)%R /\ (Rabs (sum rs - (last bs a - a)) <= / 16777215 * (last bs a - a) + / 100000000000 * INR (List.length ts))%R.
Proof.
  induction ts as [|t ts IH]; intros s a bs A F G; inversion F; subst.
  - exists []. split; [constructor|]. cbn. unfold sum. cbn. replace (0 - (a - a))%R with 0%R by ring. rewrite Rabs_R0. lra.
  - rename y into b. rename l' into bs. cbn [goes_on] in G. destruct G as (O & G).
    destruct (delta_near A H1 O) as (r & Fr & B & N). destruct (IH t b bs H1 H3 G) as (rs & Frs & P & Ns).
    exists (r :: rs). split; [cbn [deltas]; constructor; [split; assumption|exact Frs]|].
    assert (EL : last (b :: bs) a = last bs b). { clear. revert a b. induction bs as [|c bs IH]; intros; [reflexivity|]. cbn [last]. destruct bs; [reflexivity|]. apply (IH a b). }
    rewrite EL. split; [lra|]. unfold sum in *. cbn [fold_right]. change (List.length (t :: ts)) with (S (List.length ts)). rewrite S_INR.
    apply Rabs_le. apply Rabs_le_inv in N. apply Rabs_le_inv in Ns. lra.
Qed.
