(** Proofs about single precision positions: carets, alignment, line heights. *)
From Coq Require Import ZArith QArith Qround Qreals Reals Lia Lra.
From Verif Require Import Base BaseFacts FloatModel BinarySearchModel BinarySearchProofs PackingProofs
  LayoutModel LayoutSpec LayoutProofs LayoutGeomProofs LayoutCaretProofs FloatLayoutModel FloatLayoutSpec FloatRealProofs.
From Flocq Require Import Core.Core IEEE754.BinarySingleNaN.
Open Scope Z_scope.

(** * Values *)

Definition sgn_m (s : bool) (m : positive) : Z := if s then Zneg m else Zpos m.
Lemma Q2R_pow e : 0 <= e -> Q2R (inject_Z (2 ^ e)) = bpow radix2 e.
Proof.
  intros H. unfold Q2R. cbn [inject_Z Qnum Qden]. rewrite <- (IZR_Zpower radix2 e H). change (radix2 : Z) with 2. field.
Qed.
Lemma Q2R_inject z : Q2R (inject_Z z) = IZR z.
Proof. unfold Q2R. cbn [inject_Z Qnum Qden]. field. Qed.
Lemma value_R x v : f32_value x = Some v -> is_finite_SF x = true /\ SF2R radix2 x = Q2R v.
Proof.
  destruct x as [s|s| |s m e]; cbn [f32_value]; intros H; inversion H; subst v; clear H.
  - split; [reflexivity|]. unfold Q2R. cbn. field.
  - split; [reflexivity|]. cbn [SF2R]. unfold F2R. cbn [Fnum Fexp]. rewrite Q2R_mult, Q2R_inject.
    assert (ES : cond_Zopp s (Z.pos m) = if s then Z.neg m else Z.pos m) by (destruct s; reflexivity). rewrite ES. f_equal.
    destruct (Z.leb_spec 0 e) as [L|L].
    + symmetry. apply Q2R_pow. exact L.
    + rewrite Q2R_inv.
      * rewrite Q2R_pow by lia. rewrite <- bpow_opp. f_equal. lia.
      * intros C. unfold Qeq in C. cbn in C. pose proof (Z.pow_pos_nonneg 2 (- e)). lia.
Qed.
Lemma finite_value x : is_finite_SF x = true -> exists v, f32_value x = Some v.
Proof. destruct x; cbn; try discriminate; eauto. Qed.
Lemma fin_value x r : fin x r -> exists v, f32_value x = Some v /\ Q2R v = r.
Proof. intros (V & F & E). destruct (finite_value x F) as [v Ev]. exists v. split; [exact Ev|]. destruct (value_R x v Ev) as [_ W]. congruence. Qed.
Lemma exactly_fin x q : exactly x q <-> fin x (Q2R q).
Proof.
  split.
  - intros (V & v & Ev & Eq). destruct (value_R x v Ev) as [F E]. split; [exact V|]. split; [exact F|]. rewrite E. apply Qeq_eqR. exact Eq.
  - intros F. destruct (fin_value _ _ F) as (v & Ev & Er). split; [apply F|]. exists v. split; [exact Ev|]. apply eqR_Qeq. exact Er.
Qed.
Lemma between_q_fin a x b r : fin x r -> (Q2R a <= r <= Q2R b)%R -> between_q a x b.
Proof.
  intros F H. destruct (fin_value _ _ F) as (v & Ev & Er). split; [apply F|]. exists v. split; [exact Ev|]. rewrite <- Er in H.
  split; apply Rle_Qle; apply H.
Qed.

(** * scalbn *)

Lemma scalbn_equiv (x : bf) n : f32_scalbn (B2SF x) n = B2SF (Bldexp mode_NE x n).
Proof.
  destruct x as [s|s| |s m e B]; try reflexivity. unfold f32_scalbn. cbn [B2SF SFldexp Bldexp]. rewrite B2SF_SF2B. apply round_equiv.
Qed.
Lemma fin_scalbn x a n : fin x a -> (Rabs (a * bpow radix2 n) <= bpow radix2 100)%R -> fin (f32_scalbn x n) (rr (a * bpow radix2 n)).
Proof.
  intros X S. destruct (fin_bf _ _ X) as (b & <- & F & <-). rewrite scalbn_equiv.
  pose proof (Bldexp_correct 24 128 _ _ mode_NE b n) as C. rewrite rr_small in C by exact S. destruct C as (V & G & _). apply bf_fin; [congruence|exact V].
Qed.
Lemma fin_lt x y a b : fin x a -> fin y b -> f32_lt x y = true <-> (a < b)%R.
Proof.
  intros X Y. destruct (fin_bf _ _ X) as (bx & <- & FX & <-). destruct (fin_bf _ _ Y) as (c & <- & FY & <-).
  pose proof (Bcompare_correct 24 128 bx c FX FY) as C. unfold Bcompare in C. unfold f32_lt, SFltb. rewrite C.
  destruct (Rcompare_spec (B2R bx) (B2R c)); split; intros; try reflexivity; try discriminate; lra.
Qed.

Lemma bpow_m6 : bpow radix2 (-6) = (/ 64)%R.
Proof. reflexivity. Qed.
Lemma IZR_bound z n : (Z.abs z <= n)%Z -> (Rabs (IZR z) <= IZR n)%R.
Proof. intros H. rewrite <- abs_IZR. apply IZR_le. exact H. Qed.

Lemma rr_of_Z_bound z : Z.abs z <= 2 ^ 31 -> (Rabs (rr (IZR z)) <= bpow radix2 31)%R.
Proof. intros H. apply rr_bound; [lia|]. apply (IZR_bound z (2 ^ 31)). exact H. Qed.
Lemma fin_fixed z : Z.abs z <= 2 ^ 31 -> fin (fixed_f32 z) (rr (rr (IZR z) * / 64)).
Proof.
  intros H. unfold fixed_f32. rewrite <- bpow_m6. apply fin_scalbn; [apply fin_of_Z; lia|].
  rewrite Rabs_mult. pose proof (rr_of_Z_bound z H) as B. rewrite bpow_m6. rewrite (Rabs_pos_eq (/ 64)) by lra.
  apply Rle_trans with (bpow radix2 31); [pose proof (Rabs_pos (rr (IZR z))); lra|apply bpow_le; lia].
Qed.
Lemma fixed_exact z : Z.abs z <= 2 ^ 24 -> fin (fixed_f32 z) (IZR z / 64).
Proof.
  intros H. assert (E1 : rr (IZR z) = IZR z).
  { apply rr_id. replace (IZR z) with (IZR z * bpow radix2 0)%R by (cbn; lra). apply format_fixed; lia. }
  pose proof (fin_fixed z ltac:(lia)) as F. rewrite E1 in F. rewrite rr_id in F; [exact F|].
  rewrite <- bpow_m6. apply format_fixed; lia.
Qed.
Lemma fixed_mono z w : Z.abs z <= 2 ^ 31 -> Z.abs w <= 2 ^ 31 -> z <= w -> f32_le (fixed_f32 z) (fixed_f32 w) = true.
Proof.
  intros Hz Hw H. apply (fin_le _ _ _ _ (fin_fixed z Hz) (fin_fixed w Hw)). apply rr_le.
  assert (rr (IZR z) <= rr (IZR w))%R by (apply rr_le, IZR_le; exact H). lra.
Qed.
Lemma Q2R_64 z : Q2R (z # 64) = (IZR z / 64)%R.
Proof. reflexivity. Qed.
Lemma fixed_exactly z : Z.abs z <= 2 ^ 24 -> exactly (fixed_f32 z) (z # 64).
Proof. intros H. apply exactly_fin. rewrite Q2R_64. apply fixed_exact. exact H. Qed.
Lemma position_fin f q : position f q -> exists z, 0 <= z <= 2 ^ 24 /\ Q2R q = (IZR z / 64)%R /\ fin f (IZR z / 64).
Proof. intros (z & B & E & ->). exists z. split; [exact B|]. split; [rewrite (Qeq_eqR _ _ E); apply Q2R_64|apply fixed_exact; lia]. Qed.

(** * Interpolation *)

Lemma rr_pos x : (0 <= x)%R -> (0 <= rr x)%R.
Proof. intros H. rewrite <- rr_0. apply rr_le. exact H. Qed.
Lemma rr_1 : rr 1 = 1%R.
Proof. apply rr_id. replace 1%R with (IZR 1 * bpow radix2 0)%R by (cbn; lra). apply format_fixed; lia. Qed.
Lemma count_pos n : 1 <= n -> (1 <= rr (IZR n))%R.
Proof. intros H. rewrite <- rr_1. apply rr_le. apply IZR_le. exact H. Qed.

(** The quotient the program computes. *)
Definition share (p n : Z) : R := rr (rr (IZR p) / rr (IZR n)).
Lemma share_exact_range p n : 0 <= p <= n -> 1 <= n -> (0 <= rr (IZR p) / rr (IZR n) <= 1)%R.
Proof.
  intros H N. pose proof (count_pos n N) as P. assert (0 <= rr (IZR p))%R by (apply rr_pos, IZR_le; lia).
  assert (rr (IZR p) <= rr (IZR n))%R by (apply rr_le, IZR_le; lia). split.
  - apply Rmult_le_pos; [assumption|]. left. apply Rinv_0_lt_compat. lra.
  - apply Rmult_le_reg_r with (rr (IZR n)); [lra|]. unfold Rdiv. rewrite Rmult_assoc, Rinv_l by lra. lra.
Qed.
Lemma share_range p n : 0 <= p <= n -> 1 <= n -> (0 <= share p n <= 1)%R.
Proof. intros H N. pose proof (share_exact_range p n H N) as [A B]. split; [apply rr_pos; exact A|]. rewrite <- rr_1. apply rr_le. exact B. Qed.
Lemma share_mono p q n : p <= q -> 1 <= n -> (share p n <= share q n)%R.
Proof.
  intros H N. apply rr_le. pose proof (count_pos n N) as P. apply Rmult_le_compat_r; [left; apply Rinv_0_lt_compat; lra|]. apply rr_le, IZR_le. exact H.
Qed.
Lemma fin_share p n : 0 <= p <= n -> 1 <= n < 2 ^ 32 -> fin (f32_div (f32_of_Z p) (f32_of_Z n)) (share p n).
Proof.
  intros H N. pose proof (count_pos n ltac:(lia)) as P. apply fin_div; [apply fin_of_Z; lia|apply fin_of_Z; lia|lra|].
  pose proof (share_exact_range p n H ltac:(lia)) as S. rewrite Rabs_pos_eq by lra. apply Rle_trans with 1%R; [lra|]. change 1%R with (bpow radix2 0). apply bpow_le. lia.
Qed.

Definition mid (a b : R) (s : R) : R := rr (a + rr ((b - a) * s)).
Lemma fmt64 z : Z.abs z <= 2 ^ 24 -> rr (IZR z / 64) = (IZR z / 64)%R.
Proof. intros H. apply rr_id. unfold Rdiv. rewrite <- bpow_m6. apply format_fixed; lia. Qed.
Lemma val_bound z : 0 <= z <= 2 ^ 24 -> (0 <= IZR z / 64 <= bpow radix2 18)%R.
Proof. intros [A B]. apply IZR_le in A, B. change (bpow radix2 18) with 262144%R. change (IZR (2 ^ 24)) with 16777216%R in B. lra. Qed.
Section Mid.
Variables (za zb : Z).
Hypothesis (HA : 0 <= za <= 2 ^ 24) (HB : 0 <= zb <= 2 ^ 24).
Let a := (IZR za / 64)%R.
Let b := (IZR zb / 64)%R.
Lemma diff_exact : (b - a)%R = (IZR (zb - za) / 64)%R.
Proof. unfold a, b. rewrite minus_IZR. field. Qed.
Lemma rr_diff : rr (b - a) = (b - a)%R.
Proof. rewrite diff_exact. apply fmt64. lia. Qed.
Lemma prod_up s : (0 <= s <= 1)%R -> (a <= b)%R -> (0 <= rr ((b - a) * s) <= b - a)%R.
Proof.
  intros S L. split; [apply rr_pos; nra|]. apply Rle_trans with (rr (b - a)); [apply rr_le; nra|rewrite rr_diff; lra].
Qed.
Lemma prod_down s : (0 <= s <= 1)%R -> (b <= a)%R -> (b - a <= rr ((b - a) * s) <= 0)%R.
Proof.
  intros S L. split; [apply Rle_trans with (rr (b - a)); [rewrite rr_diff; lra|apply rr_le; nra]|]. rewrite <- rr_0. apply rr_le. nra.
Qed.
Lemma rr_a : rr a = a. Proof. apply fmt64. lia. Qed.
Lemma rr_b : rr b = b. Proof. apply fmt64. lia. Qed.
Lemma mid_up s : (0 <= s <= 1)%R -> (a <= b)%R -> (a <= mid a b s <= b)%R.
Proof.
  intros S L. pose proof (prod_up s S L) as P. unfold mid.
  split; [apply Rle_trans with (rr a); [rewrite rr_a; lra|]|apply Rle_trans with (rr b); [|rewrite rr_b; lra]]; apply rr_le; lra.
Qed.
Lemma mid_down s : (0 <= s <= 1)%R -> (b <= a)%R -> (b <= mid a b s <= a)%R.
Proof.
  intros S L. pose proof (prod_down s S L) as P. unfold mid.
  split; [apply Rle_trans with (rr b); [rewrite rr_b; lra|]|apply Rle_trans with (rr a); [|rewrite rr_a; lra]]; apply rr_le; lra.
Qed.
Lemma mid_mono_up s t : (s <= t)%R -> (a <= b)%R -> (mid a b s <= mid a b t)%R.
Proof. intros S L. unfold mid. apply rr_le. apply Rplus_le_compat_l. apply rr_le. nra. Qed.
Lemma mid_mono_down s t : (s <= t)%R -> (b <= a)%R -> (mid a b t <= mid a b s)%R.
Proof. intros S L. unfold mid. apply rr_le. apply Rplus_le_compat_l. apply rr_le. nra. Qed.
Lemma fin_between fa fb p n : fin fa a -> fin fb b -> 0 <= p <= n -> 1 <= n < 2 ^ 32 -> fin (between fa fb p n) (mid a b (share p n)).
Proof.
  intros FA FB P N. pose proof (val_bound _ HA) as BA. pose proof (val_bound _ HB) as BB. fold a in BA. fold b in BB.
  pose proof (share_range p n P ltac:(lia)) as S.
  assert (B19 : (bpow radix2 18 + bpow radix2 18 <= bpow radix2 100)%R).
  { apply Rle_trans with (bpow radix2 19); [change (bpow radix2 18) with 262144%R; change (bpow radix2 19) with 524288%R; lra|apply bpow_le; lia]. }
  pose proof (bpow_gt_0 radix2 18) as G. unfold between, mid.
  assert (P1 : (Rabs (rr ((b - a) * share p n)) <= bpow radix2 18)%R).
  { apply rr_bound; [lia|]. rewrite Rabs_mult. rewrite (Rabs_pos_eq (share p n)) by lra.
    assert (Rabs (b - a) <= bpow radix2 18)%R by (apply Rabs_le; lra). pose proof (Rabs_pos (b - a)). nra. }
  apply fin_add; [exact FA| |].
  - apply fin_mul.
    + rewrite <- rr_diff. apply fin_sub; [exact FB|exact FA|]. apply Rabs_le. lra.
    + apply fin_share; assumption.
    + rewrite Rabs_mult. rewrite (Rabs_pos_eq (share p n)) by lra.
      assert (Rabs (b - a) <= bpow radix2 18)%R by (apply Rabs_le; lra). pose proof (Rabs_pos (b - a)). nra.
  - eapply Rle_trans; [apply Rabs_triang|]. rewrite (Rabs_pos_eq a) by lra. lra.
Qed.
End Mid.

(** * Rounding error *)

Lemma rr_err x e : -125 <= e -> (Rabs x <= bpow radix2 e)%R -> (Rabs (rr x - x) <= bpow radix2 (e - 25))%R.
Proof.
  intros E H. destruct (Rle_lt_or_eq_dec _ _ H) as [L|L].
  - destruct (Req_dec x 0) as [-> |NZ]; [rewrite rr_0, Rminus_0_r, Rabs_R0; apply bpow_ge_0|].
    eapply Rle_trans; [apply error_le_half_ulp; typeclasses eauto|].
    rewrite ulp_neq_0 by exact NZ. replace (bpow radix2 (e - 25)) with (/ 2 * bpow radix2 (e - 24))%R.
    + apply Rmult_le_compat_l; [lra|]. apply bpow_le. unfold cexp, SpecFloat.fexp, SpecFloat.emin.
      pose proof (mag_le_bpow radix2 x e NZ L). lia.
    + replace (e - 24) with (1 + (e - 25)) by lia. rewrite bpow_plus. change (bpow radix2 1) with 2%R. lra.
  - rewrite rr_id; [rewrite Rminus_diag_eq by reflexivity; rewrite Rabs_R0; apply bpow_ge_0|].
    assert (F : generic_format radix2 fexp32 (bpow radix2 e)) by (apply generic_format_bpow; unfold SpecFloat.fexp, SpecFloat.emin; lia).
    unfold Rabs in L. destruct (Rcase_abs x); [|congruence]. replace x with (- bpow radix2 e)%R by lra. apply generic_format_opp. exact F.
Qed.
Lemma rr_int z : Z.abs z <= 2 ^ 24 -> rr (IZR z) = IZR z.
Proof. intros H. apply rr_id. replace (IZR z) with (IZR z * bpow radix2 0)%R by (cbn; lra). apply format_fixed; lia. Qed.
Lemma mid_err a b p n k : (0 <= k <= 18) -> (0 <= a <= bpow radix2 k)%R -> (0 <= b <= bpow radix2 k)%R -> rr (b - a) = (b - a)%R ->
  0 <= p <= n -> 1 <= n <= 2 ^ 24 ->
  (Rabs (mid a b (share p n) - (a + (b - a) * (IZR p / IZR n))) <= 3 * bpow radix2 (k - 25))%R.
Proof.
  intros K A B RD P N. set (s := (IZR p / IZR n)%R). set (t := share p n) in *. set (pr := rr ((b - a) * t)).
  assert (S1 : (0 <= s <= 1)%R).
  { pose proof (share_exact_range p n P ltac:(lia)) as Q. rewrite !rr_int in Q by lia. exact Q. }
  assert (T1 : (0 <= t <= 1)%R) by (apply share_range; lia).
  assert (E1 : (Rabs (t - s) <= bpow radix2 (0 - 25))%R).
  { unfold t, share. rewrite !rr_int by lia. fold s. apply rr_err; [lia|]. rewrite Rabs_pos_eq by lra. change (bpow radix2 0) with 1%R. lra. }
  assert (D : (Rabs (b - a) <= bpow radix2 k)%R) by (apply Rabs_le; lra).
  assert (E2 : (Rabs (pr - (b - a) * t) <= bpow radix2 (k - 25))%R).
  { apply rr_err; [lia|]. rewrite Rabs_mult, (Rabs_pos_eq t) by lra. pose proof (Rabs_pos (b - a)). nra. }
  assert (D2 : (Rabs ((b - a) * (t - s)) <= bpow radix2 (k - 25))%R).
  { rewrite Rabs_mult. replace (k - 25) with (k + (0 - 25)) by lia. rewrite bpow_plus. apply Rmult_le_compat; try apply Rabs_pos; assumption. }
  assert (PB : (Rabs (a + pr) <= bpow radix2 k)%R).
  { unfold pr. destruct (Rle_dec a b) as [L|L].
    - assert (Q : (0 <= rr ((b - a) * t) <= b - a)%R).
      { split; [apply rr_pos; nra|]. apply Rle_trans with (rr (b - a)); [apply rr_le; nra|lra]. }
      rewrite Rabs_pos_eq; lra.
    - assert (Q : (b - a <= rr ((b - a) * t) <= 0)%R).
      { split; [apply Rle_trans with (rr (b - a)); [lra|apply rr_le; nra]|]. rewrite <- rr_0. apply rr_le. nra. }
      rewrite Rabs_pos_eq; lra. }
  assert (E3 : (Rabs (mid a b t - (a + pr)) <= bpow radix2 (k - 25))%R) by (apply rr_err; [lia|exact PB]).
  replace (mid a b t - (a + (b - a) * s))%R with ((mid a b t - (a + pr)) + ((pr - (b - a) * t) + (b - a) * (t - s)))%R by ring.
  eapply Rle_trans; [apply Rabs_triang|]. eapply Rle_trans; [apply Rplus_le_compat_l, Rabs_triang|]. lra.
Qed.

(** * Carets *)

Definition lf (r : srun) (F : nat -> f32) (k : nat) : f32 := if sr_rtl r then F (run_len r - k)%nat else F k.
(** As [caret_at], for floats. *)
Definition caret_f (r : srun) (F : nat -> f32) (p : Z) (g : nat) (f : f32) : Prop :=
  (g <= run_len r)%nat /\
  (forall k, (k < g)%nat -> nth k (logical_chars r) (sr_end r) < p) /\
  (forall k, (g <= k)%nat -> p <= nth k (logical_chars r) (sr_end r)) /\
  match g with
  | O => f = lf r F 0
  | S k => if p <? char_after r k
           then f = between (lf r F k) (lf r F (S k)) (p - nth k (logical_chars r) (sr_end r)) (char_after r k - nth k (logical_chars r) (sr_end r))
           else f = lf r F (S k)
  end.

Lemma Forall2_get {A B} (R : A -> B -> Prop) l m k b : Forall2 R l m -> nth_error m k = Some b -> exists a, nth_error l k = Some a /\ R a b.
Proof. intros H. revert k. induction H; intros [|k] N; try discriminate; cbn in *; [inversion N; subst; eauto|eauto]. Qed.

Section Run.
Variables (d : sdoc) (y : Q) (pre : list srun) (r : srun) (post : list srun) (ps : list f32).
Hypothesis E : doc_runs d = pre ++ r :: post.
Hypothesis OK : run_ok r.
Let l := layout_of d y.
Hypothesis PS : positions ps (lo_pos l).
Let G := count_glyphs pre.
Let i := length pre.
Let n := run_len r.
Definition run_f (k : nat) : f32 := nth (2 * (count_glyphs pre + length pre) + 2 * k)%nat ps f32_0.

Lemma chg k : (k < n)%nat -> vget (lo_chars l) (G + k) = Ok (nth k (run_chars r) (sr_end r)).
Proof. exact (@char_get d y pre r post E k). Qed.
Lemma rchars k : sr_rtl r = true -> (k < n)%nat -> nth k (run_chars r) (sr_end r) = nth (n - 1 - k) (logical_chars r) (sr_end r).
Proof. exact (@rev_chars_nth pre r k). Qed.
Lemma rxs k : sr_rtl r = true -> (k <= n)%nat -> nth k (run_xs r) 0%Q = nth (n - k) (logical_xs r) 0%Q.
Proof. exact (@rev_xs_nth pre r k). Qed.
Lemma posf_get k : (k <= n)%nat -> vget ps (2 * (G + i) + 2 * k) = Ok (run_f k).
Proof.
  intros H. pose proof (@pos_get d y pre r post E k H) as P. fold l G i in P. apply vget_ok in P.
  destruct (Forall2_get _ _ _ _ _ PS P) as (f & Nf & Pf). unfold run_f. fold G i. rewrite (nth_error_nth _ _ f32_0 Nf). apply vget_ok. exact Nf.
Qed.
Lemma posf_is k : (k <= n)%nat -> position (run_f k) (nth k (run_xs r) 0%Q).
Proof.
  intros H. pose proof (@pos_get d y pre r post E k H) as P. fold l G i in P. apply vget_ok in P.
  destruct (Forall2_get _ _ _ _ _ PS P) as (f & Nf & Pf). unfold run_f. fold G i. rewrite (nth_error_nth _ _ f32_0 Nf). exact Pf.
Qed.
Lemma lf_is k : (k <= n)%nat -> position (lf r run_f k) (nth k (logical_xs r) 0%Q).
Proof.
  intros H. unfold lf. destruct (sr_rtl r) eqn:D.
  - fold n. pose proof (rxs (n - k) D ltac:(lia)) as R. replace (n - (n - k))%nat with k in R by lia. rewrite <- R. apply posf_is. lia.
  - unfold logical_xs. rewrite D. apply posf_is. exact H.
Qed.

Lemma ltr_f p : sr_rtl r = false -> sr_start r <= p <= sr_end r ->
  exists g f, offset_ltr l ps i p = Ok f /\ caret_f r run_f p g f.
Proof.
  intros Hd Hp. unfold offset_ltr.
  destruct (@doc_run_view d y pre r post E) as (Vr & Vg & Vp & _). cbv zeta in Vr, Vg, Vp. fold l G i in Vr, Vg, Vp.
  rewrite Vr, Vg, Vp. cbn [obind vrun_of ru_glyph_end ru_end]. fold n.
  assert (LC : logical_chars r = run_chars r) by (unfold logical_chars; rewrite Hd; reflexivity).
  assert (Hs : sr_end r < 2 ^ 31 /\ 0 <= sr_start r) by (destruct OK as (? & ? & _); lia).
  replace (G + n - G)%nat with n by lia.
  destruct (@binary_search_partition G n (fun k => nth (k - G) (run_chars r) (sr_end r) <? p)) with
    (cond := fun k => do c <- vget (lo_chars l) k; Ok (c <? p)) as (g & Eg & Rg & A & B).
  { intros a b Ha Hab Hb Hlt. pose proof (@run_ok_sorted r (a - G) (b - G) OK) as S. rewrite LC in S. fold n in S. lia. }
  { intros k Hk. replace k with (G + (k - G))%nat at 1 by lia. rewrite chg by lia. reflexivity. }
  rewrite Eg. cbn [obind].
  set (h := (g - G)%nat). assert (Eh : g = (G + h)%nat) by (unfold h; lia). assert (Hh : (h <= n)%nat) by (unfold h; lia).
  clearbody h. subst g.
  assert (Lo : forall k, (k < h)%nat -> nth k (run_chars r) (sr_end r) < p).
  { intros k Hk. specialize (A (G + k)%nat). replace (G + k - G)%nat with k in A by lia. lia. }
  assert (Hi : forall k, (h <= k)%nat -> p <= nth k (run_chars r) (sr_end r)).
  { intros k Hk. destruct (Nat.ltb_spec k n).
    - specialize (B (G + k)%nat). replace (G + k - G)%nat with k in B by lia. lia.
    - rewrite nth_overflow by (rewrite length_run_chars; exact H). lia. }
  replace (G + h =? G + n)%nat with (h =? n)%nat by (destruct (Nat.eqb_spec h n), (Nat.eqb_spec (G + h) (G + n)); lia).
  assert (Nx : (if (h =? n)%nat then Ok (sr_end r) else vget (lo_chars l) (G + h)) = Ok (nth h (run_chars r) (sr_end r))).
  { destruct (Nat.eqb_spec h n) as [->|Hn].
    - rewrite nth_overflow by (rewrite length_run_chars; unfold n; lia). reflexivity.
    - apply chg. lia. }
  rewrite Nx. cbn [obind]. set (nx := nth h (run_chars r) (sr_end r)) in *.
  assert (Hnx : p <= nx) by (apply Hi; lia).
  assert (Hnx2 : nx <= sr_end r).
  { pose proof (@run_ok_sorted r h n OK) as S. rewrite LC in S. unfold nx.
    rewrite (nth_overflow (run_chars r) (n := n)) in S by (rewrite length_run_chars; unfold n; lia). apply S. fold n. lia. }
  rewrite wrap_sub by lia.
  replace (G + h - G)%nat with h by lia. rewrite (posf_get _ Hh). cbn [obind].
  destruct h as [|k].
  - assert (Pn : nx = p).
    { pose proof (run_ok_first OK) as F. rewrite LC in F. unfold nx. lia. }
    replace (nx - p) with 0 by lia. cbn [andb Z.ltb]. change (0 <? 0) with false. cbn [andb].
    exists 0%nat. eexists. split; [reflexivity|]. split; [lia|]. rewrite LC. split; [exact Lo|]. split; [exact Hi|]. unfold lf. rewrite Hd. reflexivity.
  - assert (Hc : nth k (run_chars r) (sr_end r) < p) by (apply Lo; lia).
    assert (Hc0 : sr_start r <= nth k (run_chars r) (sr_end r)).
    { pose proof (@run_ok_chars r k OK) as S. rewrite LC in S. fold n in S. lia. }
    exists (S k). destruct (0 <? nx - p) eqn:Ed; cbn [andb].
    + rewrite (proj2 (Nat.ltb_lt 0 (G + S k))) by lia. cbn [andb].
      replace (G + S k - 1)%nat with (G + k)%nat by lia. rewrite chg by lia. cbn [obind].
      unfold zget. replace (_ <? 0) with false by lia.
      replace (Z.to_nat _) with (2 * (G + i) + 2 * k)%nat by lia. rewrite posf_get by lia. cbn [obind].
      rewrite (@wrap_sub nx (nth k (run_chars r) (sr_end r))) by lia. replace (nx - nth k (run_chars r) (sr_end r) - (nx - p)) with (p - nth k (run_chars r) (sr_end r)) by lia.
      rewrite wrap_small by lia.
      eexists. split; [reflexivity|]. split; [fold n; lia|]. rewrite LC. split; [exact Lo|]. split; [exact Hi|].
      unfold char_after. rewrite LC. fold nx. replace (p <? nx) with true by lia. unfold lf. rewrite Hd. reflexivity.
    + cbn [andb]. eexists. split; [reflexivity|]. split; [fold n; lia|]. rewrite LC. split; [exact Lo|]. split; [exact Hi|].
      unfold char_after. rewrite LC. fold nx. replace (p <? nx) with false by lia. unfold lf. rewrite Hd. reflexivity.
Qed.

Lemma rtl_f p : sr_rtl r = true -> sr_start r <= p <= sr_end r ->
  exists g f, offset_rtl l ps i p = Ok f /\ caret_f r run_f p g f.
Proof.
  intros Hd Hp. unfold offset_rtl.
  destruct (@doc_run_view d y pre r post E) as (Vr & Vg & Vp & _). cbv zeta in Vr, Vg, Vp. fold l G i in Vr, Vg, Vp.
  rewrite Vr, Vg, Vp. cbn [obind vrun_of ru_glyph_end ru_end]. fold n.
  assert (Hs : sr_end r < 2 ^ 31 /\ 0 <= sr_start r) by (destruct OK as (? & ? & _); lia).
  replace (G + n - G)%nat with n by lia.
  destruct (@binary_search_partition G n (fun k => p <=? nth (n - 1 - (k - G)) (logical_chars r) (sr_end r))) with
    (cond := fun k => do c <- vget (lo_chars l) k; Ok (p <=? c)) as (g & Eg & Rg & A & B).
  { intros a b Ha Hab Hb Hlt. pose proof (@run_ok_sorted r (n - 1 - (b - G)) (n - 1 - (a - G)) OK) as S. fold n in S. lia. }
  { intros k Hk. replace k with (G + (k - G))%nat at 1 by lia. rewrite chg by lia. cbn [obind].
    rewrite rchars by (assumption || lia). reflexivity. }
  rewrite Eg. cbn [obind].
  (* h characters are before [p] *)
  set (h := (n - (g - G))%nat). assert (Eh : g = (G + (n - h))%nat) by (unfold h; lia). assert (Hh : (h <= n)%nat) by (unfold h; lia).
  clearbody h. subst g.
  assert (Lo : forall k, (k < h)%nat -> nth k (logical_chars r) (sr_end r) < p).
  { intros k Hk. specialize (B (G + (n - 1 - k))%nat). replace (n - 1 - (G + (n - 1 - k) - G))%nat with k in B by lia. lia. }
  assert (Hi : forall k, (h <= k)%nat -> p <= nth k (logical_chars r) (sr_end r)).
  { intros k Hk. destruct (Nat.ltb_spec k n).
    - specialize (A (G + (n - 1 - k))%nat). replace (n - 1 - (G + (n - 1 - k) - G))%nat with k in A by lia. lia.
    - rewrite nth_overflow by (rewrite length_logical_chars; exact H). lia. }
  assert (Nx : (if (G + (n - h) =? G)%nat then Ok (sr_end r) else vget (lo_chars l) (G + (n - h) - 1)) = Ok (nth h (logical_chars r) (sr_end r))).
  { destruct (Nat.eqb_spec (G + (n - h)) G) as [He|Hn].
    - rewrite nth_overflow by (rewrite length_logical_chars; fold n; lia). reflexivity.
    - replace (G + (n - h) - 1)%nat with (G + (n - h - 1))%nat by lia. rewrite chg by lia.
      rewrite rchars by (assumption || lia). do 2 f_equal. lia. }
  rewrite Nx. cbn [obind]. set (nx := nth h (logical_chars r) (sr_end r)) in *.
  assert (Hnx : p <= nx) by (apply Hi; lia).
  assert (Hnx2 : nx <= sr_end r).
  { pose proof (@run_ok_sorted r h n OK) as S. unfold nx.
    rewrite (nth_overflow (logical_chars r) (n := n)) in S by (rewrite length_logical_chars; unfold n; lia). apply S. fold n. lia. }
  rewrite wrap_sub by lia.
  replace (G + (n - h) - G)%nat with (n - h)%nat by lia. rewrite posf_get by lia. cbn [obind].
  
  destruct h as [|k].
  - assert (Pn : nx = p).
    { pose proof (run_ok_first OK) as F. unfold nx. lia. }
    replace (nx - p) with 0 by lia. change (0 <? 0) with false. cbn [andb].
    exists 0%nat. eexists. split; [reflexivity|]. split; [lia|]. split; [exact Lo|]. split; [exact Hi|]. unfold lf. rewrite Hd. reflexivity.
  - assert (Hc : nth k (logical_chars r) (sr_end r) < p) by (apply Lo; lia).
    assert (Hc0 : sr_start r <= nth k (logical_chars r) (sr_end r)).
    { pose proof (@run_ok_chars r k OK) as S. fold n in S. lia. }
    exists (S k). destruct (0 <? nx - p) eqn:Ed; cbn [andb].
    + rewrite (proj2 (Nat.ltb_lt (G + (n - S k)) (G + n))) by lia. cbn [andb].
      rewrite chg by lia. rewrite rchars by (assumption || lia). cbn [obind].
      replace (n - 1 - (n - S k))%nat with k by lia.
      replace (2 * (G + i) + 2 * (n - S k + 1))%nat with (2 * (G + i) + 2 * (n - k))%nat by lia.
      rewrite posf_get by lia. cbn [obind].
      rewrite (@wrap_sub nx (nth k (logical_chars r) (sr_end r))) by lia. replace (nx - nth k (logical_chars r) (sr_end r) - (nx - p)) with (p - nth k (logical_chars r) (sr_end r)) by lia.
      rewrite wrap_small by lia.
      eexists. split; [reflexivity|]. split; [fold n; lia|]. split; [exact Lo|]. split; [exact Hi|].
      unfold char_after. fold nx. replace (p <? nx) with true by lia. unfold lf. rewrite Hd. reflexivity.
    + cbn [andb]. eexists. split; [reflexivity|]. split; [fold n; lia|]. split; [exact Lo|]. split; [exact Hi|].
      unfold char_after. fold nx. replace (p <? nx) with false by lia. unfold lf. rewrite Hd. reflexivity.
Qed.

Lemma in_run_f p : sr_start r <= p <= sr_end r ->
  exists g f, offset_in_run l ps i p = Ok f /\ caret_f r run_f p g f.
Proof.
  intros Hp. unfold offset_in_run.
  destruct (@doc_run_view d y pre r post E) as (Vr & _). cbv zeta in Vr. fold l G i in Vr. rewrite Vr.
  cbn [obind vrun_of ru_rtl]. destruct (sr_rtl r) eqn:Hd; [apply rtl_f|apply ltr_f]; assumption.
Qed.
End Run.

(** ** Consequences *)

Definition X (r : srun) (k : nat) : R := Q2R (nth k (logical_xs r) 0%Q).
Definition cv (r : srun) (p : Z) (g : nat) : R :=
  match g with
  | O => X r 0
  | S k => mid (X r k) (X r (S k)) (share (p - nth k (logical_chars r) (sr_end r)) (char_after r k - nth k (logical_chars r) (sr_end r)))
  end.
Definition readsR (r : srun) (a b : R) : Prop := if sr_rtl r then (b <= a)%R else (a <= b)%R.

Lemma share_same n : 1 <= n -> share n n = 1%R.
Proof. intros H. unfold share. pose proof (count_pos n H). unfold Rdiv. rewrite Rinv_r by lra. apply rr_1. Qed.
Lemma mid_one a b : rr b = b -> rr (b - a) = (b - a)%R -> mid a b 1 = b.
Proof. intros B D. unfold mid. rewrite Rmult_1_r, D. replace (a + (b - a))%R with b by ring. exact B. Qed.

Section Values.
Variables (r : srun) (F : nat -> f32).
Hypothesis OK : run_ok r.
Hypothesis LF : forall k, (k <= run_len r)%nat -> position (lf r F k) (nth k (logical_xs r) 0%Q).

Lemma X_is k : (k <= run_len r)%nat -> exists z, 0 <= z <= 2 ^ 24 /\ X r k = (IZR z / 64)%R /\ fin (lf r F k) (IZR z / 64).
Proof. intros H. destruct (position_fin _ _ (LF k H)) as (z & B & E & Fi). exists z. auto. Qed.
Lemma X_fin k : (k <= run_len r)%nat -> fin (lf r F k) (X r k).
Proof. intros H. destruct (X_is k H) as (z & B & -> & Fi). exact Fi. Qed.

Lemma chars_bound k : (k < run_len r)%nat -> 0 <= nth k (logical_chars r) (sr_end r) /\ char_after r k <= sr_end r /\ sr_end r < 2 ^ 31.
Proof.
  intros H. pose proof (@run_ok_chars r k OK H) as B. pose proof (@run_ok_sorted r (S k) (run_len r) OK ltac:(lia)) as S.
  rewrite (nth_overflow (logical_chars r) (n := run_len r)) in S by (rewrite length_logical_chars; lia).
  destruct OK as (? & ? & _). unfold char_after. lia.
Qed.

Lemma caret_value p g f : caret_f r F p g f -> fin f (cv r p g).
Proof.
  intros (Hg & Lo & Hi & Ef). destruct g as [|k].
  - subst f. apply X_fin. lia.
  - specialize (Lo k ltac:(lia)). specialize (Hi (S k) ltac:(lia)). fold (char_after r k) in Hi.
    pose proof (chars_bound k ltac:(lia)) as CB.
    destruct (X_is k ltac:(lia)) as (za & BA & EA & FA). destruct (X_is (S k) ltac:(lia)) as (zb & BB & EB & FB).
    cbn [cv]. rewrite EA, EB. destruct (Z.ltb_spec p (char_after r k)) as [L|L]; subst f.
    + apply fin_between; try assumption; lia.
    + assert (Ep : p = char_after r k) by lia. rewrite Ep. rewrite share_same by lia. rewrite mid_one; [exact FB|apply fmt64; lia|apply rr_diff; assumption].
Qed.

Hypothesis M : qnondecreasing (run_xs r).
Lemma X_mono i j : (i <= j <= run_len r)%nat -> readsR r (X r i) (X r j).
Proof.
  intros H. pose proof (@logical_xs_mono r i j M H) as L. unfold reads, readsR, X in *. destruct (sr_rtl r); apply Qle_Rle; exact L.
Qed.
Lemma readsR_refl a : readsR r a a. Proof. unfold readsR. destruct (sr_rtl r); lra. Qed.
Lemma readsR_trans a b c : readsR r a b -> readsR r b c -> readsR r a c.
Proof. unfold readsR. destruct (sr_rtl r); lra. Qed.

Lemma cv_reads p g f : caret_f r F p g f -> readsR r (X r (g - 1)) (cv r p g) /\ readsR r (cv r p g) (X r g).
Proof.
  intros (Hg & Lo & Hi & Ef). destruct g as [|k]; [split; apply readsR_refl|].
  specialize (Lo k ltac:(lia)). specialize (Hi (S k) ltac:(lia)). fold (char_after r k) in Hi. replace (S k - 1)%nat with k by lia.
  pose proof (X_mono k (S k) ltac:(lia)) as R. cbn [cv].
  destruct (X_is k ltac:(lia)) as (za & BA & EA & _). destruct (X_is (S k) ltac:(lia)) as (zb & BB & EB & _). rewrite EA, EB in *.
  pose proof (share_range (p - nth k (logical_chars r) (sr_end r)) (char_after r k - nth k (logical_chars r) (sr_end r)) ltac:(lia) ltac:(lia)) as S.
  unfold readsR in *. destruct (sr_rtl r).
  - pose proof (mid_down za zb BA BB _ S R). lra.
  - pose proof (mid_up za zb BA BB _ S R). lra.
Qed.
Lemma cv_mono p q g h f f' : caret_f r F p g f -> caret_f r F q h f' -> p <= q -> readsR r (cv r p g) (cv r q h).
Proof.
  intros Cp Cq Hpq.
  assert (Hgh : (g <= h)%nat).
  { destruct (Nat.ltb_spec h g); [|lia]. destruct Cp as (_ & Lo & _). destruct Cq as (_ & _ & Hi & _).
    specialize (Lo h H). specialize (Hi h (le_n _)). lia. }
  destruct (Nat.eq_dec g h) as [->|Hne].
  - destruct h as [|k]; [apply readsR_refl|]. destruct Cp as (Hg & Lo & Hi & _).
    specialize (Lo k ltac:(lia)). specialize (Hi (S k) ltac:(lia)). fold (char_after r k) in Hi.
    pose proof (X_mono k (S k) ltac:(lia)) as R. cbn [cv].
    pose proof (share_mono (p - nth k (logical_chars r) (sr_end r)) (q - nth k (logical_chars r) (sr_end r))
      (char_after r k - nth k (logical_chars r) (sr_end r)) ltac:(lia) ltac:(lia)) as S.
    unfold readsR in *. unfold mid. destruct (sr_rtl r); apply rr_le, Rplus_le_compat_l, rr_le; nra.
  - destruct (cv_reads _ _ _ Cp) as [_ R1]. destruct (cv_reads _ _ _ Cq) as [R2 _].
    eapply readsR_trans; [exact R1|]. eapply readsR_trans; [|exact R2]. apply X_mono. destruct Cq as (Hh & _). lia.
Qed.
Lemma cv_bounds p g f : caret_f r F p g f -> (Q2R (run_first_x r) <= cv r p g <= Q2R (sr_end_x r))%R.
Proof.
  intros C. destruct (cv_reads _ _ _ C) as [R1 R2]. pose proof (logical_first_last r) as FL.
  assert (Hg : (g <= run_len r)%nat) by apply C.
  pose proof (X_mono 0 (g - 1) ltac:(lia)) as A. pose proof (X_mono g (run_len r) ltac:(lia)) as B.
  unfold readsR, X in *. destruct (sr_rtl r); destruct FL as [F1 F2]; rewrite F1 in A; rewrite F2 in B; lra.
Qed.
End Values.

Lemma caret_f_boundary r F p g f k : run_ok r -> (forall k, (k <= run_len r)%nat -> position (lf r F k) (nth k (logical_xs r) 0%Q)) ->
  caret_f r F p g f -> (k <= run_len r)%nat ->
  nth k (logical_chars r) (sr_end r) = p -> (forall j, (j < k)%nat -> nth j (logical_chars r) (sr_end r) < p) -> f = lf r F k.
Proof.
  intros OK LF C Hk Ek Hj.
  assert (Egk : g = k).
  { destruct C as (_ & Lo & Hi & _). destruct (lt_eq_lt_dec g k) as [[H|H]|H]; [|exact H|].
    - specialize (Hi g (le_n _)). specialize (Hj g H). lia.
    - specialize (Lo k H). lia. }
  subst g. destruct C as (_ & _ & _ & Ef). destruct k as [|k]; [exact Ef|]. unfold char_after in Ef. rewrite Ek, Z.ltb_irrefl in Ef. exact Ef.
Qed.

Lemma reads_f_fin r f g a b : fin f a -> fin g b -> readsR r a b -> reads_f r f g.
Proof. intros A B. unfold readsR, reads_f. destruct (sr_rtl r); intros H; [apply (fin_le _ _ _ _ B A)|apply (fin_le _ _ _ _ A B)]; exact H. Qed.

Lemma t_caret d y pre r post ps : doc_runs d = pre ++ r :: post -> run_ok r -> qnondecreasing (run_xs r) ->
  positions ps (lo_pos (layout_of d y)) ->
  forall p, sr_start r <= p <= sr_end r -> exists f, offset_in_run (layout_of d y) ps (length pre) p = Ok f /\
  between_q (run_first_x r) f (sr_end_x r) /\
  (forall k, (k <= run_len r)%nat -> nth k (logical_chars r) (sr_end r) = p ->
     (forall j, (j < k)%nat -> nth j (logical_chars r) (sr_end r) < p) -> exactly f (nth k (logical_xs r) 0%Q)) /\
  (forall q, p <= q <= sr_end r -> exists z, offset_in_run (layout_of d y) ps (length pre) q = Ok z /\ reads_f r f z).
Proof.
  intros E OK M PS p Hp. destruct (in_run_f d y pre r post ps E OK PS p Hp) as (g & f & Of & C).
  set (F := run_f pre ps) in *. assert (LF : forall k, (k <= run_len r)%nat -> position (lf r F k) (nth k (logical_xs r) 0%Q)).
  { intros k Hk. exact (lf_is d y pre r post ps E PS k Hk). }
  pose proof (caret_value r F OK LF p g f C) as V.
  exists f. split; [exact Of|]. split; [|split].
  - eapply between_q_fin; [exact V|]. exact (cv_bounds r F LF M p g f C).
  - intros k Hk Ek Hj. rewrite (caret_f_boundary r F p g f k OK LF C Hk Ek Hj). apply exactly_fin. exact (X_fin r F LF k Hk).
  - intros q Hq. destruct (in_run_f d y pre r post ps E OK PS q ltac:(lia)) as (h & z & Oz & Cz). exists z. split; [exact Oz|].
    eapply reads_f_fin; [exact V|exact (caret_value r F OK LF q h z Cz)|]. exact (cv_mono r F LF M p q g h f z C Cz ltac:(lia)).
Qed.

(** Close to the exact caret. *)
Lemma logical_in r k : (k <= run_len r)%nat -> In (nth k (logical_xs r) 0%Q) (run_xs r).
Proof.
  intros H. assert (I : In (nth k (logical_xs r) 0%Q) (logical_xs r)) by (apply nth_In; rewrite length_logical_xs; lia).
  unfold logical_xs in *. destruct (sr_rtl r); [apply in_rev in I|]; exact I.
Qed.
Lemma Q2R_lerp a b c n p : c < n -> Q2R (lerp a b c n p) = (Q2R a + (Q2R b - Q2R a) * (IZR (p - c) / IZR (n - c)))%R.
Proof.
  intros H. unfold lerp. rewrite Q2R_plus, Q2R_mult, Q2R_minus, Q2R_div, !Q2R_inject; [reflexivity|].
  intros C. unfold Qeq in C. cbn in C. lia.
Qed.
Lemma t_near d y pre r post ps k : doc_runs d = pre ++ r :: post -> run_ok r -> positions ps (lo_pos (layout_of d y)) ->
  0 <= k <= 18 -> Forall (fun x => x <= inject_Z (2 ^ k))%Q (run_xs r) -> sr_end r - sr_start r <= 2 ^ 24 ->
  forall p, sr_start r <= p <= sr_end r -> exists x f, get_glyph_offset_in_run (layout_of d y) (length pre) p = Ok x /\
  offset_in_run (layout_of d y) ps (length pre) p = Ok f /\
  between_q (x - inject_Z 3 / inject_Z (2 ^ (25 - k))) f (x + inject_Z 3 / inject_Z (2 ^ (25 - k))).
Proof.
  intros E OK PS K W LEN p Hp. destruct (in_run_f d y pre r post ps E OK PS p Hp) as (g & f & Of & C).
  destruct (@run_caret d y pre r post E OK p Hp) as (h & x & Ox & Cx).
  set (F := run_f pre ps) in *. assert (LF : forall k, (k <= run_len r)%nat -> position (lf r F k) (nth k (logical_xs r) 0%Q)).
  { intros j Hk. exact (lf_is d y pre r post ps E PS j Hk). }
  pose proof (caret_value r F OK LF p g f C) as V. exists x, f. split; [exact Ox|]. split; [exact Of|].
  assert (EG : g = h).
  { destruct C as (_ & Lo & Hi & _). destruct Cx as (_ & Lo' & Hi' & _). destruct (lt_eq_lt_dec g h) as [[L|L]|L]; [|exact L|].
    - specialize (Lo' g L). specialize (Hi g (le_n _)). lia.
    - specialize (Lo h L). specialize (Hi' h (le_n _)). lia. }
  subst h. eapply between_q_fin; [exact V|].
  assert (N2 : ~ inject_Z (2 ^ (25 - k)) == 0).
  { intros Z. unfold Qeq in Z. cbn [inject_Z Qnum Qden] in Z. pose proof (Z.pow_pos_nonneg 2 (25 - k)). lia. }
  rewrite Q2R_minus, Q2R_plus, Q2R_div by exact N2. rewrite Q2R_pow by lia. rewrite Q2R_inject.
  assert (T : (3 / bpow radix2 (25 - k) = 3 * bpow radix2 (k - 25))%R) by (unfold Rdiv; rewrite <- bpow_opp; do 2 f_equal; lia).
  rewrite T. assert (G : (Rabs (cv r p g - Q2R x) <= 3 * bpow radix2 (k - 25))%R).
  { destruct Cx as (Hg & Lo & Hi & Ex). destruct g as [|j]; apply Qeq_eqR in Ex.
    - rewrite Ex. cbn [cv]. unfold X. rewrite Rminus_diag_eq by reflexivity. rewrite Rabs_R0. pose proof (bpow_ge_0 radix2 (k - 25)). lra.
    - specialize (Lo j ltac:(lia)). specialize (Hi (S j) ltac:(lia)). fold (char_after r j) in Hi.
      rewrite Q2R_lerp in Ex by lia. rewrite Ex. cbn [cv]. fold (X r j) (X r (S j)).
      assert (XB : forall j, (j <= run_len r)%nat -> (0 <= X r j <= bpow radix2 k)%R).
      { intros j' Hj. split.
        - destruct (X_is r F LF j' Hj) as (z & B & -> & _). pose proof (val_bound z B). lra.
        - rewrite Forall_forall in W. specialize (W _ (logical_in r j' Hj)). apply Qle_Rle in W. rewrite Q2R_pow in W by lia. exact W. }
      destruct (X_is r F LF j ltac:(lia)) as (za & BA & EA & _). destruct (X_is r F LF (S j) ltac:(lia)) as (zb & BB & EB & _).
      pose proof (@run_ok_chars r j OK ltac:(lia)) as RC. pose proof (chars_bound r F OK LF j ltac:(lia)) as CB.
      apply mid_err; [exact K|apply XB; lia|apply XB; lia| |lia|lia]. rewrite EA, EB. apply rr_diff; assumption. }
  unfold Rabs in G. destruct (Rcase_abs _); lra.
Qed.

(** * Where the caret is drawn *)

(** Finite and at most 2^30 in size. *)
Definition modest (x : f32) : Prop := exists a, fin x a /\ (Rabs a <= bpow radix2 30)%R.
Lemma p31 : (bpow radix2 30 + bpow radix2 30 = bpow radix2 31)%R.
Proof. change (bpow radix2 30) with 1073741824%R. change (bpow radix2 31) with 2147483648%R. lra. Qed.
Lemma le_100 e : e <= 100 -> (bpow radix2 e <= bpow radix2 100)%R.
Proof. apply bpow_le. Qed.
Lemma half_fin : fin (f32_div f32_1 (f32_of_Z 2)) (/ 2).
Proof.
  assert (H : fin (f32_div f32_1 (f32_of_Z 2)) (SF2R radix2 (f32_div f32_1 (f32_of_Z 2)))) by (repeat split; vm_compute; reflexivity).
  replace (SF2R radix2 (f32_div f32_1 (f32_of_Z 2))) with (/ 2)%R in H; [exact H|].
  change (f32_div f32_1 (f32_of_Z 2)) with (S754_finite false 8388608 (-24)). unfold SF2R, F2R. cbn [Fnum Fexp cond_Zopp].
  change (bpow radix2 (-24)) with (/ 16777216)%R. lra.
Qed.
Lemma zero_fin : fin f32_0 0.
Proof. repeat split. Qed.
Lemma line_start_fin w lw a : modest w -> modest lw -> exists s, fin (line_start w lw a) s /\ (Rabs s <= bpow radix2 31)%R.
Proof.
  intros (x & W & BW) (z & LW & BL).
  assert (D : (Rabs (x - z) <= bpow radix2 31)%R) by (unfold Rminus; eapply Rle_trans; [apply Rabs_triang|]; rewrite Rabs_Ropp; pose proof p31; lra).
  assert (RD : (Rabs (rr (x - z)) <= bpow radix2 31)%R) by (apply rr_bound; [lia|exact D]).
  assert (FD : fin (f32_sub w lw) (rr (x - z))) by (apply fin_sub; try assumption; eapply Rle_trans; [exact D|apply le_100; lia]).
  destruct a; cbn [line_start].
  - exists 0%R. split; [apply zero_fin|]. rewrite Rabs_R0. apply bpow_ge_0.
  - eauto.
  - assert (M2 : (Rabs (/ 2 * rr (x - z)) <= bpow radix2 31)%R).
    { rewrite Rabs_mult, (Rabs_pos_eq (/ 2)) by lra. pose proof (Rabs_pos (rr (x - z))). lra. }
    exists (rr (/ 2 * rr (x - z))). split; [|apply rr_bound; [lia|exact M2]].
    apply fin_mul; [apply half_fin|exact FD|]. eapply Rle_trans; [exact M2|apply le_100; lia].
Qed.
Lemma t_screen w lw a f g : modest w -> modest lw -> modest f -> modest g -> f32_le f g = true ->
  f32_le (screen_x w lw a f) (screen_x w lw a g) = true.
Proof.
  intros W LW (u & F & BF) (v & G & BG) L. apply (fin_le _ _ _ _ F G) in L. destruct (line_start_fin w lw a W LW) as (s & S & BS).
  assert (P : forall t, (Rabs t <= bpow radix2 30)%R -> (Rabs (s + t) <= bpow radix2 100)%R).
  { intros t T. eapply Rle_trans; [apply Rabs_triang|]. apply Rle_trans with (bpow radix2 32); [|apply le_100; lia].
    change (bpow radix2 30) with 1073741824%R in *. change (bpow radix2 31) with 2147483648%R in *. change (bpow radix2 32) with 4294967296%R. lra. }
  unfold screen_x. eapply (fin_le _ _ _ _ (fin_add _ _ _ _ S F (P u BF)) (fin_add _ _ _ _ S G (P v BG))). apply rr_le. lra.
Qed.
Lemma between_modest a x b : between_q a x b -> (- inject_Z (2 ^ 30) <= a)%Q -> (b <= inject_Z (2 ^ 30))%Q -> modest x.
Proof.
  intros (V & v & Ev & Lo & Hi) A B. destruct (value_R x v Ev) as [F E]. exists (Q2R v). split; [split; [exact V|split; [exact F|exact E]]|].
  apply Rabs_le. apply Qle_Rle in Lo, Hi, A, B. rewrite Q2R_opp, Q2R_pow in A by lia. rewrite Q2R_pow in B by lia. lra.
Qed.

Lemma fmt128 z : Z.abs z <= 2 ^ 24 -> rr (IZR z / 128) = (IZR z / 128)%R.
Proof. intros H. apply rr_id. unfold Rdiv. change (/ 128)%R with (bpow radix2 (-7)). apply format_fixed; lia. Qed.
Lemma small_100 x : (Rabs x <= 262144)%R -> (Rabs x <= bpow radix2 100)%R.
Proof. intros H. eapply Rle_trans; [exact H|]. change 262144%R with (bpow radix2 18). apply le_100. lia. Qed.
Lemma z64 z : Z.abs z <= 2 ^ 24 -> (Rabs (IZR z / 64) <= 262144)%R.
Proof. intros H. apply IZR_bound in H. change (IZR (2 ^ 24)) with 16777216%R in H. unfold Rdiv. rewrite Rabs_mult, (Rabs_pos_eq (/ 64)) by lra. lra. Qed.
Lemma t_alignment zw zl : 0 <= zl <= zw -> zw <= 2 ^ 24 ->
  exactly (line_start (fixed_f32 zw) (fixed_f32 zl) XLeft) 0%Q /\
  exactly (line_start (fixed_f32 zw) (fixed_f32 zl) XRight) ((zw # 64) - (zl # 64))%Q /\
  exactly (line_start (fixed_f32 zw) (fixed_f32 zl) XCenter) ((1 # 2) * ((zw # 64) - (zl # 64)))%Q /\
  exactly (screen_x (fixed_f32 zw) (fixed_f32 zl) XLeft (fixed_f32 zl)) (zl # 64)%Q /\
  exactly (screen_x (fixed_f32 zw) (fixed_f32 zl) XRight (fixed_f32 zl)) (zw # 64)%Q.
Proof.
  intros L W. pose proof (fixed_exact zw ltac:(lia)) as FW. pose proof (fixed_exact zl ltac:(lia)) as FL.
  assert (D : (IZR zw / 64 - IZR zl / 64)%R = (IZR (zw - zl) / 64)%R) by (rewrite minus_IZR; field).
  assert (FS : fin (f32_sub (fixed_f32 zw) (fixed_f32 zl)) (IZR (zw - zl) / 64)).
  { rewrite <- (fmt64 (zw - zl)) by lia. rewrite <- D. apply fin_sub; try assumption. apply small_100. rewrite D. apply z64. lia. }
  rewrite !exactly_fin. rewrite !Q2R_mult, !Q2R_minus, !Q2R_64, D. cbn [line_start screen_x].
  assert (H : Q2R (1 # 2) = (/ 2)%R) by (unfold Q2R; cbn; lra). rewrite H.
  split; [replace (Q2R 0) with 0%R by (unfold Q2R; cbn; lra); apply zero_fin|]. split; [exact FS|]. split; [|split].
  - assert (E2 : (/ 2 * (IZR (zw - zl) / 64) = IZR (zw - zl) / 128)%R) by field. rewrite E2, <- (fmt128 (zw - zl)) by lia. rewrite <- E2.
    apply fin_mul; [apply half_fin|exact FS|]. apply small_100. pose proof (z64 (zw - zl) ltac:(lia)) as B. rewrite Rabs_mult, (Rabs_pos_eq (/ 2)) by lra. pose proof (Rabs_pos (IZR (zw - zl) / 64)). lra.
  - unfold screen_x. cbn [line_start]. rewrite <- (fmt64 zl) by lia. replace (IZR zl / 64)%R with (0 + IZR zl / 64)%R at 1 by ring.
    apply fin_add; [apply zero_fin|exact FL|]. rewrite Rplus_0_l. apply small_100, z64. lia.
  - unfold screen_x. cbn [line_start]. rewrite <- (fmt64 zw) by lia. replace (IZR zw / 64)%R with (IZR (zw - zl) / 64 + IZR zl / 64)%R by (rewrite minus_IZR; field).
    apply fin_add; [exact FS|exact FL|]. replace (IZR (zw - zl) / 64 + IZR zl / 64)%R with (IZR zw / 64)%R by (rewrite minus_IZR; field). apply small_100, z64. lia.
Qed.

(** * Line heights *)

Lemma stays : rr (bpow radix2 60 + bpow radix2 30) = bpow radix2 60.
Proof.
  change (bpow radix2 60) with (IZR (2 ^ 60)) at 1. change (bpow radix2 30) with (IZR (2 ^ 30)). rewrite <- plus_IZR.
  pose proof (fin_of_Z (2 ^ 60 + 2 ^ 30) ltac:(lia)) as (_ & _ & E). rewrite <- E.
  change (f32_of_Z (2 ^ 60 + 2 ^ 30)) with (S754_finite false 8388608 37). unfold SF2R, F2R. cbn [Fnum Fexp cond_Zopp].
  change (IZR (Z.pos 8388608)) with (bpow radix2 23). rewrite <- bpow_plus. reflexivity.
Qed.
(** A height: finite, from 0 to 2^30. *)
Definition height (h : f32) : Prop := exists a, fin h a /\ (0 <= a <= bpow radix2 30)%R.
Lemma descent_step t h a b : fin t a -> fin h b -> (0 <= a <= bpow radix2 60)%R -> (0 <= b <= bpow radix2 30)%R ->
  fin (f32_add t h) (rr (a + b)) /\ (a <= rr (a + b) <= bpow radix2 60)%R.
Proof.
  intros T H A B. split.
  - apply fin_add; try assumption. rewrite Rabs_pos_eq by lra. apply Rle_trans with (bpow radix2 61); [|apply le_100; lia].
    assert (bpow radix2 61 = 2 * bpow radix2 60)%R by (change 61 with (1 + 60); rewrite bpow_plus; reflexivity).
    assert (bpow radix2 30 <= bpow radix2 60)%R by (apply bpow_le; lia). lra.
  - split; [rewrite <- (fin_rr _ _ T) at 1; apply rr_le; lra|]. rewrite <- stays. apply rr_le. lra.
Qed.
Lemma descents_fin : forall hs t a, fin t a -> (0 <= a <= bpow radix2 60)%R -> Forall height hs ->
  nondecreasing_f (t :: descents (Some t) hs) /\ Forall (fun t => exists a, fin t a /\ (0 <= a <= bpow radix2 60)%R) (descents (Some t) hs).
Proof.
  induction hs as [|h hs IH]; intros t a T A H; [split; [exact Logic.I|constructor]|].
  inversion H as [|? ? (b & HB & BB) H']; subst. destruct (descent_step t h a b T HB A BB) as [S [R1 R2]].
  assert (R0 : (0 <= rr (a + b) <= bpow radix2 60)%R) by lra. destruct (IH _ _ S R0 H') as [N F]. cbn [descents]. split.
  - split; [apply (fin_le _ _ _ _ T S); lra|exact N].
  - constructor; [eauto|exact F].
Qed.
Lemma descents_all hs : Forall height hs ->
  nondecreasing_f (descents None hs) /\ Forall (fun t => exists a, fin t a /\ (0 <= a <= bpow radix2 60)%R) (descents None hs).
Proof.
  destruct hs as [|h hs]; intros H; [split; [exact Logic.I|constructor]|]. inversion H as [|? ? (b & HB & BB) H']; subst. cbn [descents].
  assert (B6 : (0 <= b <= bpow radix2 60)%R) by (assert (bpow radix2 30 <= bpow radix2 60)%R by (apply bpow_le; lia); lra).
  destruct (descents_fin hs h b HB B6 H') as [N F]. split; [exact N|]. constructor; [eauto|exact F].
Qed.
Lemma descents_length t hs : length (descents t hs) = length hs.
Proof. revert t. induction hs as [|h hs IH]; intros t; [reflexivity|]. cbn. rewrite IH. reflexivity. Qed.
Lemma nondecreasing_f_nth l : nondecreasing_f l -> Forall (fun t => exists a, fin t a) l -> forall i j a b, (i <= j)%nat ->
  nth_error l i = Some a -> nth_error l j = Some b -> f32_le a b = true.
Proof.
  induction l as [|x l IH]; intros N F i j a b L A B; [destruct i; discriminate|]. inversion F as [|? ? (xa & X) F']; subst.
  assert (N' : nondecreasing_f l) by (destruct l; [exact Logic.I|apply N]).
  destruct i as [|i], j as [|j]; cbn in A, B; try lia.
  - inversion A; inversion B; subst. apply (fin_le _ _ _ _ X X). lra.
  - inversion A; subst x. destruct l as [|c l]; [destruct j; discriminate|]. destruct N as [N1 _].
    assert (C : f32_le c b = true) by (apply (IH N' F' 0%nat j c b); [lia|reflexivity|exact B]).
    inversion F' as [|? ? (ca & CA) F'']; subst. assert (FB : exists v, fin b v).
    { rewrite Forall_forall in F'. apply F'. eapply nth_error_In; exact B. }
    destruct FB as (v & V). apply (fin_le _ _ _ _ X CA) in N1. apply (fin_le _ _ _ _ CA V) in C. apply (fin_le _ _ _ _ X V). lra.
  - apply (IH N' F' i j); [lia|exact A|exact B].
Qed.
Lemma t_closest hs q v : Forall height hs -> fin q v ->
  exists r, closest_line (descents None hs) q = Ok r /\ (r <= length hs)%nat /\
    (forall i t, (i < r)%nat -> nth_error (descents None hs) i = Some t -> f32_lt t q = true) /\
    (forall i t, (r <= i)%nat -> nth_error (descents None hs) i = Some t -> f32_le q t = true).
Proof.
  intros H Q. destruct (descents_all hs H) as [N F]. set (ts := descents None hs) in *.
  assert (F' : Forall (fun t => exists a, fin t a) ts) by (eapply Forall_impl; [|exact F]; intros t (a & A & _); eauto).
  assert (LEN : length ts = length hs) by apply descents_length.
  destruct (@binary_search_partition 0 (length ts) (fun i => f32_lt (nth i ts f32_0) q)) with
    (cond := fun i => do t <- vget ts i; Ok (f32_lt t q)) as (g & Eg & Rg & A & B).
  - intros a b Ha Hab Hb Hlt.
    assert (NA : nth_error ts a = Some (nth a ts f32_0)) by (apply nth_error_nth'; lia).
    assert (NB : nth_error ts b = Some (nth b ts f32_0)) by (apply nth_error_nth'; lia).
    pose proof (nondecreasing_f_nth ts N F' a b _ _ ltac:(lia) NA NB) as L. rewrite Forall_forall in F'.
    destruct (F' _ (nth_error_In _ _ NA)) as (x & X1). destruct (F' _ (nth_error_In _ _ NB)) as (z & Z1).
    apply (fin_le _ _ _ _ X1 Z1) in L. apply (fin_lt _ _ _ _ Z1 Q) in Hlt. apply (fin_lt _ _ _ _ X1 Q). lra.
  - intros k Hk. rewrite (vget_nth ts f32_0) by lia. reflexivity.
  - exists g. unfold closest_line. rewrite Eg. split; [reflexivity|]. split; [lia|]. split.
    + intros i t Hi Ht. specialize (A i ltac:(lia)). rewrite (nth_error_nth _ _ f32_0 Ht) in A. exact A.
    + intros i t Hi Ht. assert (L : (i < length ts)%nat) by (apply nth_error_Some; congruence).
      specialize (B i ltac:(lia)). rewrite (nth_error_nth _ _ f32_0 Ht) in B. rewrite Forall_forall in F'.
      destruct (F' _ (nth_error_In _ _ Ht)) as (x & X1). apply (fin_le _ _ _ _ Q X1).
      destruct (Rle_dec v x) as [C|C]; [exact C|exfalso]. assert (f32_lt t q = true) by (apply (fin_lt _ _ _ _ X1 Q); lra). congruence || (rewrite B in *; congruence).
Qed.

(** Heights that are 26.6 fixed-point numbers add up exactly. *)
Definition sum (zs : list Z) : Z := fold_right Z.add 0 zs.
Lemma add64 t h a b : fin t (IZR a / 64) -> fin h (IZR b / 64) -> Z.abs (a + b) <= 2 ^ 24 -> fin (f32_add t h) (IZR (a + b) / 64).
Proof.
  intros T H B. assert (D : (IZR a / 64 + IZR b / 64)%R = (IZR (a + b) / 64)%R) by (rewrite plus_IZR; field).
  rewrite <- (fmt64 (a + b)) by exact B. rewrite <- D. apply fin_add; try assumption. rewrite D. apply small_100, z64. exact B.
Qed.
Lemma sub64 t h a b : fin t (IZR a / 64) -> fin h (IZR b / 64) -> Z.abs (a - b) <= 2 ^ 24 -> fin (f32_sub t h) (IZR (a - b) / 64).
Proof.
  intros T H B. assert (D : (IZR a / 64 - IZR b / 64)%R = (IZR (a - b) / 64)%R) by (rewrite minus_IZR; field).
  rewrite <- (fmt64 (a - b)) by exact B. rewrite <- D. apply fin_sub; try assumption. rewrite D. apply small_100, z64. exact B.
Qed.
Definition height64 (h : f32) (z : Z) : Prop := 0 <= z /\ exactly h (z # 64).
Lemma sum_nonneg hs zs : Forall2 height64 hs zs -> 0 <= sum zs.
Proof. induction 1 as [|h z hs zs [Z0 _] _ IH]; cbn; [lia|]. fold (sum zs). lia. Qed.
Lemma sum_firstn hs zs k : Forall2 height64 hs zs -> 0 <= sum (firstn k zs) <= sum zs.
Proof.
  intros H. revert k. induction H as [|h z hs zs [Z0 _] H IH]; intros [|k]; cbn; try lia; fold (sum zs).
  - pose proof (sum_nonneg _ _ H). lia.
  - fold (sum (firstn k zs)). specialize (IH k). lia.
Qed.
Lemma descents_exact : forall hs zs, Forall2 height64 hs zs -> forall t a, fin t (IZR a / 64) -> 0 <= a -> a + sum zs <= 2 ^ 24 ->
  forall i z, nth_error (descents (Some t) hs) i = Some z -> fin z (IZR (a + sum (firstn (S i) zs)) / 64).
Proof.
  induction 1 as [|h z hs zs [Z0 HZ] H IH]; intros t a T A SM i x Nx; [destruct i; discriminate|].
  cbn [sum fold_right] in SM. fold (sum zs) in SM. pose proof (sum_nonneg _ _ H) as SN.
  apply exactly_fin in HZ. rewrite Q2R_64 in HZ. pose proof (add64 _ _ _ _ T HZ ltac:(lia)) as AD.
  cbn [firstn]. change (sum (z :: firstn i zs)) with (z + sum (firstn i zs)). cbn [descents] in Nx. destruct i as [|i].
  - cbn in Nx. inversion Nx; subst x. cbn [firstn sum fold_right]. rewrite Z.add_0_r. exact AD.
  - cbn in Nx. replace (a + (z + sum (firstn (S i) zs))) with (a + z + sum (firstn (S i) zs)) by ring. apply (IH _ (a + z) AD); [lia|lia|exact Nx].
Qed.
Lemma descents_exact_all hs zs i t : Forall2 height64 hs zs -> sum zs <= 2 ^ 24 -> nth_error (descents None hs) i = Some t ->
  fin t (IZR (sum (firstn (S i) zs)) / 64).
Proof.
  intros H SM N. destruct H as [|h z hs zs [Z0 HZ] H]; [destruct i; discriminate|]. cbn [sum fold_right] in SM. fold (sum zs) in SM. pose proof (sum_nonneg _ _ H) as SN.
  apply exactly_fin in HZ. rewrite Q2R_64 in HZ. cbn [firstn]. change (sum (z :: firstn i zs)) with (z + sum (firstn i zs)). cbn [descents] in N. destruct i as [|i]; cbn in N.
  - inversion N; subst t. cbn [firstn sum fold_right]. rewrite Z.add_0_r. exact HZ.
  - apply (descents_exact hs zs H h z HZ Z0); [lia|exact N].
Qed.
Lemma Forall2_len {A B} (R : A -> B -> Prop) l m : Forall2 R l m -> length l = length m.
Proof. induction 1; cbn; congruence. Qed.
Lemma sum_snoc zs i z : nth_error zs i = Some z -> sum (firstn (S i) zs) = sum (firstn i zs) + z.
Proof.
  revert i. induction zs as [|a zs IH]; intros [|i] H; try discriminate; cbn in H.
  - inversion H; subst. cbn. lia.
  - change (firstn (S (S i)) (a :: zs)) with (a :: firstn (S i) zs). change (firstn (S i) (a :: zs)) with (a :: firstn i zs).
    change (sum (a :: firstn (S i) zs)) with (a + sum (firstn (S i) zs)). change (sum (a :: firstn i zs)) with (a + sum (firstn i zs)). rewrite (IH i H). ring.
Qed.
Lemma descent_above hs zs i : Forall2 height64 hs zs -> sum zs <= 2 ^ 24 -> (i < length zs)%nat ->
  exists a, match i with O => Ok f32_0 | S j => vget (descents None hs) j end = Ok a /\ fin a (IZR (sum (firstn i zs)) / 64).
Proof.
  intros H S L. destruct i as [|j].
  - exists f32_0. split; [reflexivity|]. cbn [firstn sum fold_right]. replace (0 / 64)%R with 0%R by field. apply zero_fin.
  - assert (Lj : (j < length (descents None hs))%nat) by (rewrite descents_length, (Forall2_len _ _ _ H); lia).
    destruct (nth_error (descents None hs) j) as [t|] eqn:N; [|apply nth_error_None in N; lia].
    exists t. split; [apply vget_ok; exact N|]. exact (descents_exact_all hs zs j t H S N).
Qed.
Lemma t_lines hs zs ys i z : Forall2 height64 hs zs -> 0 <= ys -> ys + sum zs <= 2 ^ 24 -> nth_error zs i = Some z ->
  exists top tall, line_top (descents None hs) (fixed_f32 ys) i = Ok top /\ exactly top ((ys + sum (firstn i zs)) # 64) /\
    line_tall (descents None hs) i = Ok tall /\ exactly tall (z # 64).
Proof.
  intros H Y S N. assert (L : (i < length zs)%nat) by (apply nth_error_Some; congruence).
  assert (S' : sum zs <= 2 ^ 24) by lia. destruct (descent_above hs zs i H S' L) as (a & Ea & Fa).
  pose proof (sum_firstn hs zs i H) as B1. pose proof (sum_firstn hs zs (Datatypes.S i) H) as B2. pose proof (sum_snoc zs i z N) as SS.
  assert (Li : (i < length (descents None hs))%nat) by (rewrite descents_length, (Forall2_len _ _ _ H); lia).
  destruct (nth_error (descents None hs) i) as [t|] eqn:Nt; [|apply nth_error_None in Nt; lia].
  pose proof (descents_exact_all hs zs i t H S' Nt) as Ft. unfold line_top, line_tall. rewrite Ea, (proj2 (vget_ok _ _ _) Nt). cbn [obind].
  eexists _, _. split; [reflexivity|]. split; [|split; [reflexivity|]].
  - apply exactly_fin. rewrite Q2R_64. apply add64; [apply fixed_exact; lia|exact Fa|lia].
  - apply exactly_fin. rewrite Q2R_64. replace z with (sum (firstn (Datatypes.S i) zs) - sum (firstn i zs)) by lia. apply sub64; [exact Ft|exact Fa|lia].
Qed.

(** * Widths given by the caller *)

Lemma times64 x a : fin x a -> rr (a * 64) = (a * 64)%R.
Proof.
  intros F. apply rr_id. pose proof (fin_format _ _ F) as G. change fexp32 with (FLT_exp (-149) 24) in G. apply FLT_format_generic in G; [|reflexivity].
  destruct G as [[m e] E1 E2 E3]. rewrite E1. cbn [Fnum Fexp] in *. unfold F2R. cbn [Fnum Fexp].
  change 64%R with (bpow radix2 6). rewrite Rmult_assoc, <- bpow_plus. apply format_fixed; [change (radix2 : Z) with 2 in E2; lia|lia].
Qed.
Lemma trunc_floor y w : f32_value y = Some w -> (0 <= w)%Q -> f32_trunc y = Some (Qfloor w).
Proof.
  destruct y as [s|s| |s m e]; cbn [f32_value f32_trunc]; intros E P; inversion E; subst w; clear E; [reflexivity|].
  destruct s.
  - exfalso. destruct (Z.leb_spec 0 e) as [L|L].
    + unfold Qle in P. cbn [Qmult inject_Z Qnum Qden] in P. pose proof (Z.pow_pos_nonneg 2 e). nia.
    + destruct (2 ^ (- e)) eqn:E2; try (pose proof (Z.pow_pos_nonneg 2 (- e)); lia). unfold Qle, Qinv, Qmult, inject_Z in P. cbn in P. lia.
  - destruct (Z.leb_spec 0 e) as [L|L].
    + f_equal. rewrite <- inject_Z_mult. symmetry. apply Qfloor_Z.
    + destruct (2 ^ (- e)) eqn:E2; try (pose proof (Z.pow_pos_nonneg 2 (- e)); lia). f_equal.
      unfold Qfloor, Qinv, Qmult, inject_Z. cbn -[Z.mul Z.div]. rewrite Z.mul_1_r. reflexivity.
Qed.
Lemma t_width x v : is_f32 x -> f32_value x = Some v -> (0 <= v)%Q -> (v < inject_Z (2 ^ 25))%Q -> to_fixed x = Ok (Qfloor (v * inject_Z 64)).
Proof.
  intros V E P B. assert (F : fin x (Q2R v)) by (apply exactly_fin; split; [exact V|]; exists v; split; [exact E|reflexivity]).
  assert (F64 : fin (f32_of_Z 64) 64) by (rewrite <- (rr_int 64) by lia; apply fin_of_Z; lia).
  apply Qle_Rle in P. replace (Q2R 0) with 0%R in P by (unfold Q2R; cbn; lra). apply Qlt_Rlt in B. rewrite Q2R_pow in B by lia.
  change (bpow radix2 25) with 33554432%R in B.
  assert (M : fin (f32_mul x (f32_of_Z 64)) (Q2R v * 64)).
  { rewrite <- (times64 x _ F). apply fin_mul; try assumption. rewrite Rabs_pos_eq by lra. apply Rle_trans with (bpow radix2 31); [change (bpow radix2 31) with 2147483648%R; lra|apply le_100; lia]. }
  replace (Q2R v * 64)%R with (Q2R (v * inject_Z 64)) in M by (rewrite Q2R_mult, Q2R_inject; reflexivity).
  destruct (fin_value _ _ M) as (w & Ew & Rw). apply eqR_Qeq in Rw. unfold to_fixed.
  assert (W0 : (0 <= w)%Q). { rewrite Rw. apply Rle_Qle. rewrite Q2R_mult, Q2R_inject. replace (Q2R 0) with 0%R by (unfold Q2R; cbn; lra). lra. }
  rewrite (trunc_floor _ _ Ew W0). rewrite (Qfloor_comp _ _ Rw). set (q := (v * inject_Z 64)%Q) in *.
  assert (L : 0 <= Qfloor q). { change 0 with (Qfloor 0). apply Qfloor_resp_le. rewrite <- Rw. exact W0. }
  assert (U : Qfloor q < 2 ^ 31).
  { rewrite Zlt_Qlt. eapply Qle_lt_trans; [apply Qfloor_le|]. apply Rlt_Qlt. unfold q. rewrite Q2R_mult, !Q2R_inject. change (IZR (2 ^ 31)) with 2147483648%R. lra. }
  replace (- 2 ^ 31 <=? Qfloor q) with true by lia. replace (Qfloor q <? 2 ^ 31) with true by lia. reflexivity.
Qed.
