From Coq Require Import Lia ZArith.
From Verif Require Import Base FloatModel FloatProofs FontSizeModel.
Open Scope Z_scope.

(** The modifier times [2^24]. *)
Definition mant (caps sub : bool) : Z := match caps, sub with false, false => 16777216 | false, true => 11744051 | true, false => 13421773 | true, true => 9395241 end.
Definition unit : Z := 2 ^ 176.
Lemma unit_pos : 0 < unit. Proof. reflexivity. Qed.
Lemma scale_unit : 2 ^ scale = 2 ^ 24 * unit. Proof. reflexivity. Qed.
Lemma modifier_val caps sub : is_val (scale_modifier caps sub) (mant caps sub * unit).
Proof.
  assert (E : scale_modifier caps sub = S754_finite false (match caps, sub with false, false => 8388608 | false, true => 11744051 | true, false => 13421773 | true, true => 9395241 end) (match caps, sub with false, false => -23 | _, _ => -24 end)) by (destruct caps, sub; vm_compute; reflexivity).
  unfold is_val. eexists. eexists. split; [exact E|]. destruct caps, sub; (split; [reflexivity|]; split; [discriminate|vm_compute; reflexivity]).
Qed.
Lemma mant_bounds caps sub : 2 ^ 23 <= mant caps sub <= 2 ^ 24.
Proof. destruct caps, sub; cbn; lia. Qed.

(** The scaled size before truncation. *)
Definition grown (n : Z) (caps sub : bool) : Z := rn (rn (n * 2 ^ scale) / 2 ^ scale * mant caps sub * unit).
Lemma rn_int n : 0 < n -> exists v, rn (n * 2 ^ scale) = v * 2 ^ scale /\ 0 < v.
Proof.
  intros P. rewrite rn_scale by (unfold scale; lia). exists (rnd (kx n) n * 2 ^ kx n). split.
  - rewrite Z.pow_add_r by (try apply kx_pos; unfold scale; lia). lia.
  - pose proof (rnd_bounds (kx n) n (kx_pos n) ltac:(lia)) as [B _]. pose proof (pow_pos _ (kx_pos n)). destruct (quot_bounds n P) as [[Q1 Q2]|[_ Q2]]; [|nia].
    rewrite Q1 in *. rewrite Z.pow_0_r, Z.div_1_r in *. lia.
Qed.
Lemma grown_val n caps sub : 0 < n < 2 ^ 32 -> is_val (f32_mul (f32_of_Z n) (scale_modifier caps sub)) (grown n caps sub).
Proof.
  intros N. destruct (rn_int n ltac:(lia)) as (v & RV & VP). assert (VB : v <= 2 ^ 32).
  { assert (M : rn (n * 2 ^ scale) <= rn (2 ^ 32 * 2 ^ scale)) by (apply rn_mono; pose proof (pow_pos scale ltac:(unfold scale; lia)); nia). rewrite (rn_exact (2 ^ 32 * 2 ^ scale) (scale + 32) 1) in M by (unfold scale; try reflexivity; lia).
    rewrite RV in M. pose proof (pow_pos scale ltac:(unfold scale; lia)). nia. }
  pose proof (mul_val _ _ _ _ (of_Z_val n ltac:(lia)) (modifier_val caps sub)) as MV. pose proof unit_pos as UP. pose proof (mant_bounds caps sub) as MB. unfold grown. rewrite RV in *.
  rewrite Z.div_mul by (rewrite scale_unit; lia). replace (v * mant caps sub * unit) with (v * 2 ^ scale * (mant caps sub * unit) / 2 ^ scale) by (rewrite <- (Z.mul_assoc v), (Z.mul_comm (2 ^ scale)), !Z.mul_assoc; rewrite Z.div_mul by (rewrite scale_unit; lia); reflexivity).
  apply MV.
  - rewrite Z.pow_add_r by (unfold scale; lia). rewrite scale_unit. change (2 ^ 64) with (2 ^ 32 * 2 ^ 32). nia.
  - replace (2 ^ (scale - 8)) with (2 ^ 16 * unit) by reflexivity. rewrite scale_unit. nia.
Qed.
Lemma grown_small n caps sub : 0 < n <= 2 ^ 24 -> grown n caps sub = rn (n * mant caps sub * unit).
Proof.
  intros N. unfold grown. rewrite (rn_exact (n * 2 ^ scale) scale n) by (unfold scale; try reflexivity; lia). rewrite Z.div_mul by (rewrite scale_unit; pose proof unit_pos; lia). reflexivity.
Qed.
Lemma effective_val n caps sub : 0 < n < 2 ^ 32 -> effective_size n caps sub = (let v := grown n caps sub / 2 ^ scale in if v <? 2 ^ 32 then Ok v else UB) /\ 0 <= grown n caps sub / 2 ^ scale.
Proof.
  intros N. pose proof (grown_val n caps sub N) as G. unfold effective_size, f32_to_u32. rewrite (trunc_val _ _ G). assert (P : 0 <= grown n caps sub / 2 ^ scale).
  { apply Z.div_pos; [|rewrite scale_unit; pose proof unit_pos; lia]. destruct G as (m & e & _ & _ & _ & ->). pose proof (Z.pow_nonneg 2 (e + scale)). lia. }
  split; [|exact P]. cbv zeta. destruct (Z.leb_spec 0 (grown n caps sub / 2 ^ scale)); [|lia]. reflexivity.
Qed.
Lemma effective_0 caps sub : effective_size 0 caps sub = Ok 0.
Proof. destruct caps, sub; reflexivity. Qed.

Lemma grown_mono n n' caps sub : 0 < n <= n' -> grown n caps sub <= grown n' caps sub.
Proof.
  intros N. unfold grown. pose proof unit_pos. pose proof (mant_bounds caps sub). pose proof (pow_pos scale ltac:(unfold scale; lia)) as PS. apply rn_mono.
  assert (A : rn (n * 2 ^ scale) <= rn (n' * 2 ^ scale)) by (apply rn_mono; nia). destruct (rn_int n ltac:(lia)) as (v & E1 & V1), (rn_int n' ltac:(lia)) as (v' & E2 & V2). rewrite E1, E2 in *. rewrite !Z.div_mul by lia.
  assert (v <= v') by nia. split; [nia|]. apply Z.mul_le_mono_nonneg_r; [lia|]. nia.
Qed.
Lemma grown_le n caps sub : 0 < n <= 2 ^ 24 -> grown n caps sub <= n * 2 ^ scale.
Proof.
  intros N. rewrite grown_small by exact N. rewrite <- (rn_exact (n * 2 ^ scale) scale n) by (unfold scale; try reflexivity; lia). apply rn_mono. pose proof unit_pos. pose proof (mant_bounds caps sub). rewrite scale_unit. split; [nia|].
  rewrite Z.mul_assoc. apply Z.mul_le_mono_nonneg_r; [lia|]. nia.
Qed.
Lemma grown_le_big n caps sub : 0 < n -> caps || sub = true -> grown n caps sub <= n * 2 ^ scale.
Proof.
  intros N MOD. destruct (Z.le_gt_cases n (2 ^ 24)) as [L|G]; [apply grown_le; lia|]. unfold grown. destruct (rn_int n N) as (v & E & V). rewrite E. rewrite Z.div_mul by (rewrite scale_unit; pose proof unit_pos; lia).
  pose proof unit_pos as UP. pose proof (rn_err (n * 2 ^ scale)) as R1. rewrite E in R1. assert (MB : 2 ^ 23 <= mant caps sub <= 13421773) by (destruct caps, sub; try discriminate; cbn; lia).
  pose proof (rn_err (v * mant caps sub * unit) ltac:(nia)) as [R2 _]. rewrite scale_unit in *. set (M := mant caps sub) in *.
  assert (VN : 2 ^ 24 * (v - n) <= n) by nia.
  assert (R3 : 2 ^ 24 * rn (v * M * unit) <= (2 ^ 24 + 1) * (v * M * unit)) by lia.
  assert (K : (2 ^ 24 + 1) * (v * M) <= 2 ^ 24 * (n * 2 ^ 24)).
  { assert (v * M <= v * 13421773) by nia. assert (2 ^ 24 * v <= (2 ^ 24 + 1) * n) by lia. nia. }
  assert ((2 ^ 24 + 1) * (v * M * unit) <= 2 ^ 24 * (n * (2 ^ 24 * unit))) by nia. lia.
Qed.

(** What the size should be: the percentage of the nominal size, rounded down. *)
Lemma exact_floor n (caps sub : bool) p : (p = (if caps then 8 else 10) * (if sub then 7 else 10)) -> 0 < n < 2 ^ 20 -> grown n caps sub / 2 ^ scale = n * p / 100.
Proof.
  intros EP N. rewrite grown_small by lia. pose proof unit_pos as UP. set (M := mant caps sub). pose proof (mant_bounds caps sub) as MB. fold M in MB.
  pose proof (rn_err (n * M * unit) ltac:(nia)) as [R1 R2]. set (R := rn (n * M * unit)) in *.
  pose proof (Z.div_mod (n * p) 100 ltac:(lia)) as D. pose proof (Z.mod_pos_bound (n * p) 100 ltac:(lia)) as DB. set (q := n * p / 100) in *. set (r := (n * p) mod 100) in *.
  assert (GO : q * 2 ^ scale <= R < (q + 1) * 2 ^ scale -> R / 2 ^ scale = q).
  { intros B. symmetry. apply Z.div_unique with (R - q * 2 ^ scale); [left; lia|lia]. }
  apply GO. clear GO. rewrite scale_unit. assert (Q0 : 0 <= q) by (apply Z.div_pos; [destruct caps, sub; subst p; lia|lia]).
  assert (QN : q <= n) by (destruct caps, sub; subst p; lia).
  destruct caps, sub; cbv [mant] in M; subst p; cbv beta iota in *.
  - (* 56 *) assert (F : r = 0 \/ 4 <= r <= 96) by lia. split.
    + assert (L : rn (q * 2 ^ scale) <= R). { apply rn_mono. rewrite scale_unit. split; [nia|]. assert (q * 2 ^ 24 <= n * M) by (subst M; lia). nia. }
      destruct (Z.eq_dec q 0) as [->|NQ]; [assert (0 <= R) by (change (rn 0 <= R); apply rn_mono; nia); lia|]. rewrite (rn_exact (q * 2 ^ scale) scale q) in L by (unfold scale; try reflexivity; lia). rewrite scale_unit in L. exact L.
    + assert ((2 ^ 24 + 1) * (n * M) < 2 ^ 24 * ((q + 1) * 2 ^ 24)) by (subst M; lia). nia.
  - (* 80 *) assert (F : r = 0 \/ 20 <= r <= 80) by lia. split.
    + assert (L : rn (q * 2 ^ scale) <= R). { apply rn_mono. rewrite scale_unit. split; [nia|]. assert (q * 2 ^ 24 <= n * M) by (subst M; lia). nia. }
      destruct (Z.eq_dec q 0) as [->|NQ]; [assert (0 <= R) by (change (rn 0 <= R); apply rn_mono; nia); lia|]. rewrite (rn_exact (q * 2 ^ scale) scale q) in L by (unfold scale; try reflexivity; lia). rewrite scale_unit in L. exact L.
    + assert ((2 ^ 24 + 1) * (n * M) < 2 ^ 24 * ((q + 1) * 2 ^ 24)) by (subst M; lia). nia.
  - (* 70 *) assert (F : r = 0 \/ 10 <= r <= 90) by lia. split.
    + destruct F as [F|F].
      * set (X := n * M * unit) in *. assert (XP : 0 < X) by (subst X M; nia). destruct (quot_bounds X XP) as [[Q1 Q2]|[Q1 Q2]]; [exfalso; subst X M; assert (2 ^ 24 < unit) by reflexivity; nia|].
        assert (K200 : kx X <= scale). { assert (LX : Z.log2 X < 24 + 196) by (apply Z.log2_lt_pow2; [exact XP|]; rewrite (Z.pow_add_r 2 24) by lia; replace (2 ^ 196) with (2 ^ 20 * unit) by reflexivity; subst X M; nia). unfold kx, scale. lia. }
        assert (EV : q * 2 ^ scale = q * 2 ^ (scale - kx X) * 2 ^ kx X) by (rewrite <- Z.mul_assoc, <- Z.pow_add_r by lia; f_equal; f_equal; lia).
        assert (UB2 : X < 2 ^ 24 * 2 ^ kx X). { pose proof (pow_pos _ Q1). pose proof (Z.div_mod X (2 ^ kx X) ltac:(lia)). pose proof (Z.mod_pos_bound X (2 ^ kx X) ltac:(lia)). nia. }
        assert (NR : R = q * 2 ^ (scale - kx X) * 2 ^ kx X).
        { unfold R. apply rn_near; [lia| |].
          - rewrite <- EV, scale_unit. assert (2 * 2 ^ 24 * (q * 2 ^ 24 - n * M) <= n * M) by (subst M; lia). assert (2 * 2 ^ 24 * (q * (2 ^ 24 * unit) - X) <= X) by (subst X; nia). lia.
          - rewrite <- EV, scale_unit. pose proof (pow_pos _ Q1). assert (n * M <= q * 2 ^ 24) by (subst M; lia). assert (X <= q * (2 ^ 24 * unit)) by (subst X; nia). lia. }
        rewrite <- scale_unit, EV, NR. lia.
      * assert (2 ^ 24 * (q * 2 ^ 24) <= (2 ^ 24 - 1) * (n * M)) by (subst M; lia). nia.
    + assert ((2 ^ 24 + 1) * (n * M) < 2 ^ 24 * ((q + 1) * 2 ^ 24)) by (subst M; lia). nia.
  - (* 100 *) assert (q = n) by lia. assert (ER : R = n * M * unit) by (apply (rn_exact _ (24 + 176) n); [lia|lia|]; rewrite Z.pow_add_r by lia; subst M; unfold unit; lia). rewrite ER. subst M. nia.
Qed.
Lemma near_floor n (caps sub : bool) p : (p = (if caps then 8 else 10) * (if sub then 7 else 10)) -> 0 < n < 2 ^ 24 -> Z.abs (grown n caps sub / 2 ^ scale - n * p / 100) <= 1.
Proof.
  intros EP N. rewrite grown_small by lia. pose proof unit_pos as UP. set (M := mant caps sub). pose proof (mant_bounds caps sub) as MB. fold M in MB.
  pose proof (rn_err (n * M * unit) ltac:(nia)) as [R1 R2]. set (R := rn (n * M * unit)) in *.
  pose proof (Z.div_mod (n * p) 100 ltac:(lia)) as D. pose proof (Z.mod_pos_bound (n * p) 100 ltac:(lia)) as DB. set (q := n * p / 100) in *. set (r := (n * p) mod 100) in *.
  assert (S0 : 0 < 2 ^ scale) by (rewrite scale_unit; lia).
  assert (A : (q - 1) * 2 ^ scale <= R < (q + 2) * 2 ^ scale).
  { rewrite scale_unit. assert (A1 : 2 ^ 24 * ((q - 1) * 2 ^ 24) <= (2 ^ 24 - 1) * (n * M)) by (destruct caps, sub; cbv [mant] in M; subst p M; lia).
    assert (A2 : (2 ^ 24 + 1) * (n * M) < 2 ^ 24 * ((q + 2) * 2 ^ 24)) by (destruct caps, sub; cbv [mant] in M; subst p M; lia). nia. }
  assert (q - 1 <= R / 2 ^ scale) by (apply Z.div_le_lower_bound; lia). assert (R / 2 ^ scale < q + 2) by (apply Z.div_lt_upper_bound; lia). lia.
Qed.
