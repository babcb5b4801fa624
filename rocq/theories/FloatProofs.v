(** Rounding of positive binary32 numbers, on scaled integers. *)
From Coq Require Import Lia ZArith.
From Verif Require Import Base FloatModel.
Open Scope Z_scope.

(** Rounding [X] to a multiple of [2^k], to nearest, ties to even; the quotient. *)
Definition rnd (k X : Z) : Z :=
  let q := X / 2 ^ k in let r := X mod 2 ^ k in
  if 2 * r <? 2 ^ k then q else if 2 * r =? 2 ^ k then (if Z.even q then q else q + 1) else q + 1.
(** Rounding to 24 significant bits. *)
Definition kx (X : Z) : Z := Z.max 0 (Z.log2 X - 23).
Definition rn (X : Z) : Z := rnd (kx X) X * 2 ^ kx X.

Lemma pow_pos k : 0 <= k -> 0 < 2 ^ k.
Proof. intros. apply Z.pow_pos_nonneg; lia. Qed.

Lemma rnd_bounds k X : 0 <= k -> 0 <= X -> X / 2 ^ k <= rnd k X <= X / 2 ^ k + 1 /\ 2 * (rnd k X * 2 ^ k - X) <= 2 ^ k /\ 2 * (X - rnd k X * 2 ^ k) <= 2 ^ k.
Proof.
  intros K X0. pose proof (pow_pos k K) as P. unfold rnd. pose proof (Z.div_mod X (2 ^ k) ltac:(lia)) as D. pose proof (Z.mod_pos_bound X (2 ^ k) P) as M.
  set (q := X / 2 ^ k) in *. set (r := X mod 2 ^ k) in *. set (b := 2 ^ k) in *.
  destruct (Z.ltb_spec (2 * r) b); [|destruct (Z.eqb_spec (2 * r) b); [destruct (Z.even q)|]]; repeat split; nia.
Qed.
Lemma rnd_mono k X Y : 0 <= k -> 0 <= X <= Y -> rnd k X <= rnd k Y.
Proof.
  intros K XY. pose proof (pow_pos k K) as P. assert (DM : X / 2 ^ k <= Y / 2 ^ k) by (apply Z.div_le_mono; lia).
  destruct (Z.eq_dec (X / 2 ^ k) (Y / 2 ^ k)) as [E|NE].
  - unfold rnd. rewrite E. pose proof (Z.div_mod X (2 ^ k) ltac:(lia)) as D. pose proof (Z.div_mod Y (2 ^ k) ltac:(lia)) as D2. rewrite E in D. assert (X mod 2 ^ k <= Y mod 2 ^ k) by lia.
    set (a := X mod 2 ^ k) in *. set (c := Y mod 2 ^ k) in *. set (q := Y / 2 ^ k) in *. set (b := 2 ^ k) in *.
    destruct (Z.ltb_spec (2 * a) b), (Z.ltb_spec (2 * c) b), (Z.eqb_spec (2 * a) b), (Z.eqb_spec (2 * c) b), (Z.even q); lia.
  - pose proof (rnd_bounds k X K ltac:(lia)). pose proof (rnd_bounds k Y K ltac:(lia)). lia.
Qed.
Lemma rnd_exact k q : 0 <= k -> rnd k (q * 2 ^ k) = q.
Proof. intros K. pose proof (pow_pos k K). unfold rnd. rewrite Z.div_mul, Z.mod_mul by lia. destruct (Z.ltb_spec (2 * 0) (2 ^ k)); lia. Qed.
Lemma kx_pos X : 0 <= kx X. Proof. unfold kx. lia. Qed.
Lemma log2_bounds X : 0 < X -> 2 ^ Z.log2 X <= X < 2 * 2 ^ Z.log2 X.
Proof. intros P. pose proof (Z.log2_spec X P) as S. rewrite Z.pow_succ_r in S by apply Z.log2_nonneg. exact S. Qed.
(** The quotient has 24 bits, unless [X] itself has fewer. *)
Lemma quot_bounds X : 0 < X -> (kx X = 0 /\ X < 2 ^ 24) \/ (0 <= kx X /\ 2 ^ 23 <= X / 2 ^ kx X < 2 ^ 24).
Proof.
  intros P. unfold kx. destruct (Z.le_gt_cases (Z.log2 X) 23) as [L|L].
  - left. rewrite Z.max_l by lia. split; [reflexivity|]. apply Z.log2_lt_pow2; lia.
  - right. rewrite Z.max_r by lia. split; [lia|]. pose proof (log2_bounds X P) as B. replace (Z.log2 X) with (23 + (Z.log2 X - 23)) in B at 1 2 by lia. rewrite Z.pow_add_r in B by lia.
    assert (PP := pow_pos (Z.log2 X - 23) ltac:(lia)). split; [apply Z.div_le_lower_bound; lia|apply Z.div_lt_upper_bound; lia].
Qed.
Lemma kx_mono X Y : 0 <= X <= Y -> kx X <= kx Y.
Proof. intros. unfold kx. pose proof (Z.log2_le_mono X Y ltac:(lia)). lia. Qed.
Lemma rn_mono X Y : 0 <= X <= Y -> rn X <= rn Y.
Proof.
  intros XY. destruct (Z.eq_dec X 0) as [->|NZ].
  { change (rn 0) with 0. unfold rn. pose proof (rnd_bounds (kx Y) Y (kx_pos Y) ltac:(lia)). pose proof (pow_pos (kx Y) (kx_pos Y)). assert (0 <= Y / 2 ^ kx Y) by (apply Z.div_pos; lia). nia. }
  pose proof (kx_mono X Y XY) as KM. destruct (Z.eq_dec (kx X) (kx Y)) as [E|NE].
  - unfold rn. rewrite E. pose proof (pow_pos (kx Y) (kx_pos Y)). apply Z.mul_le_mono_nonneg_r; [lia|]. apply rnd_mono; [apply kx_pos|lia].
  - unfold rn. assert (QX := quot_bounds X ltac:(lia)). assert (QY := quot_bounds Y ltac:(lia)). pose proof (kx_pos X).
    pose proof (rnd_bounds (kx X) X (kx_pos X) ltac:(lia)) as BX. pose proof (rnd_bounds (kx Y) Y (kx_pos Y) ltac:(lia)) as BY.
    assert (UX : rnd (kx X) X <= 2 ^ 24). { destruct QX as [[Q1 Q2]|[_ Q2]]; [rewrite Q1 in *; rewrite Z.pow_0_r, Z.div_1_r in BX; lia|lia]. }
    assert (LY : 2 ^ 23 <= rnd (kx Y) Y) by (destruct QY as [[Q1 _]|[_ Q2]]; lia).
    replace (kx Y) with (kx X + 1 + (kx Y - kx X - 1)) by lia. replace (kx X + 1 + (kx Y - kx X - 1)) with (kx Y) at 1 by lia. rewrite Z.pow_add_r, Z.pow_add_r by lia.
    pose proof (pow_pos (kx X) ltac:(lia)). pose proof (pow_pos (kx Y - kx X - 1) ltac:(lia)). set (a := 2 ^ kx X) in *. set (b := 2 ^ (kx Y - kx X - 1)) in *. change (2 ^ 1) with 2.
    apply Z.le_trans with (2 ^ 24 * a); [nia|]. apply Z.le_trans with (2 ^ 23 * (a * 2 * b)); [|nia]. change (2 ^ 24) with (2 ^ 23 * 2). nia.
Qed.
(** Rounding moves a number by at most one part in [2^24]. *)
Lemma rn_err X : 0 <= X -> 2 ^ 24 * (rn X - X) <= X /\ 2 ^ 24 * (X - rn X) <= X.
Proof.
  intros P. destruct (Z.eq_dec X 0) as [->|NZ]; [change (rn 0) with 0; lia|]. unfold rn. pose proof (rnd_bounds (kx X) X (kx_pos X) P) as (_ & B1 & B2).
  destruct (quot_bounds X ltac:(lia)) as [[Q1 Q2]|[Q1 Q2]].
  - rewrite Q1 in *. rewrite Z.pow_0_r in *. lia.
  - pose proof (pow_pos _ Q1) as PP. pose proof (Z.mul_div_le X _ PP) as D. set (b := 2 ^ kx X) in *. set (q := X / b) in *. assert (2 ^ 23 * b <= X) by nia. change (2 ^ 24) with (2 * 2 ^ 23). lia.
Qed.
(** A number on [X]'s grid within half a step of [X] is what [X] rounds to. *)
Lemma rn_near X v : 0 <= X -> 2 * (v * 2 ^ kx X - X) < 2 ^ kx X -> 2 * (X - v * 2 ^ kx X) < 2 ^ kx X -> rn X = v * 2 ^ kx X.
Proof.
  intros P A B. unfold rn. pose proof (rnd_bounds (kx X) X (kx_pos X) P) as (_ & B1 & B2). pose proof (pow_pos _ (kx_pos X)). set (b := 2 ^ kx X) in *. f_equal. nia.
Qed.
Lemma rn_exact X j v : 0 <= j -> 0 < v <= 2 ^ 24 -> X = v * 2 ^ j -> rn X = X.
Proof.
  intros J V ->. pose proof (pow_pos j J) as PJ. assert (P : 0 < v * 2 ^ j) by nia.
  assert (KJ : kx (v * 2 ^ j) <= j \/ v = 2 ^ 24).
  { destruct (Z.eq_dec v (2 ^ 24)); [auto|]. left. unfold kx. rewrite Z.log2_mul_pow2 by lia. assert (Z.log2 v < 24) by (apply Z.log2_lt_pow2; lia). lia. }
  destruct KJ as [KJ| ->].
  - assert (E : v * 2 ^ j = (v * 2 ^ (j - kx (v * 2 ^ j))) * 2 ^ kx (v * 2 ^ j)). { rewrite <- Z.mul_assoc, <- Z.pow_add_r by (pose proof (kx_pos (v * 2 ^ j)); lia). f_equal. f_equal. lia. }
    unfold rn. rewrite E at 2. rewrite rnd_exact by apply kx_pos. symmetry. exact E.
  - assert (KE : kx (2 ^ 24 * 2 ^ j) = j + 1). { unfold kx. rewrite <- Z.pow_add_r by lia. rewrite Z.log2_pow2 by lia. lia. }
    unfold rn. rewrite KE. replace (2 ^ 24 * 2 ^ j) with (2 ^ 23 * 2 ^ (j + 1)) by (rewrite Z.pow_add_r by lia; change (2 ^ 24) with (2 ^ 23 * 2 ^ 1); lia). rewrite rnd_exact by lia. reflexivity.
Qed.
Lemma rnd_scale k s m : 0 <= k -> 0 <= s -> rnd (k + s) (m * 2 ^ s) = rnd k m.
Proof.
  intros K S. pose proof (pow_pos k K). pose proof (pow_pos s S). unfold rnd. rewrite Z.pow_add_r by lia. rewrite Z.div_mul_cancel_r by lia. rewrite Z.mul_mod_distr_r by lia.
  set (q := m / 2 ^ k). set (r := m mod 2 ^ k). set (a := 2 ^ k) in *. set (b := 2 ^ s) in *.
  replace (2 * (r * b) <? a * b) with (2 * r <? a) by (destruct (Z.ltb_spec (2 * r) a), (Z.ltb_spec (2 * (r * b)) (a * b)); try reflexivity; nia).
  replace (2 * (r * b) =? a * b) with (2 * r =? a); [reflexivity|]. destruct (Z.eqb_spec (2 * r) a), (Z.eqb_spec (2 * (r * b)) (a * b)); try reflexivity; nia.
Qed.
Lemma rn_scale m s : 0 < m -> 0 <= s -> rn (m * 2 ^ s) = rnd (kx m) m * 2 ^ (kx m + s).
Proof.
  intros M S. pose proof (pow_pos s S). destruct (Z.le_gt_cases 23 (Z.log2 m)) as [L|L].
  - assert (K : kx (m * 2 ^ s) = kx m + s) by (unfold kx; rewrite Z.log2_mul_pow2 by lia; lia). unfold rn. rewrite K, rnd_scale by (try apply kx_pos; lia). reflexivity.
  - assert (K0 : kx m = 0) by (unfold kx; lia). rewrite K0. replace m with (m * 2 ^ 0) at 2 by (rewrite Z.pow_0_r; lia). rewrite rnd_exact by lia. rewrite Z.add_0_l.
    apply rn_exact with s m; [lia| |reflexivity]. split; [lia|]. pose proof (log2_bounds m M). assert (2 ^ Z.log2 m <= 2 ^ 22) by (apply Z.pow_le_mono_r; lia). lia.
Qed.

(** ** The executable rounding *)
Definition located (q m : Z) (x : shr_record) : Prop :=
  shr_m x = m / 2 ^ q /\
  match shr_r x, shr_s x with
  | false, false => m mod 2 ^ q = 0
  | false, true => 0 < 2 * (m mod 2 ^ q) < 2 ^ q
  | true, false => 2 * (m mod 2 ^ q) = 2 ^ q
  | true, true => 2 ^ q < 2 * (m mod 2 ^ q)
  end.
Lemma shr_1_step m q x : 0 <= m -> 0 <= q -> located q m x -> located (q + 1) m (shr_1 x).
Proof.
  intros M Q [E R]. pose proof (pow_pos q Q) as P. assert (D : m / 2 ^ (q + 1) = (m / 2 ^ q) / 2) by (rewrite Z.pow_add_r by lia; rewrite Z.div_div by lia; reflexivity).
  assert (MD : m mod 2 ^ (q + 1) = m mod 2 ^ q + 2 ^ q * ((m / 2 ^ q) mod 2)) by (rewrite Z.pow_add_r by lia; apply Z.rem_mul_r; lia).
  pose proof (Z.mod_pos_bound m (2 ^ q) P) as MB. assert (A : 0 <= m / 2 ^ q) by (apply Z.div_pos; lia). unfold located. rewrite D, MD. replace (2 ^ (q + 1)) with (2 * 2 ^ q) by (rewrite Z.pow_add_r by lia; lia).
  destruct x as [a r s]. cbn [shr_m shr_r shr_s] in *. subst a. set (a := m / 2 ^ q) in *. set (b := 2 ^ q) in *. set (c := m mod b) in *. clearbody a b c. clear D MD.
  destruct a as [|p|p]; [| |lia].
  - cbn [shr_1 shr_m shr_r shr_s]. rewrite Z.div_0_l, Z.mod_0_l by lia. split; [reflexivity|]. destruct r, s; cbn [orb]; lia.
  - destruct p as [p|p|]; cbn [shr_1 shr_m shr_r shr_s].
    + replace (Z.pos p~1) with (1 + Z.pos p * 2) by lia. rewrite Z.div_add, Z.mod_add by lia. change (1 / 2) with 0. change (1 mod 2) with 1. split; [lia|]. destruct r, s; cbn [orb]; lia.
    + replace (Z.pos p~0) with (Z.pos p * 2) by lia. rewrite Z.div_mul, Z.mod_mul by lia. split; [lia|]. destruct r, s; cbn [orb]; lia.
    + change (1 / 2) with 0. change (1 mod 2) with 1. split; [reflexivity|]. destruct r, s; cbn [orb]; lia.
Qed.
Lemma shr_iter m : 0 <= m -> forall p q x, 0 <= q -> located q m x -> located (q + Z.pos p) m (iter_pos shr_1 p x).
Proof.
  intros M. induction p as [p IH|p IH|]; intros q x Q L; cbn [iter_pos].
  - replace (q + Z.pos p~1) with ((q + 1 + Z.pos p) + Z.pos p) by lia. apply IH; [lia|]. apply IH; [lia|]. apply shr_1_step; assumption.
  - replace (q + Z.pos p~0) with ((q + Z.pos p) + Z.pos p) by lia. apply IH; [lia|]. apply IH; assumption.
  - apply shr_1_step; assumption.
Qed.
Lemma located_round m q x : 0 <= m -> 0 <= q -> located q m x -> round_nearest_even (shr_m x) (loc_of_shr_record x) = rnd q m.
Proof.
  intros M Q [E R]. pose proof (pow_pos q Q) as P. pose proof (Z.mod_pos_bound m (2 ^ q) P). unfold rnd. rewrite <- E. destruct x as [a r s]. cbn [shr_m shr_r shr_s loc_of_shr_record] in *.
  destruct r, s; cbn [round_nearest_even]; destruct (Z.ltb_spec (2 * (m mod 2 ^ q)) (2 ^ q)); try lia; destruct (Z.eqb_spec (2 * (m mod 2 ^ q)) (2 ^ q)); try lia; reflexivity.
Qed.
Lemma located_0 m : 0 <= m -> located 0 m (shr_record_of_loc m loc_Exact).
Proof. intros M. split; cbn; [rewrite Z.div_1_r; reflexivity|]. apply Z.mod_1_r. Qed.
Lemma shr_located m e n : 0 <= m -> exists x, shr (shr_record_of_loc m loc_Exact) e n = (x, e + Z.max 0 n) /\ located (Z.max 0 n) m x.
Proof.
  intros M. destruct n as [|p|p]; cbn [shr].
  - exists (shr_record_of_loc m loc_Exact). rewrite Z.add_0_r. split; [reflexivity|]. apply located_0, M.
  - exists (iter_pos shr_1 p (shr_record_of_loc m loc_Exact)). split; [f_equal; lia|]. replace (Z.max 0 (Z.pos p)) with (0 + Z.pos p) by lia. apply shr_iter; [exact M|lia|apply located_0, M].
  - exists (shr_record_of_loc m loc_Exact). split; [f_equal; lia|]. apply located_0, M.
Qed.
Lemma digits2_log p : Z.pos (digits2_pos p) = Z.log2 (Z.pos p) + 1.
Proof.
  induction p as [p IH|p IH|]; cbn [digits2_pos]; [| |reflexivity].
  - rewrite Pos2Z.inj_succ, IH. replace (Z.pos p~1) with (2 * Z.pos p + 1) by lia. rewrite Z.log2_succ_double by lia. lia.
  - rewrite Pos2Z.inj_succ, IH. replace (Z.pos p~0) with (2 * Z.pos p) by lia. rewrite Z.log2_double by lia. lia.
Qed.
Lemma zdigits m : 0 < m -> Zdigits2 m = Z.log2 m + 1.
Proof. destruct m as [|p|p]; [lia| |lia]. intros _. apply digits2_log. Qed.

(** The value of a positive number, scaled to an integer. *)
Definition scale : Z := 200.
Definition is_val (x : f32) (X : Z) : Prop := exists m e, x = S754_finite false m e /\ Z.pos m < 2 ^ 24 /\ -149 <= e /\ X = Z.pos m * 2 ^ (e + scale).

Lemma round_aux_val m e : 0 < m -> -149 <= e -> Z.max 24 (Z.log2 m + 1) + e <= 127 ->
  is_val (binary_round_aux 24 128 false m e loc_Exact) (rn (m * 2 ^ (e + scale))).
Proof.
  intros M E OV. unfold binary_round_aux, shr_fexp. rewrite zdigits by exact M.
  assert (FE : Z.max 0 (fexp 24 128 (Z.log2 m + 1 + e) - e) = kx m) by (unfold fexp, emin, kx; lia).
  destruct (shr_located m e (fexp 24 128 (Z.log2 m + 1 + e) - e) ltac:(lia)) as (x & -> & LX). rewrite FE in *.
  pose proof (kx_pos m) as KP. rewrite (located_round m (kx m) x) by (try assumption; lia). set (m1 := rnd (kx m) m).
  pose proof (rnd_bounds (kx m) m KP ltac:(lia)) as (B & _). fold m1 in B.
  assert (M1 : 0 < m1 <= 2 ^ 24). { destruct (quot_bounds m M) as [[Q1 Q2]|[_ Q2]]; [|lia]. assert (m1 = m) by (unfold m1; rewrite Q1; replace m with (m * 2 ^ 0) at 1 by (rewrite Z.pow_0_r; lia); apply rnd_exact; lia). lia. }
  rewrite zdigits by lia. assert (SC : 0 <= e + scale) by (unfold scale; lia). rewrite rn_scale by lia. fold m1.
  assert (EB : e + kx m <= 103) by (unfold kx; lia).
  destruct (Z.eq_dec m1 (2 ^ 24)) as [E24|N24].
  - rewrite E24. change (Z.log2 (2 ^ 24)) with 24. assert (FE2 : fexp 24 128 (24 + 1 + (e + kx m)) - (e + kx m) = 1) by (unfold fexp, emin; lia). rewrite FE2.
    replace (shr (shr_record_of_loc (2 ^ 24) loc_Exact) (e + kx m) 1) with ({| shr_m := 2 ^ 23; shr_r := false; shr_s := false |}, e + kx m + 1) by reflexivity. cbn [shr_m].
    change (2 ^ 23) with (Z.pos 8388608). cbv iota beta. destruct (Z.leb_spec (e + kx m + 1) (128 - 24)); [|lia]. exists 8388608%positive, (e + kx m + 1). split; [reflexivity|]. split; [reflexivity|]. split; [lia|].
    replace (e + kx m + 1 + scale) with (1 + (kx m + (e + scale))) by lia. rewrite (Z.pow_add_r 2 1) by lia. change (2 ^ 24) with 16777216. lia.
  - assert (L1 : Z.log2 m1 <= 23). { assert (Z.log2 m1 < 24) by (apply Z.log2_lt_pow2; lia). lia. }
    destruct (shr_located m1 (e + kx m) (fexp 24 128 (Z.log2 m1 + 1 + (e + kx m)) - (e + kx m)) ltac:(lia)) as (x2 & -> & LX2).
    assert (FE2 : Z.max 0 (fexp 24 128 (Z.log2 m1 + 1 + (e + kx m)) - (e + kx m)) = 0) by (unfold fexp, emin; lia). rewrite FE2 in *. destruct LX2 as [LX2 _]. rewrite Z.pow_0_r, Z.div_1_r in LX2. rewrite LX2.
    destruct m1 as [|p|p]; [lia| |lia]. rewrite Z.add_0_r. destruct (Z.leb_spec (e + kx m) (128 - 24)); [|lia]. exists p, (e + kx m). split; [reflexivity|]. split; [lia|]. split; [lia|]. f_equal. f_equal. lia.
Qed.

Lemma of_Z_val n : 0 < n < 2 ^ 64 -> is_val (f32_of_Z n) (rn (n * 2 ^ scale)).
Proof.
  intros [P B]. assert (LB : Z.log2 n < 64) by (apply Z.log2_lt_pow2; lia). destruct n as [|p|p]; [lia| |lia]. unfold f32_of_Z. cbn [binary_normalize]. unfold binary_round. rewrite digits2_log. set (l := Z.log2 (Z.pos p)) in *. assert (0 <= l) by apply Z.log2_nonneg.
  assert (FE : fexp 24 128 (l + 1 + 0) = l - 23) by (unfold fexp, emin; lia). rewrite FE. unfold shl_align. rewrite Z.sub_0_r.
  destruct (l - 23) as [|q|q] eqn:D.
  - replace scale with (0 + scale) at 1 by lia. apply round_aux_val; fold l; lia.
  - replace scale with (0 + scale) at 1 by lia. apply round_aux_val; fold l; lia.
  - assert (SH : Z.pos (shift_pos q p) = Z.pos p * 2 ^ Z.pos q) by (rewrite shift_pos_correct, Z.mul_comm; reflexivity).
    pose proof (round_aux_val (Z.pos (shift_pos q p)) (Z.neg q)) as R. rewrite SH in R. rewrite Z.log2_mul_pow2 in R by lia. fold l in R. rewrite <- SH in R at 2.
    replace (Z.pos p * 2 ^ scale) with (Z.pos p * 2 ^ Z.pos q * 2 ^ (Z.neg q + scale)); [apply R; unfold scale; try lia; pose proof (pow_pos (Z.pos q)); nia|].
    rewrite <- Z.mul_assoc, <- Z.pow_add_r by (unfold scale; lia). f_equal. f_equal. lia.
Qed.
Lemma mul_val x y X Y : is_val x X -> is_val y Y -> 2 ^ scale <= X < 2 ^ (scale + 64) -> 2 ^ (scale - 8) <= Y <= 2 ^ scale ->
  is_val (f32_mul x y) (rn (X * Y / 2 ^ scale)).
Proof.
  intros (m & e & -> & M & E & EX) (m' & e' & -> & M' & E' & EY) BX BY. unfold f32_mul. cbn [SFmul xorb].
  assert (S0 : 0 <= e + scale) by (unfold scale; lia). assert (S1 : 0 <= e' + scale) by (unfold scale; lia).
  assert (A1 : -24 < e). { assert (2 ^ scale < 2 ^ (24 + (e + scale))) by (rewrite (Z.pow_add_r 2 24) by lia; pose proof (pow_pos _ S0); nia). apply Z.pow_lt_mono_r_iff in H; lia. }
  assert (A2 : -32 < e'). { assert (2 ^ (scale - 8) < 2 ^ (24 + (e' + scale))) by (rewrite (Z.pow_add_r 2 24) by lia; pose proof (pow_pos _ S1); nia). apply Z.pow_lt_mono_r_iff in H; lia. }
  assert (A3 : e < 64). { assert (2 ^ (e + scale) < 2 ^ (scale + 64)) by (pose proof (pow_pos _ S0); nia). apply Z.pow_lt_mono_r_iff in H; unfold scale in *; lia. }
  assert (A4 : e' <= 0). { assert (2 ^ (e' + scale) <= 2 ^ scale) by (pose proof (pow_pos _ S1); nia). apply Z.pow_le_mono_r_iff in H; unfold scale in *; lia. }
  assert (PM : X * Y / 2 ^ scale = Z.pos (m * m') * 2 ^ (e + e' + scale)).
  { subst. replace (Z.pos m * 2 ^ (e + scale) * (Z.pos m' * 2 ^ (e' + scale))) with (Z.pos (m * m') * 2 ^ (e + e' + scale) * 2 ^ scale).
    - apply Z.div_mul. pose proof (pow_pos scale). unfold scale in *. lia.
    - rewrite Pos2Z.inj_mul. transitivity (Z.pos m * Z.pos m' * (2 ^ (e + scale) * 2 ^ (e' + scale))); [|lia]. rewrite <- Z.mul_assoc, <- !Z.pow_add_r by (unfold scale; lia). f_equal. f_equal. lia. }
  rewrite PM. assert (LM : Z.log2 (Z.pos (m * m')) < 48). { apply Z.log2_lt_pow2; [lia|]. rewrite Pos2Z.inj_mul. change (2 ^ 48) with (2 ^ 24 * 2 ^ 24). nia. }
  apply round_aux_val; lia.
Qed.
Lemma trunc_val x X : is_val x X -> f32_trunc x = Some (X / 2 ^ scale).
Proof.
  intros (m & e & -> & _ & E & ->). cbn [f32_trunc]. f_equal. assert (0 < 2 ^ scale) by (apply pow_pos; unfold scale; lia). destruct (Z.leb_spec 0 e).
  - rewrite Z.pow_add_r by (unfold scale; lia). rewrite Z.mul_assoc, Z.div_mul by lia. reflexivity.
  - replace (2 ^ scale) with (2 ^ (- e) * 2 ^ (e + scale)) by (rewrite <- Z.pow_add_r by (unfold scale; lia); f_equal; lia). pose proof (pow_pos (e + scale) ltac:(unfold scale; lia)). pose proof (pow_pos (- e) ltac:(lia)). rewrite Z.div_mul_cancel_r by lia. reflexivity.
Qed.
