From Verif Require Import Base PackingModel.
Open Scope Z_scope.

Ltac Zify.zify_post_hook ::= Z.div_mod_to_equations.

Lemma pm_ones : position_mask = Z.ones 31. Proof. reflexivity. Qed.
Lemma am_pow : affinity_mask = 2 ^ 31. Proof. reflexivity. Qed.

(** Disjoint or is addition. *)
Lemma lor_add_low a b n : 0 <= n -> 0 <= b < 2 ^ n -> Z.lor (a * 2 ^ n) b = a * 2 ^ n + b.
Proof.
  intros Hn Hb. rewrite <- Z.lxor_lor, <- Z.add_nocarry_lxor; auto;
  apply Z.bits_inj'; intros k Hk; rewrite Z.land_spec, Z.bits_0;
  (destruct (Z.lt_ge_cases k n);
   [rewrite Z.mul_pow2_bits_low by lia; reflexivity
   |assert (Z.testbit b k = false) as ->; [|apply andb_false_r]]);
  (destruct (Z.eq_dec b 0) as [->|]; [apply Z.bits_0|]);
  (apply Z.bits_above_log2; [lia|]; apply Z.log2_lt_pow2; [lia|];
   apply Z.lt_le_trans with (2 ^ n); [lia|]; apply Z.pow_le_mono_r; lia).
Qed.

(** A 32-bit word is an affinity bit and a position. *)
Definition hi (d : Z) : Z := d / 2 ^ 31.
Definition lo (d : Z) : Z := d mod 2 ^ 31.
Lemma word_split d : 0 <= d < 2 ^ 32 -> d = hi d * 2 ^ 31 + lo d /\ 0 <= lo d < 2 ^ 31 /\ (hi d = 0 \/ hi d = 1).
Proof. unfold hi, lo. intros H. lia. Qed.

Lemma land_am d : 0 <= d < 2 ^ 32 -> Z.land d affinity_mask = hi d * 2 ^ 31.
Proof.
  intros H. rewrite am_pow. unfold hi.
  apply Z.bits_inj'. intros k Hk. rewrite Z.land_spec.
  destruct (Z.lt_ge_cases k 31).
  - rewrite Z.mul_pow2_bits_low by lia. rewrite Z.pow2_bits_false by lia. apply andb_false_r.
  - rewrite Z.mul_pow2_bits by lia. rewrite Z.div_pow2_bits by lia.
    replace (k - 31 + 31) with k by lia.
    destruct (Z.eq_dec k 31) as [->|Hne].
    + rewrite Z.pow2_bits_true by lia. apply andb_true_r.
    + rewrite Z.pow2_bits_false by lia. rewrite andb_false_r. symmetry.
      destruct (Z.eq_dec d 0) as [->|]; [apply Z.bits_0|].
      apply Z.bits_above_log2; [lia|]. apply Z.log2_lt_pow2; [lia|].
      apply Z.lt_le_trans with (2 ^ 32); [lia|]. apply Z.pow_le_mono_r; lia.
Qed.

Lemma land_pm d : Z.land d position_mask = lo d.
Proof. rewrite pm_ones. rewrite Z.land_ones by lia. reflexivity. Qed.

Lemma wrap_small z : 0 <= z < 2 ^ 32 -> wrap32 z = z.
Proof. intros. unfold wrap32. apply Z.mod_small. lia. Qed.

Lemma get_position_eq d : cp_get_position d = lo d.
Proof.
  unfold cp_get_position. rewrite land_pm. unfold to_int32, lo.
  rewrite wrap_small by lia. destruct (Z.ltb_spec (d mod 2 ^ 31) (2 ^ 31)); lia.
Qed.

Lemma get_affinity_eq d : 0 <= d < 2 ^ 32 -> cp_get_affinity d = if hi d =? 0 then ADefault else AOpposite.
Proof. intros H. unfold cp_get_affinity. rewrite Z.shiftr_div_pow2 by lia. reflexivity. Qed.

Lemma set_position_eq d p : 0 <= d < 2 ^ 32 -> 0 <= p < 2 ^ 31 ->
  cp_set_position d p = hi d * 2 ^ 31 + p.
Proof.
  intros Hd Hp. unfold cp_set_position. rewrite land_am by auto. rewrite land_pm, wrap_small by lia.
  unfold lo. rewrite Z.mod_small by lia. apply lor_add_low; lia.
Qed.

Lemma set_affinity_eq d a : 0 <= d < 2 ^ 32 ->
  cp_set_affinity d a = (match a with ADefault => 0 | AOpposite => 1 end) * 2 ^ 31 + lo d.
Proof.
  intros Hd. unfold cp_set_affinity. destruct a.
  - rewrite land_pm. lia.
  - destruct (word_split d Hd) as (E & Hlo & Hhi). rewrite Z.shiftl_mul_pow2 by lia.
    destruct Hhi as [Hh|Hh]; rewrite Hh in E.
    + replace d with (lo d) at 1 by lia. rewrite Z.lor_comm. apply lor_add_low; lia.
    + assert (Hs : Z.lor (1 * 2 ^ 31) (lo d) = 1 * 2 ^ 31 + lo d) by (apply lor_add_low; lia).
      rewrite E at 1. rewrite <- Hs. rewrite (Z.lor_comm (Z.lor _ _)), Z.lor_assoc, Z.lor_diag. reflexivity.
Qed.

Lemma cp_pack_step d o : 0 <= d < 2 ^ 32 ->
  (match o with CSetPosition p => 0 <= p < 2 ^ 31 | _ => True end) ->
  0 <= cp_step d o < 2 ^ 32 /\
  cp_get_position (cp_step d o) =
    (match o with CSetPosition p => p | CSetAffinity _ => cp_get_position d end) /\
  cp_get_affinity (cp_step d o) =
    (match o with CSetPosition _ => cp_get_affinity d | CSetAffinity a => a end).
Proof.
  intros Hd Ho. destruct (word_split d Hd) as (E & Hlo & Hhi).
  destruct o as [p|a]; cbn [cp_step].
  - rewrite set_position_eq by auto.
    assert (R : 0 <= hi d * 2 ^ 31 + p < 2 ^ 32) by lia.
    split; [exact R|]. rewrite get_position_eq, !get_affinity_eq by auto. unfold lo.
    split; [lia|]. replace (hi (hi d * 2 ^ 31 + p)) with (hi d) by (unfold hi; lia). reflexivity.
  - rewrite set_affinity_eq by auto.
    set (h := match a with ADefault => 0 | AOpposite => 1 end).
    assert (Hh : h = 0 \/ h = 1) by (destruct a; cbn; auto).
    assert (R : 0 <= h * 2 ^ 31 + lo d < 2 ^ 32) by lia.
    split; [exact R|]. rewrite !get_position_eq, get_affinity_eq by auto. split.
    + unfold lo at 1. lia.
    + replace (hi (h * 2 ^ 31 + lo d)) with h by (unfold hi; lia). destruct a; reflexivity.
Qed.

(** Abstract cursor: a position and an affinity. *)
Definition abs_step (s : Z * affinity) (o : cp_op) : Z * affinity :=
  match o with
  | CSetPosition p => (p, snd s)
  | CSetAffinity a => (fst s, a)
  end.

Lemma cp_history os : forall d, 0 <= d < 2 ^ 32 ->
  Forall (fun o => match o with CSetPosition p => 0 <= p < 2 ^ 31 | _ => True end) os ->
  let d' := fold_left cp_step os d in
  0 <= d' < 2 ^ 32 /\
  (cp_get_position d', cp_get_affinity d') =
  fold_left abs_step os (cp_get_position d, cp_get_affinity d).
Proof.
  induction os as [|o os IH]; intros d Hd Hos; [cbn; auto|]. cbn [fold_left].
  inversion Hos as [|? ? Ho Hos']; subst.
  destruct (cp_pack_step d o Hd Ho) as (R & Hp & Ha).
  destruct (IH _ R Hos') as (R' & He). split; [exact R'|]. rewrite He. f_equal.
  rewrite Hp, Ha. destruct o; reflexivity.
Qed.

Lemma cp_eq_iff d1 d2 : 0 <= d1 < 2 ^ 32 -> 0 <= d2 < 2 ^ 32 ->
  (cp_eqb d1 d2 = true <->
   cp_get_position d1 = cp_get_position d2 /\ cp_get_affinity d1 = cp_get_affinity d2).
Proof.
  intros H1 H2. unfold cp_eqb. rewrite Z.eqb_eq, !get_position_eq, !get_affinity_eq by auto.
  destruct (word_split d1 H1) as (E1 & L1 & Hh1), (word_split d2 H2) as (E2 & L2 & Hh2).
  split; [intros ->; auto|]. intros (Hl & Ha).
  destruct Hh1 as [h1|h1], Hh2 as [h2|h2]; rewrite h1, h2 in *; cbn in Ha; try discriminate; lia.
Qed.

Lemma cp_valid_iff d : 0 <= d < 2 ^ 32 ->
  (cp_is_valid d = false <-> cp_get_position d = 2 ^ 31 - 1 /\ cp_get_affinity d = AOpposite).
Proof.
  intros H. unfold cp_is_valid, invalid_value. rewrite get_position_eq, get_affinity_eq by auto.
  destruct (word_split d H) as (E & L & Hh).
  destruct Hh as [h|h]; rewrite h in *; cbn [Z.eqb].
  - split; [|intros (_ & X); discriminate]. destruct (Z.eqb_spec d (2 ^ 32 - 1)); cbn; [lia|discriminate].
  - destruct (Z.eqb_spec d (2 ^ 32 - 1)); cbn; split; intros X; try discriminate; auto.
    + split; [lia|reflexivity].
    + destruct X. lia.
Qed.

(** ** Font faces *)
Lemma handle_sum f w s : 0 <= f < 2 ^ 16 -> 0 <= w < 16 -> 0 <= s < 2 ->
  ff_make_handle f w s = f * 2 ^ 16 + w * 2 + s.
Proof.
  intros Hf Hw Hs. unfold ff_make_handle. rewrite !Z.shiftl_mul_pow2 by lia.
  rewrite <- Z.lor_assoc. rewrite (lor_add_low w s 1) by lia.
  rewrite (lor_add_low f (w * 2 ^ 1 + s) 16) by lia. rewrite wrap_small by lia. lia.
Qed.

Lemma ff_roundtrip f w s : 0 <= f < 2 ^ 16 -> 0 <= w < 16 -> 0 <= s < 2 ->
  let h := ff_make_handle f w s in
  0 <= h < 2 ^ 32 /\ ff_get_family h = f /\ ff_get_weight h = w /\ ff_get_style h = s /\
  (ff_valid h = true <-> f <> 2 ^ 16 - 1).
Proof.
  intros Hf Hw Hs h. subst h. rewrite handle_sum by auto.
  assert (Hfam : ff_get_family (f * 2 ^ 16 + w * 2 + s) = f)
    by (unfold ff_get_family; rewrite Z.shiftr_div_pow2 by lia; lia).
  split; [lia|]. split; [exact Hfam|]. split; [|split].
  - unfold ff_get_weight. rewrite Z.shiftr_div_pow2 by lia. change 15 with (Z.ones 4).
    rewrite Z.land_ones by lia. lia.
  - unfold ff_get_style. change 1 with (Z.ones 1) at 1. rewrite Z.land_ones by lia. lia.
  - unfold ff_valid. rewrite Hfam. unfold family_valid, invalid_family.
    destruct (Z.eqb_spec f (2 ^ 16 - 1)); cbn; split; intros; try discriminate; auto; lia.
Qed.

Lemma ff_injective f w s f' w' s' :
  0 <= f < 2 ^ 16 -> 0 <= w < 16 -> 0 <= s < 2 -> 0 <= f' < 2 ^ 16 -> 0 <= w' < 16 -> 0 <= s' < 2 ->
  ff_make_handle f w s = ff_make_handle f' w' s' -> f = f' /\ w = w' /\ s = s'.
Proof.
  intros. rewrite !handle_sum in * by auto. lia.
Qed.
