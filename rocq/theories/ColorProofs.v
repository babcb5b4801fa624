From Verif Require Import Base BaseFacts FloatModel ColorModel PackingProofs.
Open Scope Z_scope.

(** Exhaustive check over a binary range, lifted to a universal statement. *)
Fixpoint sweep (k : nat) (lo : Z) (f : Z -> bool) : bool :=
  match k with
  | O => f lo
  | S k' => sweep k' lo f && sweep k' (lo + 2 ^ Z.of_nat k') f
  end.

Lemma sweep_ok k : forall lo f, sweep k lo f = true ->
  forall z, lo <= z < lo + 2 ^ Z.of_nat k -> f z = true.
Proof.
  induction k as [|k IH]; intros lo f H z Hz; cbn [sweep] in H.
  - change (2 ^ Z.of_nat 0) with 1 in Hz. replace z with lo by lia. exact H.
  - apply andb_true_iff in H. destruct H as [H1 H2].
    rewrite Nat2Z.inj_succ, Z.pow_succ_r in Hz by lia.
    destruct (Z.lt_ge_cases z (lo + 2 ^ Z.of_nat k)).
    + apply (IH lo f H1). lia.
    + apply (IH _ f H2). lia.
Qed.

Definition channel (z : Z) : f32 := f32_div (fz z) f32_255.

Definition byte_check (z : Z) : bool :=
  match channel_byte (channel z) with Ok v => v =? Z.land z 255 | _ => false end.
Definition unit_check (z : Z) : bool := f32_le f32_0 (channel z) && f32_le (channel z) f32_1.

Lemma byte_sweep : sweep 8 0 byte_check = true.
Proof. vm_compute. reflexivity. Qed.
Lemma unit_sweep : sweep 8 0 unit_check = true.
Proof. vm_compute. reflexivity. Qed.

Lemma channel_byte_ok z : 0 <= z < 2 ^ 8 -> channel_byte (channel z) = Ok (Z.land z 255).
Proof.
  intros H. pose proof (sweep_ok 8 0 byte_check byte_sweep z) as Hc.
  unfold byte_check in Hc. destruct (channel_byte (channel z)) as [v| |].
  - f_equal. apply Z.eqb_eq. apply Hc. lia.
  - discriminate Hc. lia.
  - discriminate Hc. lia.
Qed.

Lemma channel_unit z : 0 <= z < 2 ^ 8 -> f32_le f32_0 (channel z) = true /\ f32_le (channel z) f32_1 = true.
Proof.
  intros H. pose proof (sweep_ok 8 0 unit_check unit_sweep z) as Hc.
  unfold unit_check in Hc. apply andb_true_iff. apply Hc. lia.
Qed.

Lemma land255 z : Z.land z 255 = z mod 256.
Proof. change 255 with (Z.ones 8). now rewrite Z.land_ones. Qed.

Lemma land_byte z : 0 <= Z.land z 255 < 2 ^ 8.
Proof. rewrite land255. lia. Qed.

Lemma byte_idem z : Z.land (Z.land z 255) 255 = Z.land z 255.
Proof. rewrite <- Z.land_assoc. reflexivity. Qed.

Lemma channel_byte_land z : channel_byte (channel (Z.land z 255)) = Ok (Z.land z 255).
Proof. pose proof (land_byte z). rewrite channel_byte_ok by lia. now rewrite byte_idem. Qed.

Lemma pack4_eq b3 b2 b1 b0 : 0 <= b3 < 256 -> 0 <= b2 < 256 -> 0 <= b1 < 256 -> 0 <= b0 < 256 ->
  pack4 b3 b2 b1 b0 = b3 * 2 ^ 24 + b2 * 2 ^ 16 + b1 * 2 ^ 8 + b0.
Proof.
  intros. unfold pack4. rewrite !Z.shiftl_mul_pow2 by lia. rewrite <- !Z.lor_assoc.
  rewrite (lor_add_low b1 b0 8) by lia. rewrite (lor_add_low b2 _ 16) by lia.
  rewrite (lor_add_low b3 _ 24) by lia. lia.
Qed.

Lemma pack4_word w : 0 <= w < 2 ^ 32 ->
  pack4 (Z.land (Z.shiftr w 24) 255) (Z.land (Z.shiftr w 16) 255) (Z.land (Z.shiftr w 8) 255) (Z.land w 255) = w.
Proof.
  intros H. rewrite pack4_eq; rewrite ?land255, ?Z.shiftr_div_pow2 by lia; lia.
Qed.

Lemma argb_roundtrip w : 0 <= w < 2 ^ 32 -> to_argb (from_argb_uint w) = Ok w.
Proof.
  intros H. unfold to_argb, from_argb_uint, from_rgb. cbn [c_r c_g c_b c_a].
  fold (channel (Z.land w 255)) (channel (Z.land (Z.shiftr w 8) 255))
       (channel (Z.land (Z.shiftr w 16) 255)) (channel (Z.land (Z.shiftr w 24) 255)).
  rewrite !channel_byte_land. cbn [obind]. now rewrite pack4_word.
Qed.

Lemma rgba_roundtrip w : 0 <= w < 2 ^ 32 -> to_rgba (from_rgba_uint w) = Ok w.
Proof.
  intros H. unfold to_rgba, from_rgba_uint, from_rgb. cbn [c_r c_g c_b c_a].
  fold (channel (Z.land w 255)) (channel (Z.land (Z.shiftr w 8) 255))
       (channel (Z.land (Z.shiftr w 16) 255)) (channel (Z.land (Z.shiftr w 24) 255)).
  rewrite !channel_byte_land. cbn [obind]. now rewrite pack4_word.
Qed.

Lemma abgr_roundtrip w : 0 <= w < 2 ^ 24 -> to_abgr (from_abgr_uint w) = Ok w.
Proof.
  intros H. unfold to_abgr, from_abgr_uint, from_rgb. cbn [c_r c_g c_b c_a].
  fold (channel (Z.land w 255)) (channel (Z.land (Z.shiftr w 8) 255))
       (channel (Z.shiftr w 16)) (channel (Z.land (Z.shiftr w 24) 255)).
  rewrite !channel_byte_land. rewrite channel_byte_ok by (rewrite Z.shiftr_div_pow2 by lia; lia).
  cbn [obind]. rewrite pack4_word by lia. reflexivity.
Qed.

Lemma abgr_no_roundtrip : exists w, 0 <= w < 2 ^ 32 /\ to_abgr (from_abgr_uint w) <> Ok w.
Proof. exists 67043328. split; [lia|]. vm_compute. discriminate. Qed.

Definition color_in_unit (c : color) : Prop :=
  forall x, In x [c_r c; c_g c; c_b c; c_a c] -> f32_le f32_0 x = true /\ f32_le x f32_1 = true.

Lemma argb_unit w : color_in_unit (from_argb_uint w).
Proof.
  intros x Hx. unfold from_argb_uint, from_rgba_uint, from_rgb in Hx. cbn [c_r c_g c_b c_a In] in Hx. repeat (destruct Hx as [<-|Hx]; [apply channel_unit, land_byte|]). destruct Hx.
Qed.
Lemma rgba_unit w : color_in_unit (from_rgba_uint w).
Proof.
  intros x Hx. unfold from_argb_uint, from_rgba_uint, from_rgb in Hx. cbn [c_r c_g c_b c_a In] in Hx. repeat (destruct Hx as [<-|Hx]; [apply channel_unit, land_byte|]). destruct Hx.
Qed.
Lemma abgr_unit w : 0 <= w < 2 ^ 24 -> color_in_unit (from_abgr_uint w).
Proof.
  intros Hw x Hx. unfold from_abgr_uint, from_rgb in Hx. cbn [c_r c_g c_b c_a In] in Hx.
  destruct Hx as [<-|Hx]; [apply channel_unit; rewrite Z.shiftr_div_pow2 by lia; lia|].
  repeat (destruct Hx as [<-|Hx]; [apply channel_unit, land_byte|]). destruct Hx.
Qed.

Definition over_check (z : Z) : bool := if 256 <=? z then negb (f32_le (channel z) f32_1) else true.
Lemma over_sweep : sweep 16 0 over_check = true.
Proof. vm_compute. reflexivity. Qed.

Lemma abgr_not_unit w : 2 ^ 24 <= w < 2 ^ 32 -> f32_le (c_r (from_abgr_uint w)) f32_1 = false.
Proof.
  intros Hw. unfold from_abgr_uint, from_rgb. cbn [c_r]. fold (channel (Z.shiftr w 16)).
  pose proof (sweep_ok 16 0 over_check over_sweep (Z.shiftr w 16)) as Hc.
  unfold over_check in Hc. rewrite Z.shiftr_div_pow2 in * by lia.
  destruct (Z.leb_spec 256 (w / 2 ^ 16)); [|lia].
  apply negb_true_iff. apply Hc. lia.
Qed.

Lemma channels_in_unit w : 0 <= w < 2 ^ 32 ->
  (forall c, c = from_argb_uint w \/ c = from_rgba_uint w \/ (w < 2 ^ 24 /\ c = from_abgr_uint w) ->
   forall x, In x [c_r c; c_g c; c_b c; c_a c] -> f32_le f32_0 x = true /\ f32_le x f32_1 = true).
Proof.
  intros Hw c [->|[->|(Hlt & ->)]].
  - apply argb_unit.
  - apply rgba_unit.
  - apply abgr_unit. lia.
Qed.
