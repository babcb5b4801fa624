(** Every value of the field can be stored. *)
From Coq Require Import ZArith Reals Lia Lra.
From Verif Require Import Base FloatModel ColorModel MsdfSpec.
From Verif Require Import FloatRealProofs.
From Flocq Require Import Core.Core IEEE754.BinarySingleNaN.
Open Scope Z_scope.

Lemma trunc_small x r : fin x r -> (0 <= r <= 255)%R -> exists v, f32_trunc x = Some v /\ 0 <= v <= 255.
Proof.
  intros (V & F & E) B. destruct x as [s|s| |s m e]; try discriminate F; [exists 0; split; [reflexivity|lia]|].
  cbn [f32_trunc]. unfold SF2R, F2R in E. cbn [Fnum Fexp] in E. assert (Bp := bpow_gt_0 radix2 e).
  assert (P : (0 < IZR (Zpos m))%R) by (apply IZR_lt; lia).
  destruct s.
  - exfalso. assert (N : (IZR (cond_Zopp true (Zpos m)) < 0)%R) by (apply IZR_lt; cbn; lia). nra.
  - cbn [cond_Zopp] in E. eexists. split; [reflexivity|]. destruct (Z.leb_spec 0 e) as [He|He].
    + rewrite <- (IZR_Zpower radix2) in E by exact He. rewrite <- mult_IZR in E. subst r. destruct B as [B1 B2]. apply le_IZR in B1. apply le_IZR in B2. change (radix_val radix2) with 2 in *. split; lia.
    + split; [apply Z.div_pos; [lia|apply Z.pow_pos_nonneg; lia]|]. apply Z.lt_succ_r. apply Z.div_lt_upper_bound; [apply Z.pow_pos_nonneg; lia|].
      assert (Q : (IZR (Zpos m) <= 255 * bpow radix2 (- e))%R).
      { rewrite bpow_opp. apply (Rmult_le_reg_r (bpow radix2 e)); [exact Bp|]. rewrite E. rewrite Rmult_assoc, Rinv_l by lra. lra. }
      rewrite <- (IZR_Zpower radix2) in Q by lia. rewrite <- mult_IZR in Q. apply le_IZR in Q. change (radix_val radix2) with 2 in Q. assert (0 < 2 ^ - e) by (apply Z.pow_pos_nonneg; lia). lia.
Qed.
Lemma fin_1 : fin f32_1 1.
Proof. assert (H := fin_of_Z 1 ltac:(cbn; lia)). unfold f32_1. rewrite rr_id in H; [exact H|]. replace (IZR 1) with (IZR 1 * bpow radix2 0)%R by (cbn; lra). apply format_fixed; lia. Qed.
Lemma fin_0 : fin f32_0 0.
Proof. assert (H := fin_of_Z 0 ltac:(cbn; lia)). unfold f32_0. rewrite rr_0 in H. exact H. Qed.
Lemma fin_255 : fin f32_255 255.
Proof. assert (H := fin_of_Z 255 ltac:(cbn; lia)). unfold f32_255. rewrite rr_id in H; [exact H|]. replace (IZR 255) with (IZR 255 * bpow radix2 0)%R by (cbn; lra). apply format_fixed; lia. Qed.
Lemma fin_compare x y a b : fin x a -> fin y b -> SFcompare x y = Some (Rcompare a b).
Proof.
  intros X Y. destruct (fin_bf _ _ X) as (bx & <- & FX & <-). destruct (fin_bf _ _ Y) as (c & <- & FY & <-).
  exact (Bcompare_correct 24 128 bx c FX FY).
Qed.
Lemma clamped_unit v : number v -> exists r, fin (clamped v) r /\ (0 <= r <= 1)%R.
Proof.
  intros [V N]. destruct (is_finite_SF v) eqn:F.
  - assert (X : fin v (SF2R radix2 v)) by (split; [exact V|split; [exact F|reflexivity]]). unfold clamped.
    rewrite (fin_compare _ _ _ _ X fin_0), (fin_compare _ _ _ _ X fin_1).
    destruct (Rcompare_spec (SF2R radix2 v) 0); [exists 0%R; split; [exact fin_0|lra]| |];
      destruct (Rcompare_spec (SF2R radix2 v) 1); try (exists 1%R; split; [exact fin_1|lra]); exists (SF2R radix2 v); (split; [exact X|lra]).
  - destruct v as [s|s| |s m e]; try discriminate F; [|congruence]. destruct s; [exists 0%R; split; [exact fin_0|lra]|exists 1%R; split; [exact fin_1|lra]].
Qed.
Lemma channel_unit_ok x r : fin x r -> (0 <= r <= 1)%R -> exists b, channel_byte x = Ok b.
Proof.
  intros X B. assert (M : fin (f32_mul x f32_255) (rr (r * 255))).
  { apply fin_mul; [exact X|exact fin_255|]. rewrite Rabs_pos_eq by lra. apply Rle_trans with 255%R; [lra|]. change (bpow radix2 100) with (IZR (2 ^ 100)). apply IZR_le. lia. }
  assert (B2 : (0 <= rr (r * 255) <= 255)%R).
  { split; [apply Rle_trans with (rr 0); [rewrite rr_0; lra|apply rr_le; lra]|]. apply Rle_trans with (rr 255); [apply rr_le; lra|]. rewrite (fin_rr _ _ fin_255). lra. }
  destruct (trunc_small _ _ M B2) as (v & E & Bv). unfold channel_byte, f32_to_u32. rewrite E.
  destruct ((0 <=? v) && (v <? 2 ^ 32)) eqn:C; [cbn [obind]; eauto|lia].
Qed.
Lemma stored_ok r g b : number r -> number g -> number b -> exists c, stored (r, g, b) = Ok c.
Proof.
  intros R G B. destruct (clamped_unit r R) as (x & X1 & X2). destruct (clamped_unit g G) as (y & Y1 & Y2). destruct (clamped_unit b B) as (z & Z1 & Z2).
  unfold stored, to_argb. cbn [c_r c_g c_b c_a]. destruct (channel_unit_ok _ _ X1 X2) as (br & ->). destruct (channel_unit_ok _ _ Y1 Y2) as (bg & ->). destruct (channel_unit_ok _ _ Z1 Z2) as (bb & ->).
  destruct (channel_unit_ok _ _ fin_1 ltac:(lra)) as (ba & ->). cbn [obind]. eauto.
Qed.
