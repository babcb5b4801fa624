(** Proofs about the imitation of weights and styles. *)
From Coq Require Import ZArith Reals Lia Lra.
From Verif Require Import Base BaseFacts FloatModel StyleSpec StyleModel FloatRealProofs.
From Flocq Require Import Core.Core IEEE754.BinarySingleNaN.
Open Scope Z_scope.

Lemma mul_fix_one a : mul_fix a 65536 = a.
Proof.
  unfold mul_fix. replace (Z.abs (a * 65536)) with (Z.abs a * 65536) by lia. replace ((Z.abs a * 65536 + 32768) / 65536) with (Z.abs a) by (apply (Z.div_unique _ _ _ 32768); lia).
  destruct (Z.lt_total a 0) as [H|[->|H]]; [|reflexivity|]; [rewrite Z.sgn_neg by lia|rewrite Z.sgn_pos by lia]; lia.
Qed.
Lemma mul_fix_zero a : mul_fix a 0 = 0.
Proof. unfold mul_fix. now rewrite Z.mul_0_r. Qed.
Lemma mul_fix_opp a b : mul_fix a (- b) = - mul_fix a b.
Proof. unfold mul_fix. rewrite Z.mul_opp_r, Z.sgn_opp, Z.abs_opp. lia. Qed.
Lemma mul_fix_near a b : 2 * Z.abs (65536 * mul_fix a b - b * a) <= 65536.
Proof.
  unfold mul_fix. rewrite (Z.mul_comm b a). set (p := a * b). pose proof (Z.div_mod (Z.abs p + 32768) 65536 ltac:(lia)). pose proof (Z.mod_pos_bound (Z.abs p + 32768) 65536 ltac:(lia)).
  destruct (Z.lt_total p 0) as [H1|[->|H1]]; [rewrite Z.sgn_neg by lia|cbn; lia|rewrite Z.sgn_pos by lia]; lia.
Qed.
Lemma transform_lean k p : transform 65536 k 0 65536 p = (fst p + mul_fix (snd p) k, snd p).
Proof. unfold transform. now rewrite mul_fix_zero, !mul_fix_one, Z.add_0_l. Qed.
Lemma italic_leans o dst : Forall2 (leans (if dst =? 1 then SHEAR else - SHEAR)) o (apply_italic o dst).
Proof.
  unfold apply_italic. induction o as [|p o IH]; cbn [map]; constructor; [|exact IH]. rewrite transform_lean. split; [reflexivity|]. cbn [fst snd].
  replace (fst p + mul_fix (snd p) (if dst =? 1 then SHEAR else - SHEAR) - fst p) with (mul_fix (snd p) (if dst =? 1 then SHEAR else - SHEAR)) by lia. apply mul_fix_near.
Qed.
Lemma italic_back o : apply_italic (apply_italic o 1) 0 = o.
Proof.
  unfold apply_italic. rewrite map_map. rewrite <- (map_id o) at 2. apply map_ext. intros p. rewrite !transform_lean. change (0 =? 1) with false. change (1 =? 1) with true. cbv iota. cbn [fst snd].
  rewrite mul_fix_opp. destruct p. cbn. f_equal. lia.
Qed.

(** ** Weights *)
Lemma trunc_fin x a : fin x a -> f32_trunc x = Some (Ztrunc a).
Proof.
  intros (V & F & E). destruct x as [s|s| |s m e]; try discriminate F.
  - cbn in E. subst a. cbn. f_equal. symmetry. apply (Ztrunc_IZR 0).
  - cbn [f32_trunc]. f_equal. unfold SF2R, F2R in E. cbn [Fnum Fexp] in E.
    assert (P : forall n, 0 <= n -> Ztrunc (IZR n * bpow radix2 e) = if 0 <=? e then n * 2 ^ e else n / 2 ^ (- e)).
    { intros n Hn. destruct (Z.leb_spec 0 e) as [He|He].
      - rewrite <- (IZR_Zpower radix2) by exact He. rewrite <- mult_IZR, Ztrunc_IZR. reflexivity.
      - assert (Bp := bpow_gt_0 radix2 e). rewrite Ztrunc_floor by (apply Rmult_le_pos; [apply IZR_le; exact Hn|lra]).
        replace (bpow radix2 e) with (/ IZR (2 ^ (- e)))%R; [apply Zfloor_div; assert (0 < 2 ^ - e) by (apply Z.pow_pos_nonneg; lia); lia|].
        rewrite (IZR_Zpower radix2) by lia. rewrite <- bpow_opp. f_equal. lia. }
    destruct s; cbn [cond_Zopp] in E.
    + rewrite opp_IZR in E. rewrite Ropp_mult_distr_l_reverse in E. rewrite <- E, Ztrunc_opp, P by lia. reflexivity.
    + rewrite <- E, P by lia. reflexivity.
Qed.
Definition kth (w : Z) : f32 := nth (Z.to_nat w) BOLD_SCALE f32_0.
Definition f32_eighth : f32 := f32_ratio 1 8.
Definition weight_check (w w' : Z) : bool :=
  valid_binary 24 128 (kth w) && is_finite_SF (kth w) && (if w <=? w' then f32_le (kth w) (kth w') else true) && f32_le (kth w) f32_eighth && f32_le (SFopp f32_eighth) (kth w).
Lemma weights_checked : forallb (fun w => forallb (weight_check w) [0; 1; 2; 3; 4; 5; 6; 7; 8]) [0; 1; 2; 3; 4; 5; 6; 7; 8] = true.
Proof. vm_compute. reflexivity. Qed.
Lemma weight_ok w w' : 0 <= w <= 8 -> 0 <= w' <= 8 -> weight_check w w' = true.
Proof.
  intros H H'. pose proof weights_checked as C. rewrite forallb_forall in C.
  assert (I : forall v, 0 <= v <= 8 -> In v [0; 1; 2; 3; 4; 5; 6; 7; 8]) by (intros v Hv; cbn; lia).
  specialize (C w (I w H)). rewrite forallb_forall in C. exact (C w' (I w' H')).
Qed.
Lemma fin_eighth : fin f32_eighth (/ 8).
Proof. split; [reflexivity|]. split; [reflexivity|]. unfold SF2R. change f32_eighth with (S754_finite false 8388608 (-26)). unfold F2R. cbn [Fnum Fexp cond_Zopp]. change (bpow radix2 (-26)) with (/ 67108864)%R. lra. Qed.
Lemma fin_neg_eighth : fin (SFopp f32_eighth) (- / 8).
Proof.
  split; [reflexivity|]. split; [reflexivity|]. change (SFopp f32_eighth) with (S754_finite true 8388608 (-26)). unfold SF2R, F2R. cbn [Fnum Fexp].
  change (bpow radix2 (-26)) with (/ 67108864)%R. assert (O : IZR (cond_Zopp true 8388608) = (- IZR 8388608)%R) by exact (opp_IZR 8388608). rewrite O. lra.
Qed.
Definition kr (w : Z) : R := SF2R radix2 (kth w).
Lemma kr_ok w w' : 0 <= w <= 8 -> 0 <= w' <= 8 -> fin (kth w) (kr w) /\ (- / 8 <= kr w <= / 8)%R /\ (w <= w' -> (kr w <= kr w')%R).
Proof.
  intros H H'. assert (A := weight_ok w w' H H'). assert (B := weight_ok w' w' H' H'). unfold weight_check in A, B. rewrite !andb_true_iff in A, B. destruct A as ((((A1 & A2) & A3) & A4) & A5). destruct B as ((((B1 & B2) & _) & _) & _).
  assert (F : fin (kth w) (kr w)) by (split; [exact A1|split; [exact A2|reflexivity]]). assert (F' : fin (kth w') (kr w')) by (split; [exact B1|split; [exact B2|reflexivity]]).
  split; [exact F|]. split; [split; [apply (proj1 (fin_le _ _ _ _ fin_neg_eighth F)), A5|apply (proj1 (fin_le _ _ _ _ F fin_eighth)), A4]|].
  intros L. destruct (Z.leb_spec w w'); [|lia]. apply (proj1 (fin_le _ _ _ _ F F')), A3.
Qed.
Lemma kr_3 : kr 3 = 0%R. Proof. unfold kr. reflexivity. Qed.
Lemma fin_em e : 0 <= e <= 2 ^ 24 -> fin (f32_of_Z e) (IZR e).
Proof.
  intros H. assert (F := fin_of_Z e ltac:(lia)). rewrite rr_id in F; [exact F|]. replace (IZR e) with (IZR e * bpow radix2 0)%R by (change (bpow radix2 0) with 1%R; change (bpow radix2 (-1)) with (/ 2)%R; lra). apply format_fixed; lia.
Qed.
Lemma rr_int z : Z.abs z <= 2 ^ 24 -> rr (IZR z) = IZR z.
Proof. intros H. apply rr_id. replace (IZR z) with (IZR z * bpow radix2 0)%R by (change (bpow radix2 0) with 1%R; change (bpow radix2 (-1)) with (/ 2)%R; lra). apply format_fixed; lia. Qed.
Lemma rr_half z : Z.abs z <= 2 ^ 24 -> rr (IZR z / 2) = (IZR z / 2)%R.
Proof. intros H. apply rr_id. replace (IZR z / 2)%R with (IZR z * bpow radix2 (-1))%R by (change (bpow radix2 0) with 1%R; change (bpow radix2 (-1)) with (/ 2)%R; lra). apply format_fixed; lia. Qed.
Lemma small_100 a : (Rabs a <= 2 ^ 30)%R -> (Rabs a <= bpow radix2 100)%R.
Proof. intros H. apply Rle_trans with (1 := H). change (bpow radix2 100) with (IZR (2 ^ 100)). rewrite (pow_IZR 2 30). apply IZR_le. apply Z.pow_le_mono_r; lia. Qed.
(** The extra width as a real number. *)
Definition wide (w e : Z) : R := rr (IZR e * kr w).
Definition tall (w e : Z) : R := rr (wide w e * SF2R radix2 BOLD_SCALE_Y).
Lemma em_range w e : 0 <= w <= 8 -> 0 <= e <= 2 ^ 24 -> (- IZR (2 ^ 21) <= IZR e * kr w <= IZR (2 ^ 21))%R.
Proof.
  intros W E. destruct (kr_ok w w W W) as (_ & B & _). assert (E1 : (0 <= IZR e)%R) by (apply IZR_le; lia). assert (E2 : (IZR e <= IZR (2 ^ 24))%R) by (apply IZR_le; lia).
  change (2 ^ 24) with 16777216 in E2. change (2 ^ 21) with 2097152. nra.
Qed.
Lemma wide_fin w e : 0 <= w <= 8 -> 0 <= e <= 2 ^ 24 -> fin (f32_mul (f32_of_Z e) (kth w)) (wide w e) /\ (- IZR (2 ^ 21) <= wide w e <= IZR (2 ^ 21))%R.
Proof.
  intros W E. pose proof (em_range w e W E) as R. destruct (kr_ok w w W W) as (F & _). split.
  - apply fin_mul; [apply fin_em, E|exact F|]. apply small_100. apply Rabs_le. change (2 ^ 21) with 2097152 in R. lra.
  - unfold wide. split; [apply Rle_trans with (rr (IZR (- 2 ^ 21))); [rewrite rr_int by lia; rewrite opp_IZR; lra|apply rr_le; rewrite opp_IZR; lra]|].
    apply Rle_trans with (rr (IZR (2 ^ 21))); [apply rr_le; lra|]. rewrite rr_int by lia. lra.
Qed.
Lemma fin_scale_y : fin BOLD_SCALE_Y (SF2R radix2 BOLD_SCALE_Y) /\ (0 <= SF2R radix2 BOLD_SCALE_Y <= 1)%R.
Proof. split; [split; [reflexivity|split; reflexivity]|]. unfold SF2R, BOLD_SCALE_Y, F2R. cbn [Fnum Fexp cond_Zopp]. change (bpow radix2 (-25)) with (/ 33554432)%R. lra. Qed.
Lemma tall_fin w e : 0 <= w <= 8 -> 0 <= e <= 2 ^ 24 -> fin (f32_mul (f32_mul (f32_of_Z e) (kth w)) BOLD_SCALE_Y) (tall w e) /\ (- IZR (2 ^ 21) <= tall w e <= IZR (2 ^ 21))%R.
Proof.
  intros W E. destruct (wide_fin w e W E) as [F R]. destruct fin_scale_y as [G S]. assert (B : (- IZR (2 ^ 21) <= wide w e * SF2R radix2 BOLD_SCALE_Y <= IZR (2 ^ 21))%R) by (change (2 ^ 21) with 2097152 in *; nra). split.
  - apply fin_mul; [exact F|exact G|]. apply small_100. apply Rabs_le. change (2 ^ 21) with 2097152 in B. lra.
  - unfold tall. split; [apply Rle_trans with (rr (IZR (- 2 ^ 21))); [rewrite rr_int by lia; rewrite opp_IZR; lra|apply rr_le; rewrite opp_IZR; lra]|].
    apply Rle_trans with (rr (IZR (2 ^ 21))); [apply rr_le; lra|]. rewrite rr_int by lia. lra.
Qed.
Lemma trunc_range a n : (- IZR n <= a <= IZR n)%R -> - n <= Ztrunc a <= n.
Proof. intros [A B]. rewrite <- opp_IZR in A. apply Ztrunc_le in A. apply Ztrunc_le in B. rewrite Ztrunc_IZR in A, B. lia. Qed.
Lemma to_long_fin x a n : n < 2 ^ 62 -> fin x a -> (- IZR n <= a <= IZR n)%R -> f32_to_long x = Ok (Ztrunc a).
Proof. intros N F R. unfold f32_to_long. rewrite (trunc_fin x a F). apply trunc_range in R. destruct ((- 2 ^ 63 <=? Ztrunc a) && (Ztrunc a <? 2 ^ 63)) eqn:C; [reflexivity|lia]. Qed.

(** How much wider and taller the strokes get. *)
Definition wider (w e : Z) : Z := Ztrunc (wide w e).
Definition taller (w e : Z) : Z := Ztrunc (tall w e).
Lemma wide_le w w' e : 0 <= w <= w' -> w' <= 8 -> 0 <= e <= 2 ^ 24 -> (wide w e <= wide w' e)%R.
Proof. intros W W' E. destruct (kr_ok w w' ltac:(lia) ltac:(lia)) as (_ & _ & L). specialize (L ltac:(lia)). apply rr_le. assert (E1 : (0 <= IZR e)%R) by (apply IZR_le; lia). nra. Qed.
Lemma heavier_ok w w' e : 0 <= w <= w' -> w' <= 8 -> 0 <= e <= 2 ^ 24 -> wider w e <= wider w' e /\ taller w e <= taller w' e.
Proof.
  intros W W' E. pose proof (wide_le w w' e W W' E) as L. split; [apply Ztrunc_le, L|]. apply Ztrunc_le. apply rr_le. destruct fin_scale_y as [_ S]. nra.
Qed.
Lemma regular_ok e : 0 <= e <= 2 ^ 24 -> wider 3 e = 0 /\ taller 3 e = 0.
Proof.
  intros E. assert (Z0 : wide 3 e = 0%R) by (unfold wide; rewrite kr_3, Rmult_0_r; apply rr_0). unfold wider, taller, tall. rewrite Z0, Rmult_0_l, rr_0. split; apply (Ztrunc_IZR 0).
Qed.
Lemma eighth_ok w e : 0 <= w <= 8 -> 0 <= e <= 2 ^ 24 -> 8 * Z.abs (wider w e) <= e + 7.
Proof.
  intros W E. destruct (kr_ok w w W W) as (_ & B & _). assert (E1 : (0 <= IZR e)%R) by (apply IZR_le; lia).
  assert (Q : Z.abs (wider w e) <= (e + 7) / 8).
  { set (q := (e + 7) / 8). assert (Hq : e <= 8 * q /\ 8 * q <= e + 7) by (subst q; pose proof (Z.div_mod (e + 7) 8 ltac:(lia)); pose proof (Z.mod_pos_bound (e + 7) 8 ltac:(lia)); lia).
    assert (E3 : (IZR e <= 8 * IZR q)%R) by (rewrite <- mult_IZR; apply IZR_le; lia).
    assert (T : - q <= wider w e <= q); [|lia]. apply trunc_range. unfold wide. split.
    - apply Rle_trans with (rr (IZR (- q))); [rewrite rr_int by lia; rewrite opp_IZR; lra|apply rr_le; rewrite opp_IZR; nra].
    - apply Rle_trans with (rr (IZR q)); [apply rr_le; nra|rewrite rr_int by lia; lra]. }
  pose proof (Z.div_mod (e + 7) 8 ltac:(lia)). pose proof (Z.mod_pos_bound (e + 7) 8 ltac:(lia)). lia.
Qed.
Definition centre (w e : Z) : Z := Ztrunc (rr (wide w e / -2)).
Lemma fin_m2 : fin (f32_of_Z (-2)) (-2).
Proof. assert (F := fin_of_Z (-2) ltac:(cbn; lia)). rewrite rr_int in F by (cbn; lia). exact F. Qed.
Lemma centre_ok w e : 0 <= w <= 8 -> 0 <= e <= 2 ^ 24 -> f32_to_long (f32_div (f32_mul (f32_of_Z e) (kth w)) (f32_of_Z (-2))) = Ok (centre w e) /\
  Z.abs (2 * centre w e + wider w e) <= 1 /\ Z.abs (centre w e) < 2 ^ 31.
Proof.
  intros W E. destruct (wide_fin w e W E) as [F R].
  assert (B : (- IZR (2 ^ 21) <= wide w e / -2 <= IZR (2 ^ 21))%R) by (change (2 ^ 21) with 2097152 in *; lra).
  assert (B2 : (- IZR (2 ^ 21) <= rr (wide w e / -2) <= IZR (2 ^ 21))%R).
  { split; [apply Rle_trans with (rr (IZR (- 2 ^ 21))); [rewrite rr_int by lia; rewrite opp_IZR; lra|apply rr_le; rewrite opp_IZR; lra]|].
    apply Rle_trans with (rr (IZR (2 ^ 21))); [apply rr_le; lra|]. rewrite rr_int by lia. lra. }
  split; [|split].
  - apply (to_long_fin _ _ (2 ^ 21)); [lia| |exact B2]. apply fin_div; [exact F|exact fin_m2|lra|]. apply small_100. apply Rabs_le. change (2 ^ 21) with 2097152 in B. lra.
  - unfold centre, wider. set (a := wide w e) in *. pose proof (trunc_range a _ R) as T.
    assert (Sym : forall a, - 2 ^ 21 <= Ztrunc a <= 2 ^ 21 -> (0 <= a)%R -> Z.abs (2 * Ztrunc (rr (a / -2)) + Ztrunc a) <= 1).
    { clear. intros a T P. assert (O : (a / -2 = - (a / 2))%R) by lra. rewrite O. unfold rr. rewrite round_NE_opp. fold (rr (a / 2)). rewrite Ztrunc_opp.
      rewrite (Ztrunc_floor a P) in *. pose proof (Zfloor_lb a) as L. pose proof (Zfloor_ub a) as U. set (x := Zfloor a) in *.
      assert (X0 : 0 <= x) by (apply Zfloor_lub; exact P).
      assert (L2 : (IZR x / 2 <= rr (a / 2))%R) by (apply Rle_trans with (rr (IZR x / 2)); [rewrite rr_half by lia; lra|apply rr_le; lra]).
      assert (U2 : (rr (a / 2) <= IZR (x + 1) / 2)%R) by (apply Rle_trans with (rr (IZR (x + 1) / 2)); [apply rr_le; rewrite plus_IZR; lra|rewrite rr_half by lia; lra]).
      assert (X1 : (0 <= IZR x)%R) by (apply IZR_le; exact X0). rewrite Ztrunc_floor by lra.
      assert (N1 : x / 2 <= Zfloor (rr (a / 2))).
      { apply Zfloor_lub. apply Rle_trans with (2 := L2). pose proof (Z.div_mod x 2 ltac:(lia)). pose proof (Z.mod_pos_bound x 2 ltac:(lia)).
        assert (IZR (2 * (x / 2)) <= IZR x)%R by (apply IZR_le; lia). rewrite mult_IZR in *. lra. }
      assert (N2 : 2 * Zfloor (rr (a / 2)) <= x + 1).
      { apply le_IZR. rewrite mult_IZR. pose proof (Zfloor_lb (rr (a / 2))). lra. }
      pose proof (Z.div_mod x 2 ltac:(lia)). pose proof (Z.mod_pos_bound x 2 ltac:(lia)). lia. }
    destruct (Rle_or_lt 0 a) as [P|N]; [apply Sym; assumption|].
    specialize (Sym (- a)%R). rewrite Ztrunc_opp in Sym. replace (- a / -2)%R with (- (a / -2))%R in Sym by lra. unfold rr in *. rewrite round_NE_opp, Ztrunc_opp in Sym.
    assert (- 2 ^ 21 <= - Ztrunc a <= 2 ^ 21) by lia. specialize (Sym H ltac:(lra)). lia.
  - apply trunc_range in B2. unfold centre. lia.
Qed.
Lemma extra_ok w ex ey : 0 <= w <= 8 -> extra w ex ey = Ok (f32_mul (f32_of_Z ex) (kth w), f32_mul (f32_mul (f32_of_Z ey) (kth w)) BOLD_SCALE_Y).
Proof.
  intros W. unfold extra, zget. destruct (Z.ltb_spec w 0); [lia|]. unfold kth.
  destruct (nth_error BOLD_SCALE (Z.to_nat w)) as [k|] eqn:E.
  - unfold vget. rewrite E. cbn [obind]. now rewrite (nth_error_nth _ _ f32_0 E).
  - apply nth_error_None in E. cbn in E. lia.
Qed.
Section bold.
  Variable embolden : points -> Z -> Z -> points.
  Lemma bold_ok fc s w : 0 <= w <= 8 -> 0 <= mul_fix (fc_upem fc) (fc_x_scale fc) <= 2 ^ 24 -> 0 <= mul_fix (fc_upem fc) (fc_y_scale fc) <= 2 ^ 24 ->
    apply_bold embolden fc s w =
      let x := wider w (mul_fix (fc_upem fc) (fc_x_scale fc)) in
      let y := taller w (mul_fix (fc_upem fc) (fc_y_scale fc)) in
      let s1 := {| ol_slot := embolden (ol_slot s) x y; ol_own := ol_own s |} in
      Ok (if fc_fixed fc then update s1 (translate (current s1) (centre w (mul_fix (fc_upem fc) (fc_x_scale fc)))) else s1).
  Proof.
    intros W EX EY. unfold apply_bold. rewrite extra_ok by exact W. cbn [obind].
    destruct (wide_fin w _ W EX) as [F R]. destruct (tall_fin w _ W EY) as [G Q]. rewrite (to_long_fin _ _ (2 ^ 21) ltac:(lia) F R). cbn [obind].
    rewrite (to_long_fin _ _ (2 ^ 21) ltac:(lia) G Q). cbn [obind]. cbv zeta. fold (wider w (mul_fix (fc_upem fc) (fc_x_scale fc))). fold (taller w (mul_fix (fc_upem fc) (fc_y_scale fc))).
    destruct (fc_fixed fc); [|reflexivity]. destruct (centre_ok w _ W EX) as (C1 & _ & C2). rewrite C1. cbn [obind].
    destruct ((- 2 ^ 31 <=? _) && _) eqn:C; [reflexivity|lia].
  Qed.
End bold.
