(** A colour divided by its opacity and packed into a byte. *)
From Coq Require Import ZArith Reals Lia Lra.
From Verif Require Import Base BaseFacts FloatModel FloatRealProofs ColorModel ColorProofs StyleProofs.
From Flocq Require Import Core.Core IEEE754.BinarySingleNaN.
From Flocq Require Import Relative.
Open Scope R_scope.

Definition u24 : R := bpow radix2 (-24).
Lemma rr_rel x : bpow radix2 (-126) <= Rabs x -> Rabs (rr x - x) <= u24 * Rabs x.
Proof.
  intros B. unfold rr. change fexp32 with (FLT_exp (-149) 24).
  pose proof (relative_error_N_FLT radix2 (-149) 24 eq_refl (fun x => negb (Z.even x)) x) as E.
  change (-149 + 24 - 1)%Z with (-126)%Z in E. specialize (E B).
  replace u24 with (/ 2 * bpow radix2 (- (24) + 1)); [exact E|]. unfold u24. pose proof (bpow_plus radix2 (-24) 1) as P. change (bpow radix2 1) with 2 in P. change (- (24) + 1)%Z with (-24 + 1)%Z. lra.
Qed.
Lemma u24_val : u24 = / 16777216.
Proof. unfold u24, bpow. apply f_equal. apply f_equal. reflexivity. Qed.
Lemma tiny : bpow radix2 (-126) <= / 1000000.
Proof. apply Rle_trans with (bpow radix2 (-20)); [apply bpow_le; lia|]. replace (bpow radix2 (-20)) with (/ 1048576) by (unfold bpow; apply f_equal, f_equal; reflexivity). lra. Qed.
Lemma rr_rel_pos x : / 1000000 <= x -> Rabs (rr x - x) <= u24 * x.
Proof. intros X. pose proof tiny. rewrite <- (Rabs_pos_eq x) at 3 by lra. apply rr_rel. rewrite Rabs_pos_eq; lra. Qed.
Lemma rr_abs x M : 0 <= x <= M -> / 1000000 <= x \/ x = 0 -> Rabs (rr x - x) <= u24 * M.
Proof.
  intros X [L|Z0].
  - eapply Rle_trans; [apply rr_rel_pos, L|]. rewrite u24_val. lra.
  - subst x. rewrite rr_0. rewrite Rminus_0_r, Rabs_R0, u24_val. lra.
Qed.
Lemma int_format z : (Z.abs z <= 2 ^ 24)%Z -> rr (IZR z) = IZR z.
Proof. intros B. apply rr_id. replace (IZR z) with (IZR z * bpow radix2 0) by (cbn; ring). apply format_fixed; lia. Qed.
Lemma fin_byte z : (0 <= z <= 255)%Z -> fin (f32_of_Z z) (IZR z).
Proof. intros B. rewrite <- (int_format z) by lia. apply fin_of_Z. lia. Qed.
Lemma big : 1000000 <= bpow radix2 100.
Proof. apply Rle_trans with (bpow radix2 20); [replace (bpow radix2 20) with 1048576 by (unfold bpow; apply f_equal; reflexivity); lra|apply bpow_le; lia]. Qed.

(** A byte [c] divided by an opacity [a] not below it, both in 255ths: the byte made of the
    quotient is at most a little more than one from the exact value. *)
Lemma divided_byte c a : (0 <= c <= a)%Z -> (0 < a <= 255)%Z ->
  exists n, channel_byte (f32_div (f32_div (f32_of_Z c) f32_255) (f32_div (f32_of_Z a) f32_255)) = Ok n /\
    (0 <= n <= 255 /\ 100 * Z.abs (n * a - 255 * c) <= 101 * a)%Z.
Proof.
  intros C A. pose proof big as BIG. pose proof u24_val as U.
  assert (CR : 0 <= IZR c <= IZR a) by (split; apply IZR_le; lia).
  assert (AR : 1 <= IZR a <= 255) by (split; apply IZR_le; lia).
  assert (F255 : fin f32_255 255) by (apply fin_byte; lia).
  set (X := IZR c / 255). set (Y := IZR a / 255).
  assert (XY : 0 <= X <= Y) by (unfold X, Y; lra). assert (Y0 : / 255 <= Y <= 1) by (unfold Y; lra).
  assert (FX : fin (f32_div (f32_of_Z c) f32_255) (rr X)) by (apply fin_div; [apply fin_byte; lia|exact F255|lra|rewrite Rabs_pos_eq; fold X; lra]).
  assert (FY : fin (f32_div (f32_of_Z a) f32_255) (rr Y)) by (apply fin_div; [apply fin_byte; lia|exact F255|lra|rewrite Rabs_pos_eq; fold Y; lra]).
  assert (X1 : X = 0 \/ / 255 <= X).
  { destruct (Z.eq_dec c 0) as [->|NZ]; [left; unfold X; lra|right]. unfold X. assert (1 <= IZR c) by (apply IZR_le; lia). lra. }
  assert (EX : Rabs (rr X - X) <= u24 * X) by (destruct X1 as [->|X1]; [rewrite rr_0, Rminus_0_r, Rabs_R0; lra|apply rr_rel_pos; lra]).
  assert (EY : Rabs (rr Y - Y) <= u24 * Y) by (apply rr_rel_pos; lra).
  apply Rabs_le_inv in EX, EY. rewrite U in EX, EY.
  assert (LE : rr X <= rr Y) by (apply rr_le; lra).
  set (x := rr X) in *. set (y := rr Y) in *.
  assert (y0 : / 256 <= y) by lra. assert (x0 : 0 <= x) by lra.
  set (q := x / y).
  assert (iy : 0 < / y) by (apply Rinv_0_lt_compat; lra).
  assert (Q1 : 0 <= q <= 1).
  { unfold q. split; [apply Rmult_le_pos; lra|]. apply (Rmult_le_reg_r y); [lra|]. unfold Rdiv. rewrite Rmult_assoc, Rinv_l by lra. lra. }
  assert (QX : q * y = x) by (unfold q, Rdiv; rewrite Rmult_assoc, Rinv_l by lra; ring).
  set (rho := X / Y). assert (RX : rho * Y = X) by (unfold rho, Rdiv; rewrite Rmult_assoc, Rinv_l by lra; ring).
  assert (RHO : 0 <= rho <= 1) by (split; [apply (Rmult_le_reg_r Y)|apply (Rmult_le_reg_r Y)]; lra).
  assert (QR : Rabs (q - rho) <= 4 * / 16777216).
  { apply Rabs_le. assert (D : (q - rho) * y = (x - X) + rho * (Y - y)) by (rewrite <- QX, <- RX; ring).
    assert (D1 : - (2 * / 16777216 * Y) <= (q - rho) * y <= 2 * / 16777216 * Y) by (rewrite D; nra).
    assert (YY : Y <= 2 * y) by lra.
    split; apply (Rmult_le_reg_r y); try lra; nra. }
  apply Rabs_le_inv in QR.
  assert (q1 : q = 0 \/ / 1000000 <= q).
  { destruct X1 as [E|E]; [left; unfold q, x; rewrite E, rr_0; unfold Rdiv; ring|right].
    assert (rho >= / 255). { apply Rle_ge. apply (Rmult_le_reg_r Y); [lra|]. rewrite RX. nra. } lra. }
  assert (FQ : fin (f32_div (f32_div (f32_of_Z c) f32_255) (f32_div (f32_of_Z a) f32_255)) (rr q)) by (apply fin_div; [exact FX|exact FY|lra|fold q; rewrite Rabs_pos_eq; lra]).
  assert (EQ : Rabs (rr q - q) <= u24 * 1) by (apply rr_abs; [lra|destruct q1; auto]). apply Rabs_le_inv in EQ. rewrite U in EQ.
  assert (Q2 : 0 <= rr q <= 1).
  { split; [rewrite <- rr_0; apply rr_le; lra|]. replace 1 with (rr 1) by (apply (int_format 1); lia). apply rr_le; lra. }
  set (v := rr (rr q * 255)).
  assert (FV : fin (f32_mul (f32_div (f32_div (f32_of_Z c) f32_255) (f32_div (f32_of_Z a) f32_255)) f32_255) v) by (apply fin_mul; [exact FQ|exact F255|rewrite Rabs_pos_eq; lra]).
  assert (V1 : 0 <= v <= 255).
  { split; [unfold v; rewrite <- rr_0; apply rr_le; lra|]. replace 255 with (rr 255) by (apply (int_format 255); lia). apply rr_le; lra. }
  assert (EV : Rabs (v - rr q * 255) <= u24 * 255).
  { apply rr_abs; [lra|]. destruct q1 as [E|E]; [right; rewrite E, rr_0; ring|left; lra]. }
  apply Rabs_le_inv in EV. rewrite U in EV.
  assert (DIST : - / 1000 <= v - 255 * rho <= / 1000) by lra.
  pose proof (Zfloor_lb v) as FL. pose proof (Zfloor_ub v) as FU.
  assert (N0 : (0 <= Zfloor v <= 255)%Z).
  { split; [apply Zfloor_lub; lra|]. apply le_IZR. lra. }
  exists (Zfloor v). unfold channel_byte, f32_to_u32. rewrite (trunc_fin _ _ FV), (Ztrunc_floor v) by lra.
  replace ((0 <=? Zfloor v) && (Zfloor v <? 2 ^ 32))%Z with true by (symmetry; apply andb_true_iff; rewrite Z.leb_le, Z.ltb_lt; lia).
  cbn [obind]. rewrite land255, Z.mod_small by lia. split; [reflexivity|]. split; [exact N0|].
  apply le_IZR. rewrite !mult_IZR, abs_IZR, minus_IZR, !mult_IZR.
  assert (AX : IZR c = rho * IZR a) by (unfold X, Y in RX; lra). rewrite AX.
  replace (IZR (Zfloor v) * IZR a - 255 * (rho * IZR a)) with ((IZR (Zfloor v) - 255 * rho) * IZR a) by ring.
  rewrite Rabs_mult, (Rabs_pos_eq (IZR a)) by lra.
  assert (Rabs (IZR (Zfloor v) - 255 * rho) <= 101 / 100) by (apply Rabs_le; lra). nra.
Qed.
