(** Proofs about selection boxes and glyph places in single precision. *)
From Coq Require Import ZArith QArith Qround Qreals Reals Lia Lra.
From Coq Require Lqa.
From Verif Require Import Base BaseFacts FloatModel BinarySearchModel LayoutModel LayoutSpec LayoutProofs LayoutGeomProofs LayoutCaretProofs LayoutTableProofs
  DrawSpec DrawProofs ScreenSpec ScreenProofs FloatLayoutModel FloatLayoutSpec FloatRealProofs FloatLayoutProofs FloatSelectModel FloatSelectSpec.
From Flocq Require Import Core.Core IEEE754.BinarySingleNaN.
Open Scope Z_scope.

(** * Numbers on the grid of 128ths *)
Definition G (B : Z) (f : f32) (q : Q) : Prop := exists z, fin f (IZR z / 128) /\ Q2R q = (IZR z / 128)%R /\ Z.abs z <= B.

Lemma G_exactly B f q : G B f q -> exactly f q.
Proof. intros (z & F & E & _). apply exactly_fin. rewrite E. exact F. Qed.
Lemma G_fin B f q : G B f q -> fin f (Q2R q).
Proof. intros (z & F & E & _). rewrite E. exact F. Qed.
Lemma G_eq B f q r : (q == r)%Q -> G B f q -> G B f r.
Proof. intros Q (z & F & E & H). exists z. rewrite <- (Qeq_eqR _ _ Q). auto. Qed.
Lemma G_le A B f q : A <= B -> G A f q -> G B f q.
Proof. intros L (z & F & E & H). exists z. repeat split; try apply F; [exact E|lia]. Qed.
Lemma G_abs B f q : G B f q -> (Rabs (Q2R q) <= IZR B / 128)%R.
Proof.
  intros (z & F & E & H). rewrite E. apply IZR_bound in H. unfold Rdiv. rewrite Rabs_mult, (Rabs_pos_eq (/ 128)) by lra. lra.
Qed.
Lemma G_bound A B f q : G A f q -> (Rabs (Q2R q) <= IZR B / 128)%R -> G B f q.
Proof.
  intros (z & F & E & H) L. exists z. split; [exact F|]. split; [exact E|]. rewrite E in L. unfold Rdiv in L. rewrite Rabs_mult, (Rabs_pos_eq (/ 128)) in L by lra.
  apply le_IZR. rewrite abs_IZR. lra.
Qed.
Lemma z128 z : Z.abs z <= 2 ^ 24 -> (Rabs (IZR z / 128) <= bpow radix2 100)%R.
Proof. intros H. apply small_100. apply z64 in H. unfold Rdiv in *. rewrite Rabs_mult, (Rabs_pos_eq (/ 64)) in H by lra. rewrite Rabs_mult, (Rabs_pos_eq (/ 128)) by lra. pose proof (Rabs_pos (IZR z)). lra. Qed.
Lemma G_add A B f g q r : G A f q -> G B g r -> A + B <= 2 ^ 24 -> G (A + B) (f32_add f g) (q + r)%Q.
Proof.
  intros (a & FA & EA & HA) (b & FB & EB & HB) L. exists (a + b). assert (D : (IZR a / 128 + IZR b / 128)%R = (IZR (a + b) / 128)%R) by (rewrite plus_IZR; field).
  split; [|split; [rewrite Q2R_plus, EA, EB; exact D|lia]]. rewrite <- (fmt128 (a + b)) by lia. rewrite <- D. apply fin_add; try assumption. rewrite D. apply z128. lia.
Qed.
Lemma G_sub A B f g q r : G A f q -> G B g r -> A + B <= 2 ^ 24 -> G (A + B) (f32_sub f g) (q - r)%Q.
Proof.
  intros (a & FA & EA & HA) (b & FB & EB & HB) L. exists (a - b). assert (D : (IZR a / 128 - IZR b / 128)%R = (IZR (a - b) / 128)%R) by (rewrite minus_IZR; field).
  split; [|split; [rewrite Q2R_minus, EA, EB; exact D|lia]]. rewrite <- (fmt128 (a - b)) by lia. rewrite <- D. apply fin_sub; try assumption. rewrite D. apply z128. lia.
Qed.
Lemma G_sub_to A B C f g q r : G A f q -> G B g r -> (Rabs (Q2R (q - r)) <= IZR C / 128)%R -> C <= 2 ^ 24 -> G C (f32_sub f g) (q - r)%Q.
Proof.
  intros (a & FA & EA & HA) (b & FB & EB & HB) L C24. assert (D : (IZR a / 128 - IZR b / 128)%R = (IZR (a - b) / 128)%R) by (rewrite minus_IZR; field).
  assert (ED : Q2R (q - r) = (IZR (a - b) / 128)%R) by (rewrite Q2R_minus, EA, EB; exact D).
  assert (Z.abs (a - b) <= C). { rewrite ED in L. unfold Rdiv in L. rewrite Rabs_mult, (Rabs_pos_eq (/ 128)) in L by lra. apply le_IZR. rewrite abs_IZR. lra. }
  exists (a - b). split; [|split; [exact ED|assumption]]. rewrite <- (fmt128 (a - b)) by lia. rewrite <- D. apply fin_sub; try assumption. rewrite D. apply z128. lia.
Qed.
Lemma Q2R_n z n : Q2R (z # n) = (IZR z / IZR (Zpos n))%R.
Proof. reflexivity. Qed.
Lemma G_grid128 k f q : 0 <= k -> on_grid 128 k f q -> G (2 ^ k * 128) f q.
Proof.
  intros K (X & z & E & B). apply Qeq_eqR in E. exists z. apply exactly_fin in X. rewrite E in X. split; [exact X|]. split; [exact E|exact B].
Qed.
Lemma G_grid64 k f q : 0 <= k -> on_grid 64 k f q -> G (2 ^ k * 128) f q.
Proof.
  intros K (X & z & E & B). apply Qeq_eqR in E. rewrite Q2R_64 in E. exists (2 * z). apply exactly_fin in X. rewrite E in X.
  assert (D : (IZR z / 64 = IZR (2 * z) / 128)%R) by (rewrite mult_IZR; field). rewrite <- D. split; [exact X|]. split; [exact E|lia].
Qed.

(** * The start of a line *)
Lemma start_G k w lw W LW (a : xalign) s : 0 <= k <= 15 -> on_grid 64 k W w -> on_grid 64 k LW lw -> line_width s = lw ->
  G (2 * (2 ^ k * 128)) (line_start W LW a) (align_x w a s).
Proof.
  intros K OW OL <-. assert (P : 2 ^ k <= 2 ^ 15) by (apply Z.pow_le_mono_r; lia). assert (P0 : 0 < 2 ^ k) by (apply Z.pow_pos_nonneg; lia).
  destruct a; cbn [line_start align_x].
  - exists 0. split; [|split; [|lia]]. replace (0 / 128)%R with 0%R by field. apply zero_fin. unfold Q2R. cbn. field.
  - eapply G_le; [|apply G_sub; [exact (G_grid64 k _ _ (proj1 K) OW)|exact (G_grid64 k _ _ (proj1 K) OL)|lia]]. lia.
  - destruct OW as (XW & zw & EW & BW), OL as (XL & zl & EL & BL). apply exactly_fin in XW, XL. apply Qeq_eqR in EW, EL. rewrite EW, Q2R_64 in XW. rewrite EL, Q2R_64 in XL.
    pose proof (sub64 _ _ _ _ XW XL ltac:(lia)) as FS. exists (zw - zl). split; [|split; [|lia]].
    + assert (E2 : (/ 2 * (IZR (zw - zl) / 64) = IZR (zw - zl) / 128)%R) by field. rewrite <- (fmt128 (zw - zl)) by lia. rewrite <- E2.
      apply fin_mul; [apply half_fin|exact FS|]. rewrite E2. apply z128. lia.
    + rewrite Q2R_div by discriminate. rewrite Q2R_minus, EW, EL, !Q2R_64, minus_IZR. replace (Q2R 2) with 2%R by (unfold Q2R; cbn; field). field.
Qed.

Lemma lines_length d y : length (lo_lines (layout_of d y)) = length d.
Proof. unfold layout_of, doc_lines. cbn [lo_lines]. apply length_lines_of. Qed.

(** * Line heights *)
Lemma heights_zs k : forall hs d, Forall2 (fun f s => on_grid 64 k f (sl_height s) /\ (0 <= sl_height s)%Q) hs d ->
  exists zs, Forall2 height64 hs zs /\ Forall2 (fun z s => sl_height s == z # 64)%Q zs d.
Proof.
  induction 1 as [|h s hs d [(X & z & E & B) P] _ (zs & IH1 & IH2)]; [exists []; split; constructor|].
  exists (z :: zs). split; constructor; try assumption. split.
  - rewrite E in P. unfold Qle in P. cbn in P. lia.
  - apply exactly_fin. rewrite <- (Qeq_eqR _ _ E). apply exactly_fin. exact X.
Qed.
Lemma zs_sum zs d : Forall2 (fun z s => sl_height s == z # 64)%Q zs d -> Q2R (heights d) = (IZR (sum zs) / 64)%R.
Proof.
  induction 1 as [|z s zs d E _ IH]; cbn [heights sum fold_right]; [unfold Q2R; cbn; field|].
  rewrite Q2R_plus, IH, (Qeq_eqR _ _ E), Q2R_64. fold (sum zs). rewrite plus_IZR. field.
Qed.

Lemma heights_app a b : (heights (a ++ b) == heights a + heights b)%Q.
Proof. induction a; intros; cbn [app heights]; [ring|rewrite IHa; ring]. Qed.

Section Lines.
Variables (k : Z) (d : sdoc) (ws ascents hs : list f32).
Hypothesis K : 0 <= k <= 15.
Hypothesis FIT : fitting k d ws ascents hs.
Let B := 2 ^ k * 128.
Notation ts := (descents None hs).

Lemma B_small : 0 < B <= 2 ^ 22.
Proof. unfold B. assert (2 ^ k <= 2 ^ 15) by (apply Z.pow_le_mono_r; lia). assert (0 < 2 ^ k) by (apply Z.pow_pos_nonneg; lia). lia. Qed.
Lemma total_bound d1 d2 : d = d1 ++ d2 -> (0 <= Q2R (heights d1) <= IZR B / 128)%R.
Proof.
  intros E. pose proof (fit_heights _ _ _ _ _ FIT) as FH. pose proof (fit_total _ _ _ _ _ FIT) as FT.
  assert (NN : Forall (fun s => 0 <= sl_height s)%Q d) by (clear -FH; induction FH as [|? ? ? ? [_ ?]]; constructor; auto).
  assert (N : forall l, Forall (fun s => 0 <= sl_height s)%Q l -> (0 <= heights l)%Q) by (induction 1; cbn [heights]; Lqa.lra).
  rewrite E in NN. apply Forall_app in NN as [N1 N2]. apply N in N1, N2.
  pose proof heights_app as HA.
  rewrite E, HA in FT. apply Qle_Rle in N1, N2, FT. rewrite Q2R_plus, Q2R_inject in FT. replace (Q2R 0) with 0%R in * by (unfold Q2R; cbn; field).
  unfold B. rewrite mult_IZR. lra.
Qed.
Lemma height_ok i s : nth_error d i = Some s -> exists h, height_f ts i = Ok h /\ G B h (sl_height s).
Proof.
  intros N. pose proof B_small as BS. destruct (heights_zs _ _ _ (fit_heights _ _ _ _ _ FIT)) as (zs & HZ & ZD).
  pose proof (zs_sum _ _ ZD) as TS. pose proof (total_bound d [] (eq_sym (app_nil_r d))) as TB. rewrite TS in TB.
  assert (SM : sum zs <= 2 ^ 24). { apply le_IZR. assert (IZR B <= IZR (2 ^ 22))%R by (apply IZR_le; lia). change (IZR (2 ^ 22)) with 4194304%R in *. change (IZR (2 ^ 24)) with 16777216%R. lra. }
  destruct (Forall2_get _ _ _ _ _ ZD N) as (z & Nz & Ez). assert (L : (i < length zs)%nat) by (apply nth_error_Some; congruence).
  destruct (descent_above hs zs i HZ SM L) as (a & Ea & Fa).
  assert (Li : (i < length ts)%nat) by (rewrite descents_length, (Forall2_len _ _ _ HZ); lia).
  destruct (nth_error ts i) as [t|] eqn:Nt; [|apply nth_error_None in Nt; lia].
  pose proof (descents_exact_all hs zs i t HZ SM Nt) as Ft. pose proof (sum_snoc zs i z Nz) as SS.
  pose proof (sum_firstn hs zs i HZ) as B1. pose proof (sum_firstn hs zs (S i) HZ) as B2.
  destruct (Forall2_get _ _ _ _ _ (fit_heights _ _ _ _ _ FIT) N) as (h0 & _ & ((X0 & z0 & E0 & BB0) & _)).
  assert (ZZ : z = z0) by (rewrite Ez in E0; unfold Qeq in E0; cbn in E0; lia).
  assert (W : forall h, fin h (IZR z / 64) -> G B h (sl_height s)).
  { intros h F. exists (2 * z). rewrite (Qeq_eqR _ _ Ez), Q2R_64. assert (D : (IZR z / 64 = IZR (2 * z) / 128)%R) by (rewrite mult_IZR; field).
    rewrite <- D. split; [exact F|]. split; [reflexivity|]. unfold B. lia. }
  destruct i as [|j]; cbn [height_f].
  - exists t. split; [apply vget_ok; exact Nt|]. apply W. rewrite SS in Ft. exact Ft.
  - rewrite (proj2 (vget_ok _ _ _) Nt), Ea. cbn [obind]. eexists. split; [reflexivity|]. apply W.
    replace z with (sum (firstn (S (S j)) zs) - sum (firstn (S j) zs)) by lia. apply sub64; [exact Ft|exact Fa|lia].
Qed.

(** * Visits *)
Variables (y w : Q) (Y W : f32) (al : xalign).
Hypothesis GY : on_grid 128 k Y y.
Hypothesis GW : on_grid 64 k W w.
Notation lay := (layout_of d y).

Definition line_call_ok (c : nat * f32 * f32) (q : nat * Q * Q) : Prop :=
  let '(i, x, yy) := c in let '(i', x', y') := q in i = i' /\ G (2 * B) x x' /\ G (3 * B) yy y'.
Lemma lines_ok : forall d2 d1 lineY y2, d = d1 ++ d2 -> (y2 == y + heights d1)%Q -> G (2 * B) lineY y2 ->
  exists calls, lines_f (length d2) ws ascents ts W al (length d1) lineY = Ok calls /\ Forall2 line_call_ok calls (expected_calls w al (length d1) y2 d2).
Proof.
  pose proof B_small as BS. induction d2 as [|s d2 IH]; intros d1 lineY y2 E Ey GL; cbn [length lines_f expected_calls].
  - exists []. split; [reflexivity|constructor].
  - assert (N : nth_error d (length d1) = Some s) by (rewrite E, nth_error_app2, Nat.sub_diag by lia; reflexivity).
    destruct (Forall2_get _ _ _ _ _ (fit_widths _ _ _ _ _ FIT) N) as (lw & Nw & Gw).
    destruct (Forall2_get _ _ _ _ _ (fit_ascents _ _ _ _ _ FIT) N) as (a & Na & Ga).
    destruct (height_ok _ _ N) as (h & Eh & Gh).
    rewrite (proj2 (vget_ok _ _ _) Nw), (proj2 (vget_ok _ _ _) Na), Eh. cbn [obind].
    destruct (IH (d1 ++ [s]) (f32_add lineY h) (y2 + sl_height s)%Q) as (calls & Ec & Fc).
    { rewrite <- app_assoc. exact E. }
    { rewrite Ey. pose proof heights_app as HA.
      rewrite HA. cbn [heights]. ring. }
    { eapply G_bound; [apply (G_add _ _ _ _ _ _ GL Gh); lia|]. assert (E2 : d = (d1 ++ [s]) ++ d2) by (rewrite <- app_assoc; exact E).
      pose proof (total_bound _ _ E2) as T2. assert (HQ : (y2 + sl_height s == y + heights (d1 ++ [s]))%Q).
      { rewrite Ey. pose proof heights_app as HA.
        rewrite HA. cbn [heights]. ring. }
      rewrite (Qeq_eqR _ _ HQ), Q2R_plus. pose proof (G_abs _ _ _ (G_grid128 _ _ _ (proj1 K) GY)) as GA. fold B in GA.
      rewrite mult_IZR. eapply Rle_trans; [apply Rabs_triang|]. rewrite (Rabs_pos_eq (Q2R (heights _))) by apply T2. lra. }
    rewrite app_length in Ec, Fc. cbn [length] in Ec, Fc. replace (length d1 + 1)%nat with (S (length d1)) in Ec, Fc by lia. rewrite Ec. cbn [obind].
    eexists. split; [reflexivity|]. constructor; [|exact Fc]. split; [reflexivity|]. split; [exact (start_G k w _ W lw al s K GW Gw eq_refl)|].
    replace (3 * B) with (2 * B + B) by ring. apply G_add; [exact GL|exact (G_grid64 k _ _ (proj1 K) Ga)|lia].
Qed.

Definition visit_ok (c : nat * nat * f32 * f32) (p : place) : Prop :=
  let '(i, n, x, yy) := c in i = pl_line p /\ n = pl_run p /\ G (2 * B) x (pl_x p) /\ G (3 * B) yy (pl_y p).
Lemma place_visits i x yy x' y' rs : forall n, G (2 * B) x x' -> G (3 * B) yy y' ->
  Forall2 visit_ok (map (fun r => (i, r, x, yy)) (seq n (length rs))) (place_runs i n x' y' rs).
Proof. induction rs as [|r rs IH]; intros n Hx Hy; cbn [length seq map place_runs]; constructor; auto. cbn. auto. Qed.
Lemma runs_ok : forall d2 d1 y2 calls, d = d1 ++ d2 -> Forall2 line_call_ok calls (expected_calls w al (length d1) y2 d2) ->
  exists rc, runs_f lay calls (length (doc_runs d1)) = Ok rc /\ Forall2 visit_ok rc (places w al (length d1) (length (doc_runs d1)) y2 d2).
Proof.
  induction d2 as [|s d2 IH]; intros d1 y2 calls ED H; cbn [expected_calls] in H.
  - inversion H; subst. exists []. split; [reflexivity|constructor].
  - inversion H as [|[[i x] yy] ? calls' ? E F]; subst calls. destruct E as (E1 & E2 & E3). subst i. cbn [runs_f].
    destruct (@doc_line_view d y d1 s d2 ED) as (V1 & V2 & V3). rewrite V2. cbn [obind].
    replace (Nat.max _ _) with (length (doc_runs (d1 ++ [s])))
      by (rewrite doc_runs_app, app_length; unfold doc_runs at 2; cbn [flat_map]; rewrite app_nil_r; lia).
    destruct (IH (d1 ++ [s]) (y2 + sl_height s)%Q calls') as (rc & Erc & Frc).
    { rewrite <- app_assoc. exact ED. }
    { rewrite app_length. cbn [length]. replace (length d1 + 1)%nat with (S (length d1)) by lia. exact F. }
    rewrite Erc. cbn [obind]. eexists. split; [reflexivity|]. cbn [places]. apply Forall2_app.
    + replace (_ + length (sl_runs s) - _)%nat with (length (sl_runs s)) by lia. apply place_visits; assumption.
    + rewrite app_length in Frc. cbn [length] in Frc. replace (length d1 + 1)%nat with (S (length d1)) in Frc by lia.
      rewrite doc_runs_app, app_length in Frc. unfold doc_runs at 2 in Frc. cbn [flat_map] in Frc. rewrite app_nil_r in Frc. exact Frc.
Qed.
Lemma visits_ok : exists rc, visits_f lay ws ascents ts W al Y = Ok rc /\ Forall2 visit_ok rc (places w al 0 0 y d).
Proof.
  unfold visits_f. rewrite lines_length. destruct (lines_ok d [] Y y eq_refl) as (calls & E & F).
  { cbn [heights]. ring. }
  { eapply G_le; [|exact (G_grid128 k _ _ (proj1 K) GY)]. pose proof B_small. fold B. lia. }
  cbn [length] in E. rewrite E. cbn [obind]. exact (runs_ok d [] y calls eq_refl F).
Qed.
End Lines.

(** * Carets *)
Definition delta (k : Z) : R := bpow radix2 (k - 25).
Lemma Q2R_delta n k : 0 <= k <= 18 -> Q2R (inject_Z n / inject_Z (2 ^ (25 - k))) = (IZR n * delta k)%R.
Proof.
  intros K. rewrite Q2R_div. 2: { intros C. unfold Qeq in C. cbn in C. assert (0 < 2 ^ (25 - k)) by (apply Z.pow_pos_nonneg; lia). lia. }
  rewrite Q2R_inject, Q2R_pow by lia. unfold delta, Rdiv. rewrite <- bpow_opp. f_equal. f_equal. lia.
Qed.
Lemma within_fin n k f q v : 0 <= k <= 18 -> fin f v -> (Rabs (v - Q2R q) <= IZR n * delta k)%R -> within n k f q.
Proof.
  intros K F H. unfold within. eapply between_q_fin; [exact F|]. rewrite Q2R_minus, Q2R_plus, Q2R_delta by exact K.
  apply Rabs_le_inv in H. lra.
Qed.

Section Boxes.
Variables (k : Z) (d : sdoc) (ps ws ascents hs : list f32) (y w : Q) (Y W : f32) (al : xalign).
Hypothesis K : 0 <= k <= 15.
Hypothesis FIT : fitting k d ws ascents hs.
Hypothesis GY : on_grid 128 k Y y.
Hypothesis GW : on_grid 64 k W w.
Notation lay := (layout_of d y).
Notation ts := (descents None hs).
Notation pl := (places w al 0 0 y d).
Hypothesis RO : Forall run_ok (doc_runs d).
Hypothesis MO : Forall (fun r => qnondecreasing (run_xs r)) (doc_runs d).
Hypothesis PS : positions ps (lo_pos lay).
Let B := 2 ^ k * 128.

Lemma caret_ok p c : In p pl -> sr_start (pl_of p) <= c <= sr_end (pl_of p) ->
  exists f v, offset_in_run lay ps (pl_run p) c = Ok f /\ fin f v /\ (0 <= v <= bpow radix2 k)%R /\
    (Rabs (v - Q2R (caret lay p c)) <= 3 * delta k)%R /\
    (at_glyph (pl_of p) c -> G B f (caret lay p c)) /\
    (forall c', c <= c' <= sr_end (pl_of p) -> exists f', offset_in_run lay ps (pl_run p) c' = Ok f' /\ reads_f (pl_of p) f f').
Proof.
  intros P C. destruct (places_split _ _ _ _ _ P) as (_ & pre & post & E & L).
  assert (I : In (pl_of p) (doc_runs d)) by (rewrite E; apply in_or_app; right; left; reflexivity).
  rewrite Forall_forall in RO, MO. pose proof (RO _ I) as OK. pose proof (MO _ I) as M.
  pose proof (fit_runs _ _ _ _ _ FIT) as FR. rewrite Forall_forall in FR. destruct (FR _ I) as (FX & FC).
  destruct (t_caret d y pre (pl_of p) post ps E OK M PS c C) as (f & Ef & Bf & Xf & Rf).
  destruct (t_near d y pre (pl_of p) post ps k E OK PS ltac:(lia) FX FC c C) as (x & f' & Ex & Ef' & Nf).
  rewrite Ef in Ef'. inversion Ef'; subst f'. clear Ef'. rewrite L in *.
  assert (EC : caret lay p c = x) by (unfold caret; rewrite Ex; reflexivity). rewrite EC.
  destruct Nf as (V & q & Eq & Lo & Hi). destruct (value_R _ _ Eq) as (FF & FV).
  exists f, (Q2R q). split; [exact Ef|]. split; [split; [exact V|split; [exact FF|exact FV]]|].
  assert (NX : forall j, (j <= run_len (pl_of p))%nat -> exists z, 0 <= z <= 2 ^ 24 /\ (nth j (logical_xs (pl_of p)) 0 == z # 64)%Q /\ Z.abs (2 * z) <= B).
  { intros j J. destruct (lf_is d y pre (pl_of p) post ps E PS j J) as (z & Z1 & Z2 & _). exists z. split; [exact Z1|]. split; [exact Z2|].
    pose proof (logical_in (pl_of p) j J) as IN. rewrite Forall_forall in FX. specialize (FX _ IN). rewrite Z2 in FX. unfold Qle in FX. cbn in FX. unfold B. lia. }
  destruct Bf as (_ & q' & Eq' & Lo' & Hi'). rewrite Eq in Eq'. inversion Eq'; subst q'. clear Eq'.
  assert (XS : forall x, In x (run_xs (pl_of p)) -> (0 <= x)%Q).
  { intros x0 H. apply In_nth_error in H as (j & H). assert (Lx : length (run_xs (pl_of p)) = S (run_len (pl_of p))) by (unfold run_xs, run_len; rewrite app_length, map_length; cbn; lia).
    assert (J : (j <= run_len (pl_of p))%nat) by (assert (j < length (run_xs (pl_of p)))%nat by (apply nth_error_Some; congruence); lia).
    destruct (posf_is d y pre (pl_of p) post ps E PS j J) as (z & Z1 & Z2 & _). rewrite (nth_error_nth _ _ 0%Q H) in Z2. rewrite Z2. unfold Qle. cbn. lia. }
  assert (EX : In (sr_end_x (pl_of p)) (run_xs (pl_of p))) by (unfold run_xs; apply in_or_app; right; left; reflexivity).
  assert (FXX : (0 <= run_first_x (pl_of p))%Q).
  { apply XS. unfold run_first_x. destruct (run_xs (pl_of p)); [exact EX|left; reflexivity]. }
  split. { rewrite Forall_forall in FX. specialize (FX _ EX). apply Qle_Rle in FX, FXX, Lo', Hi'. rewrite Q2R_pow in FX by lia. replace (Q2R 0) with 0%R in * by (unfold Q2R; cbn; field). lra. }
  split. { apply Qle_Rle in Lo, Hi. rewrite Q2R_minus, Q2R_delta in Lo by lia. rewrite Q2R_plus, Q2R_delta in Hi by lia. apply Rabs_le. lra. }
  split.
  - intros (j & J & N1 & N2). specialize (Xf j J N1 N2). destruct (NX j J) as (z & Z1 & Z2 & Z3).
    destruct (@t_C33_caret d y pre (pl_of p) post E OK M c C) as (x' & Ex' & _ & XX & _). rewrite L, Ex in Ex'. inversion Ex'; subst x'.
    specialize (XX j J N1 N2). exists (2 * z). apply exactly_fin in Xf. rewrite (Qeq_eqR _ _ Z2), Q2R_64 in Xf.
    rewrite (Qeq_eqR _ _ XX), (Qeq_eqR _ _ Z2), Q2R_64. assert (D : (IZR z / 64 = IZR (2 * z) / 128)%R) by (rewrite mult_IZR; field). rewrite <- D. auto.
  - exact Rf.
Qed.

Lemma range_ok p s e : In p pl -> s <= e -> exists lo hi vl vh, range_f lay ps (pl_run p) s e = Ok (lo, hi) /\ fin lo vl /\ fin hi vh /\
  (0 <= vl <= vh)%R /\ (vh <= bpow radix2 k)%R /\
  let r := pl_of p in let cl := cut r (if sr_rtl r then e else s) in let ch := cut r (if sr_rtl r then s else e) in
  offset_in_run lay ps (pl_run p) cl = Ok lo /\ offset_in_run lay ps (pl_run p) ch = Ok hi /\
  (Rabs (vl - Q2R (caret lay p cl)) <= 3 * delta k)%R /\ (Rabs (vh - Q2R (caret lay p ch)) <= 3 * delta k)%R /\
  (at_glyph r cl -> G B lo (caret lay p cl)) /\ (at_glyph r ch -> G B hi (caret lay p ch)).
Proof.
  intros P SE. destruct (places_split _ _ _ _ _ P) as (_ & pre & post & E & L).
  assert (I : In (pl_of p) (doc_runs d)) by (rewrite E; apply in_or_app; right; left; reflexivity).
  pose proof RO as RO'. rewrite Forall_forall in RO'. destruct (RO' _ I) as (R1 & R2 & _).
  assert (CS : sr_start (pl_of p) <= cut (pl_of p) s <= sr_end (pl_of p)) by (unfold cut; lia).
  assert (CE : sr_start (pl_of p) <= cut (pl_of p) e <= sr_end (pl_of p)) by (unfold cut; lia).
  destruct (caret_ok p _ P CS) as (f & v & Ef & Ff & Bf & Nf & Xf & Rf). destruct (caret_ok p _ P CE) as (g & u & Eg & Fg & Bg & Ng & Xg & _).
  destruct (Rf (cut (pl_of p) e)) as (g' & Eg' & RD); [unfold cut in *; lia|]. rewrite Eg in Eg'. inversion Eg'; subst g'. clear Eg'.
  destruct (@doc_run_view d y pre (pl_of p) post E) as (V & _). rewrite L in V. unfold range_f. rewrite V. cbn [obind vrun_of ru_start ru_end ru_rtl].
  fold (cut (pl_of p) s). fold (cut (pl_of p) e). rewrite Ef, Eg. cbn [obind]. unfold reads_f in RD.
  destruct (sr_rtl (pl_of p)).
  - exists g, f, u, v. apply (fin_le _ _ _ _ Fg Ff) in RD. cbv zeta. repeat (split; [first [reflexivity|assumption|lra]|]). repeat split; try assumption; lra.
  - exists f, g, v, u. apply (fin_le _ _ _ _ Ff Fg) in RD. cbv zeta. repeat (split; [first [reflexivity|assumption|lra]|]). repeat split; try assumption; lra.
Qed.
Lemma place_line p : In p pl -> exists sl d3 d4, d = d3 ++ sl :: d4 /\ length d3 = pl_line p /\ nth_error d (pl_line p) = Some sl /\
  firstn (pl_line p) d = d3 /\ (pl_y p == y + heights d3 + sl_ascent sl)%Q.
Proof.
  intros P. destruct (@places_line_of w al y d p P) as (sl & d3 & d4 & Ed & Ll & _ & Ey). exists sl, d3, d4. split; [exact Ed|]. split; [exact Ll|].
  rewrite <- Ll. split; [rewrite Ed, nth_error_app2, Nat.sub_diag by lia; reflexivity|]. split; [|exact Ey].
  rewrite Ed, firstn_app, firstn_all, Nat.sub_diag. cbn [firstn]. apply app_nil_r.
Qed.
Lemma pow_k : IZR B = (bpow radix2 k * 128)%R.
Proof. unfold B. rewrite mult_IZR. f_equal. rewrite <- (IZR_Zpower radix2 k) by lia. reflexivity. Qed.
Lemma delta_pos : (0 < delta k)%R. Proof. apply bpow_gt_0. Qed.
Lemma rr_near x e : 0 <= e <= 2 -> (Rabs x <= bpow radix2 (k + e))%R -> (Rabs (rr x - x) <= bpow radix2 e * delta k)%R.
Proof. intros H X. pose proof (rr_err x (k + e) ltac:(lia) X) as R. unfold delta. rewrite <- bpow_plus. replace (e + (k - 25)) with (k + e - 25) by ring. exact R. Qed.

Variables (px py : Q) (PX PY : f32).
Hypothesis GX : on_grid 128 k PX px.
Hypothesis GPY : on_grid 128 k PY py.

Lemma boxes_ok s e : s <= e -> forall calls qs, Forall2 (visit_ok k) calls qs -> (forall p, In p qs -> In p pl) ->
  exists boxes, boxes_f lay ps ascents ts PX PY s e calls = Ok (List.concat boxes) /\ Forall2 (box_ok k lay d y px py s e) qs boxes.
Proof.
  intros SE calls qs F. pose proof (B_small k K) as BS. fold B in BS.
  induction F as [|[[[i n] x] yy] p calls qs (-> & -> & Hx & Hy) F IH]; intros IN.
  - exists []. split; [reflexivity|constructor].
  - destruct IH as (boxes & E & FB); [intros q Hq; apply IN; right; exact Hq|].
    assert (P : In p pl) by (apply IN; left; reflexivity). fold B in Hx, Hy.
    cbn [boxes_f]. rewrite (@place_contains d y w al p s e P). cbn [obind].
    destruct (_ && _) eqn:Co.
    + destruct (range_ok p s e P SE) as (lo & hi & vl & vh & Er & Fl & Fh & B1 & B2 & _ & _ & Nl & Nh & Xl & Xh). rewrite Er. cbn [obind].
      destruct (place_line p P) as (sl & d3 & d4 & Ed & Ll & Nd & Fd & Ey).
      destruct (Forall2_get _ _ _ _ _ (fit_ascents _ _ _ _ _ FIT) Nd) as (a & Na & Ga). apply vget_ok in Na. rewrite Na. cbn [obind].
      destruct (height_ok k d ws ascents hs K FIT _ _ Nd) as (h & Eh & Gh). fold B in Gh. rewrite Eh. cbn [obind]. rewrite E. cbn [obind].
      exists ([box_f PX PY x yy a lo hi h] :: boxes). split; [reflexivity|]. constructor; [|exact FB]. split.
      2: { intros C. exfalso. apply C. apply andb_true_iff in Co as [C1 C2]. apply Z.ltb_lt in C1, C2. auto. }
      intros _. do 2 eexists. split; [reflexivity|]. split; [exact Nd|]. cbn [box_f fb_x fb_y fb_w fb_h].
      pose proof (G_grid128 k _ _ (proj1 K) GX) as GX'. pose proof (G_grid128 k _ _ (proj1 K) GPY) as GPY'. pose proof (G_grid64 k _ _ (proj1 K) Ga) as Ga'. fold B in GX', GPY', Ga'.
      pose proof (G_add _ _ _ _ _ _ GX' Hx ltac:(lia)) as GB. pose proof (G_abs _ _ _ GB) as AB. pose proof (G_fin _ _ _ GB) as FBX.
      replace (B + 2 * B) with (3 * B) in * by ring. rewrite mult_IZR, pow_k in AB. apply Rabs_le_inv in AB.
      assert (K18 : 0 <= k <= 18) by lia. pose proof delta_pos as DP. pose proof (bpow_gt_0 radix2 k) as KP.
      assert (P2 : bpow radix2 (k + 2) = (4 * bpow radix2 k)%R) by (rewrite bpow_plus; change (bpow radix2 2) with 4%R; ring).
      assert (P0 : bpow radix2 (k + 0) = bpow radix2 k) by (f_equal; lia).
      assert (K100 : (bpow radix2 (k + 2) <= bpow radix2 100)%R) by (apply bpow_le; lia).
      split.
      { assert (EQ : (py + pl_y p - sl_ascent sl == py + y + heights (firstn (pl_line p) d))%Q) by (rewrite Fd, Ey; ring).
        apply (G_exactly (3 * B)). eapply G_eq; [exact EQ|]. eapply G_sub_to; [apply (G_add B (3 * B) _ _ _ _ GPY' Hy); lia|exact Ga'| |lia].
        rewrite (Qeq_eqR _ _ EQ), Fd, !Q2R_plus. pose proof (total_bound k d ws ascents hs FIT d3 (sl :: d4) Ed) as TB. fold B in TB.
        pose proof (G_abs _ _ _ GPY') as A1. pose proof (G_abs _ _ _ (G_grid128 k _ _ (proj1 K) GY)) as A2. fold B in A2. apply Rabs_le_inv in A1, A2. rewrite mult_IZR. apply Rabs_le. lra. }
      split; [exact (G_exactly _ _ _ Gh)|].
      assert (AW : (Rabs (vh - vl) <= bpow radix2 (k + 0))%R) by (rewrite P0; apply Rabs_le; lra).
      assert (FW : fin (f32_sub hi lo) (rr (vh - vl))).
      { apply fin_sub; try assumption. eapply Rle_trans; [exact AW|]. rewrite P0. rewrite P2 in K100. lra. }
      pose proof (rr_near _ 0 ltac:(lia) AW) as EW. change (bpow radix2 0) with 1%R in EW. rewrite Rmult_1_l in EW.
      assert (AX : (Rabs (Q2R (px + pl_x p) + vl) <= bpow radix2 (k + 2))%R) by (rewrite P2; apply Rabs_le; lra).
      assert (FX : fin (f32_add (f32_add PX x) lo) (rr (Q2R (px + pl_x p) + vl))).
      { apply fin_add; try assumption. eapply Rle_trans; [exact AX|exact K100]. }
      pose proof (rr_near _ 2 ltac:(lia) AX) as EX. change (bpow radix2 2) with 4%R in EX.
      unfold lit_left, lit_right. set (cl := caret lay p _) in Nl, Xl |- *. set (ch := caret lay p _) in Nh, Xh |- *.
      apply Rabs_le_inv in Nl, Nh, EW, EX.
      split. { apply (fin_le _ _ _ _ zero_fin FW). apply rr_pos. lra. }
      split. { apply (within_fin 7 k _ _ _ K18 FX). rewrite (Q2R_plus (px + pl_x p)). apply Rabs_le. lra. }
      split. { apply (within_fin 7 k _ _ _ K18 FW). rewrite Q2R_minus, !(Q2R_plus (px + pl_x p)). apply Rabs_le. lra. }
      split.
      * intros A. apply (G_exactly (3 * B + B)). apply G_add; [exact GB|exact (Xl A)|lia].
      * intros A1 A2. apply (G_exactly (B + B)). eapply G_eq; [|apply G_sub; [apply Xh|apply Xl|lia]]; [ring|destruct (sr_rtl (pl_of p)); assumption|destruct (sr_rtl (pl_of p)); assumption].
    + cbn [obind]. rewrite E. cbn [obind]. exists ([] :: boxes). split; [reflexivity|]. constructor; [|exact FB]. split; [|reflexivity].
      intros (C1 & C2). exfalso. apply andb_false_iff in Co as [Co|Co]; apply Z.ltb_ge in Co; lia.
Qed.
Lemma select_ok s e : s <= e ->
  exists boxes, select_f lay ps ws ascents ts W al Y PX PY s e = Ok (List.concat boxes) /\ Forall2 (box_ok k lay d y px py s e) pl boxes.
Proof.
  intros SE. unfold select_f. destruct (visits_ok k d ws ascents hs K FIT y w Y W al GY GW) as (calls & E & F). rewrite E. cbn [obind].
  apply (boxes_ok s e SE calls pl F). auto.
Qed.
End Boxes.

(** * Glyphs *)
Section Spots.
Variables (k : Z) (d : sdoc) (ps ws ascents hs : list f32) (y w : Q) (Y W : f32) (al : xalign).
Hypothesis K : 0 <= k <= 14.
Hypothesis FIT : fitting k d ws ascents hs.
Hypothesis GY : on_grid 128 k Y y.
Hypothesis GW : on_grid 64 k W w.
Notation lay := (layout_of d y).
Notation ts := (descents None hs).
Notation pl := (places w al 0 0 y d).
Hypothesis PS : Forall2 (on_grid 64 k) ps (lo_pos lay).
Let B := 2 ^ k * 128.
Variables (px py : Q) (PX PY : f32).
Hypothesis GX : on_grid 128 k PX px.
Hypothesis GPY : on_grid 128 k PY py.

Lemma B_14 : 0 < B <= 2 ^ 21.
Proof. unfold B. assert (2 ^ k <= 2 ^ 14) by (apply Z.pow_le_mono_r; lia). assert (0 < 2 ^ k) by (apply Z.pow_pos_nonneg; lia). lia. Qed.
Lemma ps_get i q : vget (lo_pos lay) i = Ok q -> exists f, vget ps i = Ok f /\ G B f q.
Proof.
  intros V. apply vget_ok in V. destruct (Forall2_get _ _ _ _ _ PS V) as (f & N & Gf). exists f. split; [apply vget_ok; exact N|exact (G_grid64 k _ _ (proj1 K) Gf)].
Qed.
Lemma spots_run x yy qx qy ex : G (2 * B) x qx -> G (3 * B) yy qy -> forall gs g p, reads_at lay g p gs ex ->
  exists fs, glyph_spots ps PX PY x yy p (length gs) = Ok fs /\
    Forall2 (fun f g => exactly (fst f) (px + (qx + sg_x g)) /\ exactly (snd f) (py + (qy + sg_y g)))%Q fs gs.
Proof.
  intros Hx Hy. pose proof B_14 as BS. pose proof (G_grid128 k _ _ (proj1 K) GX) as GX'. pose proof (G_grid128 k _ _ (proj1 K) GPY) as GPY'. fold B in GX', GPY'.
  induction gs as [|s gs IH]; intros g p R; cbn [length glyph_spots]; [exists []; split; [reflexivity|constructor]|].
  destruct (reads_head R) as (_ & _ & H3 & H4). destruct (ps_get _ _ H3) as (fx & -> & Gx). destruct (ps_get _ _ H4) as (fy & -> & Gy). cbn [obind].
  destruct (IH _ _ (reads_tail R)) as (fs & -> & F). cbn [obind]. eexists. split; [reflexivity|]. constructor; [|exact F]. cbn [fst snd]. split.
  - apply (G_exactly (B + (2 * B + B))). apply G_add; [exact GX'|apply G_add; [exact Hx|exact Gx|lia]|lia].
  - apply (G_exactly (B + (3 * B + B))). apply G_add; [exact GPY'|apply G_add; [exact Hy|exact Gy|lia]|lia].
Qed.
Lemma run_spots_ok : forall qs pre calls, doc_runs d = pre ++ map pl_of qs -> map pl_run qs = seq (length pre) (length qs) ->
  Forall2 (visit_ok k) calls qs ->
  exists out, run_spots lay ps PX PY calls (count_glyphs pre) (2 * (count_glyphs pre + length pre)) = Ok out /\ Forall2 (spots_ok px py) qs out.
Proof.
  induction qs as [|p qs IH]; intros pre calls E Ei F; inversion F as [|[[[i n] x] yy] ? calls' ? C F']; subst.
  - exists []. split; [reflexivity|constructor].
  - destruct C as (-> & -> & Hx & Hy). fold B in Hx, Hy. cbn [map seq length] in E, Ei. injection Ei as Er Ei'.
    cbn [run_spots]. rewrite Er. destruct (@doc_run_view d y pre (pl_of p) (map pl_of qs) E) as (V & _). rewrite V. cbn [obind vrun_of ru_glyph_end].
    replace (count_glyphs pre + run_len (pl_of p) - count_glyphs pre)%nat with (run_len (pl_of p)) by lia.
    destruct (spots_run x yy _ _ _ Hx Hy _ _ _ (@doc_reads d y pre (pl_of p) _ E)) as (fs & Ef & Ff). unfold run_len at 1. rewrite Ef. cbn [obind].
    destruct (IH (pre ++ [pl_of p]) calls') as (out & Eo & Fo).
    { rewrite E, <- app_assoc. reflexivity. }
    { rewrite app_length. cbn [length]. rewrite Nat.add_1_r. exact Ei'. }
    { exact F'. }
    rewrite count_glyphs_app, count_glyphs_cons, app_length in Eo. replace (count_glyphs []) with 0%nat in Eo by reflexivity. cbn [length] in Eo.
    rewrite Nat.add_0_r in Eo.
    replace (2 * (count_glyphs pre + run_len (pl_of p) + (length pre + 1)))%nat
      with (2 * (count_glyphs pre + length pre) + 2 * run_len (pl_of p) + 2)%nat in Eo by lia.
    rewrite Eo. cbn [obind]. eexists. split; [reflexivity|]. constructor; [exact Ff|exact Fo].
Qed.
Lemma spots_all : exists out, spots_f lay ps ws ascents ts W al Y PX PY = Ok out /\ Forall2 (spots_ok px py) pl out.
Proof.
  assert (K15 : 0 <= k <= 15) by lia. unfold spots_f. destruct (visits_ok k d ws ascents hs K15 FIT y w Y W al GY GW) as (calls & E & F). rewrite E. cbn [obind].
  apply (run_spots_ok pl [] calls).
  - rewrite places_of. reflexivity.
  - rewrite places_idx. cbn [length]. rewrite <- (places_of w al d 0 0 y) at 1. rewrite map_length. reflexivity.
  - exact F.
Qed.
End Spots.
