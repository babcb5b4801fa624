(** On the grid of 128ths, hit testing in single precision gives what exact arithmetic gives. *)
From Coq Require Import ZArith QArith Qreals Reals Lia Lra.
From Verif Require Import Base BaseFacts FloatModel BinarySearchModel BinarySearchProofs PackingModel PackingProofs LayoutModel LayoutSpec LayoutProofs LayoutGeomProofs
  LayoutCaretProofs LayoutCursorProofs LayoutHitProofs FloatLayoutModel FloatLayoutSpec FloatRealProofs FloatLayoutProofs FloatHitModel FloatHitProofs
  FloatSelectModel FloatSelectSpec FloatSelectProofs FloatAgreeSpec.
From Flocq Require Import Core.Core IEEE754.BinarySingleNaN.
Open Scope Z_scope.

Lemma search_ext c1 c2 : forall fuel first count, (forall i, (first <= i < first + count)%nat -> c1 i = c2 i) ->
  binary_search_loop fuel c1 first count = binary_search_loop fuel c2 first count.
Proof.
  induction fuel as [|fuel IH]; intros first count H; cbn [binary_search_loop]; destruct (Nat.ltb_spec 0 count) as [L|L]; try reflexivity.
  pose proof (Nat.div_lt count 2 L ltac:(lia)) as D. rewrite (H (first + count / 2)%nat) by lia.
  destruct (c2 (first + count / 2)%nat) as [[|]| |]; try reflexivity; cbn [obind].
  - apply IH. intros i I. apply H. lia.
  - apply IH. intros i I. apply H. lia.
Qed.

Lemma lt_same A B f g q r : G A f q -> G B g r -> f32_lt f g = qltb q r.
Proof.
  intros F H. apply G_fin in F, H. apply Bool.eq_true_iff_eq. rewrite (fin_lt _ _ _ _ F H). unfold qltb. rewrite negb_true_iff.
  split.
  - intros L. apply Bool.not_true_iff_false. rewrite Qle_bool_iff. intros C. apply Qle_Rle in C. lra.
  - intros C. apply Rnot_le_lt. intros L. apply Rle_Qle in L. apply Qle_bool_iff in L. congruence.
Qed.
Lemma le_same A B f g q r : G A f q -> G B g r -> f32_le f g = Qle_bool q r.
Proof.
  intros F H. apply G_fin in F, H. apply Bool.eq_true_iff_eq. rewrite (fin_le _ _ _ _ F H), Qle_bool_iff. split; [apply Rle_Qle|apply Qle_Rle].
Qed.
Lemma vget_same B ps qs i : Forall2 (G B) ps qs -> (exists f q, vget ps i = Ok f /\ vget qs i = Ok q /\ G B f q) \/ (vget ps i = UB /\ vget qs i = UB).
Proof.
  intros F. destruct (nth_error qs i) as [q|] eqn:N.
  - destruct (Forall2_get _ _ _ _ _ F N) as (f & Nf & H). left. exists f, q. split; [apply vget_ok; exact Nf|]. split; [apply vget_ok; exact N|exact H].
  - right. assert (L : length ps = length qs) by (apply (Forall2_len _ _ _ F)). unfold vget. rewrite N.
    assert (N' : nth_error ps i = None) by (apply nth_error_None; apply nth_error_None in N; lia). rewrite N'. auto.
Qed.

(** One step of the walk, from a glyph's beginning to its end. *)
Lemma walk_same following fuel r c e sp ep spq epq fa la X x :
  following c = e -> 0 <= c < e -> e < 2 ^ 31 -> G (2 ^ 22) sp spq -> G (2 ^ 22) ep epq -> G (3 * 2 ^ 22) X x ->
  cluster_walk_f following (S fuel) r c e sp ep fa la X c sp = cluster_walk following (S fuel) r c e spq epq fa la x c spq.
Proof.
  intros F C E GS GE GX. cbn [cluster_walk_f cluster_walk]. rewrite F. rewrite (wrap_small e) by lia. rewrite (wrap_small (e - c)) by lia.
  set (np := stop_pos c e sp ep e).
  set (nq := (spq + inject_Z (e - c) / inject_Z (e - c) * (epq - spq))%Q).
  assert (EQ : (nq == epq)%Q).
  { unfold nq. field. intros Z. unfold Qeq in Z. cbn in Z. lia. }
  assert (GN : G (2 ^ 22) np nq).
  { apply (G_eq _ _ epq); [symmetry; exact EQ|]. unfold np, stop_pos. rewrite (wrap_small (e - c)) by lia.
    assert (FD : fin (f32_div (f32_of_Z (e - c)) (f32_of_Z (e - c))) 1).
    { pose proof (fin_share (e - c) (e - c) ltac:(lia) ltac:(lia)) as H. rewrite share_same in H by lia. exact H. }
    pose proof (G_sub _ _ _ _ _ _ GE GS ltac:(lia)) as GD. destruct GD as (zd & Fd & Ed & Bd).
    assert (GM : G (2 ^ 22 + 2 ^ 22) (f32_mul (f32_div (f32_of_Z (e - c)) (f32_of_Z (e - c))) (f32_sub ep sp)) (epq - spq)%Q).
    { exists zd. split; [|split; [exact Ed|exact Bd]]. rewrite <- (fmt128 zd) by lia. replace (IZR zd / 128)%R with (1 * (IZR zd / 128))%R by ring.
      apply fin_mul; [exact FD|exact Fd|]. rewrite Rmult_1_l. apply z128. lia. }
    pose proof (G_add _ _ _ _ _ _ GS GM ltac:(lia)) as GA. eapply G_bound; [eapply G_eq; [|exact GA]; ring|]. exact (G_abs _ _ _ GE). }
  assert (L1 : forall A B (f g : f32) q t, G A f q -> G B g t -> f32_lt f g = qltb q t) by (intros; eapply lt_same; eassumption).
  rewrite (L1 _ _ _ _ _ _ GN GX), (L1 _ _ _ _ _ _ GS GX), (le_same _ _ _ _ _ _ GX GS), (le_same _ _ _ _ _ _ GX GN).
  assert (D1 : G (3 * 2 ^ 22 + 2 ^ 22) (f32_sub X np) (x - nq)%Q) by (apply G_sub; [exact GX|exact GN|lia]).
  assert (D2 : G (2 ^ 22 + 3 * 2 ^ 22) (f32_sub sp X) (spq - x)%Q) by (apply G_sub; [exact GS|exact GX|lia]).
  assert (D3 : G (2 ^ 22 + 3 * 2 ^ 22) (f32_sub np X) (nq - x)%Q) by (apply G_sub; [exact GN|exact GX|lia]).
  assert (D4 : G (3 * 2 ^ 22 + 2 ^ 22) (f32_sub X sp) (x - spq)%Q) by (apply G_sub; [exact GX|exact GS|lia]).
  rewrite (L1 _ _ _ _ _ _ D1 D2), (L1 _ _ _ _ _ _ D3 D4).
  destruct (ru_rtl r && _ && _); [reflexivity|]. destruct (negb (ru_rtl r) && _ && _); [reflexivity|].
  assert (LE : (e <=? e) = true) by (apply Z.leb_le; lia). rewrite LE. reflexivity.
Qed.

Section Agree.
Variables (d : sdoc) (y : Q) (k : nat) (s : sline) (following : Z -> Z) (ps ws : list f32) (w x : Q) (W X lw : f32) (al : xalign).
Hypothesis Es : nth_error d k = Some s.
Hypothesis NE : sl_runs s <> [].
Hypothesis OK : Forall run_ok (sl_runs s).
Hypothesis OS : Forall (one_stop following) (sl_runs s).
Hypothesis NW : nth_error ws k = Some lw.
Hypothesis GL : on_grid 64 15 lw (line_width s).
Hypothesis GW : on_grid 64 15 W w.
Hypothesis GX : on_grid 128 15 X x.
Let l := layout_of d y.
Hypothesis PS : Forall2 (on_grid 64 15) ps (lo_pos l).
Let R := run_first d k.
Let N := length (sl_runs s).

Lemma PG : Forall2 (G (2 ^ 22)) ps (lo_pos l).
Proof. clear -PS. revert PS. generalize (lo_pos l). intros qs H. induction H as [|f q fs qs H _ IH]; [apply Forall2_nil|]. apply Forall2_cons; [|exact IH]. exact (G_grid64 15 _ _ ltac:(lia) H). Qed.

Lemma hit_same : find_closest_f following l ps ws W al k X = find_closest_cursor_position following l w al k x.
Proof.
  unfold find_closest_f, find_closest_cursor_position.
  destruct (split_nth _ _ Es) as [Ed L].
  destruct (@doc_line_view d y (firstn k d) s (skipn (S k) d) Ed) as (V1 & V2 & _). cbv zeta in V1, V2. rewrite L in V1, V2.
  pose proof (line_x_start_of y (firstn k d) s (skipn (S k) d) w al) as V0. rewrite <- Ed, L in V0.
  fold (run_first d k) in V1, V2. fold l R N in V1, V2. fold l in V0.
  destruct (lo_lines l) eqn:EL; [reflexivity|]. clear EL.
  rewrite V0, V1, V2, (proj2 (vget_ok _ _ _) NW). cbn [obind]. replace (R + N - R)%nat with N by lia. clear V0.
  set (x0 := match al with XLeft => _ | XRight => _ | XCenter => _ end).
  assert (G0 : G (2 * 2 ^ 22) (line_start W lw al) x0).
  { eapply G_eq; [|exact (start_G 15 w _ W lw al s ltac:(lia) GW GL eq_refl)]. unfold align_x, x0. destruct al; try reflexivity. unfold Qdiv. change (/ 2)%Q with (1 # 2)%Q. ring. }
  assert (GC : G (3 * 2 ^ 22) (f32_sub X (line_start W lw al)) (x - x0)%Q).
  { pose proof (G_sub _ _ _ _ _ _ (G_grid128 15 _ _ ltac:(lia) GX) G0 ltac:(cbn; lia)) as H. exact H. }
  set (C := f32_sub X (line_start W lw al)) in *. set (c := (x - x0)%Q) in *. clearbody C c. clear x0 G0.
  assert (HN : (0 < N)%nat) by (unfold N; destruct (sl_runs s); [congruence|cbn [length]; lia]).
  assert (SP : forall j r, nth_error (sl_runs s) j = Some r -> exists pre post, doc_runs d = pre ++ r :: post /\ length pre = (R + j)%nat) by (intros j r; exact (@line_run_split d k s Es j r)).
  pose proof PG as PG.
  assert (BS : binary_search R N (fun i => do r <- vget (lo_runs l) i; do p <- vget ps (2 * (ru_glyph_end r + i)); Ok (f32_lt p C)) =
               binary_search R N (fun i => do r <- vget (lo_runs l) i; do p <- vget (lo_pos l) (2 * (ru_glyph_end r + i)); Ok (qltb p c))).
  { unfold binary_search. apply search_ext. intros i _. destruct (vget (lo_runs l) i) as [r| |]; try reflexivity. cbn [obind].
    destruct (vget_same _ _ _ (2 * (ru_glyph_end r + i)) PG) as [(f & q & -> & -> & Gf)|(-> & ->)]; [|reflexivity]. cbn [obind]. rewrite (lt_same _ _ _ _ _ _ Gf GC). reflexivity. }
  rewrite BS. clear BS.
  destruct (@binary_search_in_range (fun i => do r <- vget (lo_runs l) i; do p <- vget (lo_pos l) (2 * (ru_glyph_end r + i)); Ok (qltb p c)) R N) as (run & Erun & Hrun).
  { intros i Hi. destruct (nth_error (sl_runs s) (i - R)) as [r|] eqn:E; [|apply nth_error_None in E; unfold N in Hi; lia].
    destruct (SP _ _ E) as (pre & post & Edr & Lp). replace (R + (i - R))%nat with i in Lp by lia.
    destruct (@doc_run_view d y pre r post Edr) as (V & _). cbv zeta in V. rewrite Lp in V. fold l in V. rewrite V. cbn [obind vrun_of ru_glyph_end].
    replace (2 * (count_glyphs pre + run_len r + i))%nat with (2 * (count_glyphs pre + length pre) + 2 * run_len r)%nat by lia.
    pose proof (@pos_get d y pre r post Edr (run_len r) ltac:(lia)) as P. fold l in P. rewrite P. cbn [obind]. eauto. }
  rewrite Erun. cbn [obind]. destruct (Nat.eqb_spec run (R + N)) as [Hlast|Hlast]; [reflexivity|].
  destruct (nth_error (sl_runs s) (run - R)) as [r|] eqn:Er; [|apply nth_error_None in Er; unfold N in *; lia].
  assert (In_r : In r (sl_runs s)) by exact (nth_error_In _ _ Er).
  rewrite Forall_forall in OK, OS. pose proof (OK _ In_r) as Ok_r. pose proof (OS _ In_r) as Os_r.
  destruct (SP _ _ Er) as (pre & post & Edr & Lp). replace (R + (run - R))%nat with run in Lp by lia.
  destruct (@doc_run_view d y pre r post Edr) as (Vr & Vg & Vp & _). cbv zeta in Vr, Vg, Vp. rewrite Lp in Vr, Vg, Vp.
  fold l in Vr, Vg, Vp. rewrite Vr, Vg, Vp. cbn [obind vrun_of ru_glyph_end ru_rtl ru_end ru_start ru_offset].
  set (Gn := count_glyphs pre) in *. replace (Gn + run_len r - Gn)%nat with (run_len r) by lia.
  assert (PQ : forall i, (i <= run_len r)%nat -> exists f q, vget ps (2 * (Gn + run) + 2 * i) = Ok f /\ vget (lo_pos l) (2 * (Gn + run) + 2 * i) = Ok q /\ G (2 ^ 22) f q).
  { intros i Hi. destruct (vget_same _ _ _ (2 * (Gn + run) + 2 * i) PG) as [H|(_ & H)]; [exact H|].
    pose proof (@pos_get d y pre r post Edr i Hi) as P. fold l Gn in P. rewrite Lp in P. congruence. }
  assert (CG : forall i, (i < run_len r)%nat -> vget (lo_chars l) (Gn + i) = Ok (nth i (run_chars r) (sr_end r))).
  { intros i Hi. exact (@char_get d y pre r post Edr i Hi). }
  assert (BS : binary_search 0 (run_len r) (fun i => do p <- vget ps (2 * (Gn + run) + 2 * i); Ok (f32_lt p C)) =
               binary_search 0 (run_len r) (fun i => do p <- vget (lo_pos l) (2 * (Gn + run) + 2 * i); Ok (qltb p c))).
  { unfold binary_search. apply search_ext. intros i Hi. destruct (PQ i ltac:(lia)) as (f & q & -> & -> & Gf). cbn [obind]. rewrite (lt_same _ _ _ _ _ _ Gf GC). reflexivity. }
  rewrite BS. clear BS.
  destruct (@binary_search_in_range (fun i => do p <- vget (lo_pos l) (2 * (Gn + run) + 2 * i); Ok (qltb p c)) 0 (run_len r)) as (g & Eg & Hg).
  { intros i Hi. destruct (PQ i ltac:(lia)) as (f & q & _ & -> & _). cbn [obind]. eauto. }
  rewrite Eg. cbn [obind].
  set (FA := if negb (run =? R)%nat && negb (sr_rtl r) then _ else Ok false).
  set (LA := if (run =? R + N - 1)%nat && (sr_offset r =? 0) then Ok true else _).
  assert (CH : forall j, (j < run_len r)%nat -> 0 <= nth j (logical_chars r) (sr_end r) /\ nth j (logical_chars r) (sr_end r) <= char_after r j /\ char_after r j < 2 ^ 31).
  { intros j J. pose proof (@run_ok_chars r j Ok_r J) as B1. pose proof (@run_ok_sorted r j (S j) Ok_r ltac:(lia)) as B2. fold (char_after r j) in B2.
    pose proof (@run_ok_sorted r (S j) (run_len r) Ok_r ltac:(lia)) as B3. rewrite (nth_overflow (logical_chars r) (n := run_len r)) in B3 by (rewrite length_logical_chars; lia).
    fold (char_after r j) in B3. destruct Ok_r as (A1 & A2 & _). lia. }
  destruct (Nat.eqb_spec (Gn + g) Gn) as [Hz|Hz].
  - assert (g = 0)%nat as -> by lia. destruct (PQ 0%nat ltac:(lia)) as (f & q & Ef & Eq & Gf). replace (2 * (Gn + run) + 2 * 0)%nat with (2 * (Gn + run))%nat in Ef, Eq by lia.
    destruct (sr_rtl r) eqn:Hd.
    + rewrite Ef, Eq. cbn [obind]. destruct FA; try reflexivity. cbn [obind]. destruct LA; try reflexivity. cbn [obind]. rewrite Z.eqb_refl. reflexivity.
    + replace (Gn + 0 - Gn)%nat with 0%nat by lia. replace (2 * (Gn + run) + 2 * 0)%nat with (2 * (Gn + run))%nat by lia.
      pose proof (run_ok_first Ok_r) as F. unfold logical_chars in F. rewrite Hd in F.
      assert (E0 : (if (Gn + 0 =? Gn + run_len r)%nat then Ok (sr_end r) else vget (lo_chars l) (Gn + 0)) = Ok (sr_start r)).
      { destruct (Nat.eqb_spec (Gn + 0) (Gn + run_len r)) as [Hy|Hy].
        - assert (Z0 : run_chars r = []) by (apply length_zero_iff_nil; rewrite length_run_chars; lia). rewrite Z0 in F. cbn [nth] in F. congruence.
        - rewrite CG by lia. congruence. }
      cbn [obind]. rewrite E0. cbn [obind]. rewrite Ef, Eq. cbn [obind]. destruct FA; try reflexivity. cbn [obind]. destruct LA; try reflexivity. cbn [obind]. rewrite Z.eqb_refl. reflexivity.
  - destruct (PQ g ltac:(lia)) as (f & q & Ef & Eq & Gf). destruct (PQ (g - 1)%nat ltac:(lia)) as (f' & q' & Ef' & Eq' & Gf').
    assert (E2 : forall fa la sp ep spq epq, G (2 ^ 22) sp spq -> G (2 ^ 22) ep epq -> forall cc ee, (exists j, (j < run_len r)%nat /\ cc = nth j (logical_chars r) (sr_end r) /\ ee = char_after r j) ->
      (if cc =? ee then Ok (make_cursor cc fa) else cluster_walk_f following (S (Z.to_nat (ee - cc))) (vrun_of Gn r) cc ee sp ep fa la C cc sp) =
      (if cc =? ee then Ok (make_cursor cc fa) else cluster_walk following (S (Z.to_nat (ee - cc))) (vrun_of Gn r) cc ee spq epq fa la c cc spq)).
    { intros fa la sp ep spq epq G1 G2 cc ee (j & J & -> & ->). destruct (Z.eqb_spec (nth j (logical_chars r) (sr_end r)) (char_after r j)) as [Q|Q]; [reflexivity|].
      destruct (CH j J) as (B1 & B2 & B3). apply walk_same; try assumption; [apply Os_r; [exact J|lia]|lia]. }
    destruct (sr_rtl r) eqn:Hd.
    + replace (Gn + g - 1)%nat with (Gn + (g - 1))%nat by lia. rewrite CG by lia. cbn [obind].
      assert (E1 : (if (Gn + (g - 1) =? Gn)%nat then Ok (sr_end r) else vget (lo_chars l) (Gn + g - 2)) = Ok (char_after r (run_len r - g))).
      { unfold char_after. destruct (Nat.eqb_spec (Gn + (g - 1)) Gn) as [Hy|Hy].
        - rewrite nth_overflow by (rewrite length_logical_chars; lia). reflexivity.
        - replace (Gn + g - 2)%nat with (Gn + (g - 2))%nat by lia. rewrite CG by lia. f_equal. rewrite (@rev_chars_nth pre r (g - 2) Hd) by lia. f_equal. lia. }
      rewrite E1. cbn [obind]. replace (Gn + g - Gn)%nat with g by lia. replace (Gn + (g - 1) - Gn)%nat with (g - 1)%nat by lia. rewrite Ef, Eq. cbn [obind]. rewrite Ef', Eq'. cbn [obind].
      destruct FA as [fa| |]; try reflexivity. cbn [obind]. destruct LA as [la| |]; try reflexivity. cbn [obind].
      apply E2; [exact Gf|exact Gf'|]. exists (run_len r - g)%nat. split; [lia|]. split; [|reflexivity].
      rewrite (@rev_chars_nth pre r (g - 1) Hd) by lia. f_equal. lia.
    + replace (Gn + g - 1)%nat with (Gn + (g - 1))%nat by lia. rewrite CG by lia. cbn [obind].
      assert (LC : logical_chars r = run_chars r) by (unfold logical_chars; rewrite Hd; reflexivity).
      assert (E1 : (if (Gn + g =? Gn + run_len r)%nat then Ok (sr_end r) else vget (lo_chars l) (Gn + g)) = Ok (char_after r (g - 1))).
      { unfold char_after. rewrite LC. replace (S (g - 1)) with g by lia. destruct (Nat.eqb_spec (Gn + g) (Gn + run_len r)) as [Hy|Hy].
        - rewrite nth_overflow by (rewrite length_run_chars; lia). reflexivity.
        - rewrite CG by lia. reflexivity. }
      rewrite E1. cbn [obind]. replace (Gn + (g - 1) - Gn)%nat with (g - 1)%nat by lia. replace (Gn + g - Gn)%nat with g by lia. rewrite Ef', Eq'. cbn [obind]. rewrite Ef, Eq. cbn [obind].
      destruct FA as [fa| |]; try reflexivity. cbn [obind]. destruct LA as [la| |]; try reflexivity. cbn [obind].
      apply E2; [exact Gf'|exact Gf|]. exists (g - 1)%nat. split; [lia|]. split; [rewrite LC; reflexivity|reflexivity].
Qed.
End Agree.

(** * Which line *)
Lemma descent_G k d ws ascents hs i s : 0 <= k <= 15 -> fitting k d ws ascents hs -> nth_error d i = Some s ->
  exists t, vget (descents None hs) i = Ok t /\ G (2 ^ 22) t (bottom d i).
Proof.
  intros K FIT N. pose proof (B_small k K) as BS. destruct (heights_zs _ _ _ (fit_heights _ _ _ _ _ FIT)) as (zs & HZ & ZD).
  destruct (split_nth _ _ N) as [Ed Li]. pose proof (total_bound k d ws ascents hs FIT (firstn (S i) d) (skipn (S i) d) (eq_sym (firstn_skipn _ _))) as TB. fold (bottom d i) in TB.
  pose proof (zs_sum _ _ ZD) as TS. pose proof (total_bound k d ws ascents hs FIT d [] (eq_sym (app_nil_r d))) as TA. rewrite TS in TA.
  assert (IB : (IZR (2 ^ k * 128) <= 4194304)%R) by (apply IZR_le; lia).
  assert (SM : sum zs <= 2 ^ 24) by (apply le_IZR; change (IZR (2 ^ 24)) with 16777216%R; lra).
  assert (L : (i < length (descents None hs))%nat).
  { rewrite descents_length, (Forall2_len _ _ _ HZ), (Forall2_len _ _ _ ZD). apply nth_error_Some. congruence. }
  destruct (nth_error (descents None hs) i) as [t|] eqn:Nt; [|apply nth_error_None in Nt; lia].
  pose proof (descents_exact_all hs zs i t HZ SM Nt) as Ft. exists t. split; [apply vget_ok; exact Nt|].
  assert (ZF : Forall2 (fun z s => sl_height s == z # 64)%Q (firstn (S i) zs) (firstn (S i) d)).
  { clear -ZD. revert ZD. generalize (S i). intros n H. revert n. induction H; intros [|n]; cbn [firstn]; constructor; auto. }
  pose proof (zs_sum _ _ ZF) as BE. fold (bottom d i) in BE. rewrite BE in TB.
  exists (2 * sum (firstn (S i) zs)). rewrite BE. assert (D : (IZR (sum (firstn (S i) zs)) / 64 = IZR (2 * sum (firstn (S i) zs)) / 128)%R) by (rewrite mult_IZR; field).
  rewrite <- D. split; [exact Ft|]. split; [reflexivity|]. rewrite Z.abs_eq.
  - apply le_IZR. change (IZR (2 ^ 22)) with 4194304%R. rewrite mult_IZR. lra.
  - apply le_IZR. rewrite mult_IZR. lra.
Qed.
Lemma line_same k d y ws ascents hs f q : 0 <= k <= 15 -> fitting k d ws ascents hs -> on_grid 128 k f q ->
  closest_line (descents None hs) f = get_closest_line_to_height (layout_of d y) q.
Proof.
  intros K FIT GF. unfold closest_line, get_closest_line_to_height.
  assert (L1 : length (lo_lines (layout_of d y)) = length d) by (cbn [layout_of lo_lines]; unfold doc_lines; apply length_lines_of).
  assert (L2 : length (descents None hs) = length d) by (rewrite descents_length; exact (Forall2_len _ _ _ (fit_heights _ _ _ _ _ FIT))).
  rewrite L1, L2. unfold binary_search. apply search_ext. intros i I. destruct (nth_error d i) as [s|] eqn:N; [|apply nth_error_None in N; lia].
  destruct (descent_G k d ws ascents hs i s K FIT N) as (t & -> & Gt). destruct (@line_bottom d y i ltac:(lia)) as (li & -> & E). cbn [obind]. f_equal.
  rewrite (lt_same _ _ _ _ _ _ Gt (G_grid128 k _ _ (proj1 K) GF)). unfold qltb. f_equal. apply Bool.eq_true_iff_eq. rewrite !Qle_bool_iff, E. reflexivity.
Qed.
