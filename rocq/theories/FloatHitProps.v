(** C109: clicking, in single precision. *)
From Coq Require Import QArith Qabs Qround Qreals Reals Lia Lra.
From Verif Require Import Base BaseFacts FloatModel BinarySearchModel BinarySearchProofs PackingModel LayoutModel LayoutSpec LayoutProofs LayoutCaretProofs LayoutCursorProofs
  LayoutHitProofs LayoutProps FloatLayoutModel FloatLayoutSpec FloatRealProofs FloatLayoutProofs FloatLayoutProps FloatHitModel FloatHitProofs.
From Flocq Require Import Core.Core IEEE754.BinarySingleNaN.
Open Scope Z_scope.

Lemma Q2R_abs q : Q2R (Qabs q) = Rabs (Q2R q).
Proof.
  apply Qabs_case; intros H; apply Qle_Rle in H; replace (Q2R 0) with 0%R in H by (unfold Q2R; cbn; field).
  - rewrite Rabs_pos_eq by exact H. reflexivity.
  - rewrite Q2R_opp. rewrite Rabs_left1 by exact H. reflexivity.
Qed.
Lemma value_unique f V u : fin f V -> f32_value f = Some u -> V = Q2R u.
Proof. intros (_ & _ & <-) E. destruct (value_R f u E) as [_ W]. exact W. Qed.
Lemma slack_q : Q2R (1 + (1 # 4194304)) = (1 + slack)%R.
Proof. rewrite Q2R_plus. unfold slack. change (bpow radix2 (-22)) with (/ 4194304)%R. unfold Q2R. cbn. field. Qed.
Lemma nearly_q v u t : nearly (Rabs (Q2R v - Q2R u)) (Rabs (Q2R v - Q2R t)) -> (Qabs (v - u) <= (1 + (1 # 4194304)) * Qabs (v - t))%Q.
Proof. intros H. apply Rle_Qle. rewrite Q2R_mult, slack_q, !Q2R_abs, !Q2R_minus. exact H. Qed.
Lemma click_fin x w lw al : modest x -> modest w -> modest lw -> exists a s, fin x a /\ fin (line_start w lw al) s /\
  fin (f32_sub x (line_start w lw al)) (rr (a - s)) /\ (Rabs (rr (a - s) - (a - s)) <= bpow radix2 (-24) * Rabs (a - s))%R.
Proof.
  intros (a & FA & BA) W L. destruct (line_start_fin w lw al W L) as (s & FS & BS). exists a, s. split; [exact FA|]. split; [exact FS|]. split.
  - apply fin_sub; [exact FA|exact FS|]. unfold Rminus. eapply Rle_trans; [apply Rabs_triang|]. rewrite Rabs_Ropp.
    assert (bpow radix2 30 + bpow radix2 31 <= bpow radix2 100)%R; [|lra].
    apply Rle_trans with (bpow radix2 32); [change (bpow radix2 30) with 1073741824%R; change (bpow radix2 31) with 2147483648%R; change (bpow radix2 32) with 4294967296%R; lra|apply bpow_le; lia].
  - destruct (rr_diff_rel (fin_format _ _ FA) (fin_format _ _ FS)) as (e & He & E). rewrite E.
    replace ((a - s) * (1 + e) - (a - s))%R with (e * (a - s))%R by ring. rewrite Rabs_mult. apply Rmult_le_compat_r; [apply Rabs_pos|exact He].
Qed.
Lemma lines_length d y : length (lo_lines (layout_of d y)) = length d.
Proof. cbn [layout_of lo_lines]. unfold doc_lines. apply length_lines_of. Qed.
Lemma line_in d k s (P : srun -> Prop) : nth_error d k = Some s -> Forall P (doc_runs d) -> Forall P (sl_runs s).
Proof.
  intros E F. rewrite Forall_forall in *. intros r I. apply F. unfold doc_runs. apply in_flat_map. exists s. split; [exact (nth_error_In _ _ E)|exact I].
Qed.
Lemma closest_in ts q : exists r, closest_line ts q = Ok r /\ (r <= length ts)%nat.
Proof.
  unfold closest_line. destruct (@binary_search_in_range (fun i => do t <- vget ts i; Ok (f32_lt t q)) 0 (length ts)) as (r & E & B).
  - intros i I. destruct (nth_error ts i) as [t|] eqn:N; [|apply nth_error_None in N; lia]. apply vget_ok in N. rewrite N. cbn [obind]. eauto.
  - exists r. split; [exact E|lia].
Qed.

(** A click always gives an answer: for every iterator that moves forward, every text, and
    every floats whatever, infinities and not-a-number among them, in the tables, the
    widths and the click. *)
Theorem C109_ends : forall following d y lay ps ws ts w al x q, doc_ok d -> stored d y lay -> forward following -> Forall run_ok (doc_runs d) ->
  length ps = length (lo_pos lay) -> length ws = length d -> length ts = length d ->
  exists c, closest_f following lay ps ws ts w al x q = Ok c.
Proof.
  intros following d y lay ps ws ts w al x q OKD ST F RO LP LW LT. pose proof (stored_eq OKD ST); subst lay.
  destruct (closest_in ts q) as (k0 & E & K). unfold closest_f. rewrite E. cbn [obind]. rewrite lines_length.
  destruct d as [|s0 d'] eqn:ED; [eexists; reflexivity|]. rewrite <- ED in *. assert (LD : (0 < length d)%nat) by (rewrite ED; cbn; lia). clear ED.
  set (k := if (k0 =? length d)%nat then (length d - 1)%nat else k0).
  assert (KL : (k < length d)%nat) by (unfold k; destruct (Nat.eqb_spec k0 (length d)); lia).
  destruct (nth_error d k) as [s|] eqn:NS; [|apply nth_error_None in NS; lia].
  destruct (nth_error ws k) as [lw|] eqn:NW; [|apply nth_error_None in NW; lia]. apply vget_ok in NW.
  eapply hit_ends_f; [exact F|exact NS| |exact (line_in _ _ _ _ NS RO)|exact LP|exact NW].
  unfold doc_ok in OKD. rewrite Forall_forall in OKD. exact (OKD s (nth_error_In _ _ NS)).
Qed.
Print Assumptions C109_ends.

(** For every floats the answer is a caret stop of the line, when glyphs begin at caret
    stops. *)
Theorem C109_legal : forall B following d y k s lay ps ws w al x, doc_ok d -> stored d y lay -> walks B following ->
  nth_error d k = Some s -> Forall run_ok (sl_runs s) -> Forall (begins_at_stops B) (sl_runs s) ->
  length ps = length (lo_pos lay) -> length ws = length d ->
  exists c r, find_closest_f following lay ps ws w al k x = Ok c /\
    In r (sl_runs s) /\ B (cp_get_position c) /\ sr_start r <= cp_get_position c <= sr_end r.
Proof.
  intros B following d y k s lay ps ws w al x OKD ST W NS RO BS LP LW. pose proof (stored_eq OKD ST); subst lay.
  destruct (nth_error ws k) as [lw|] eqn:NW.
  - apply vget_ok in NW. eapply hit_legal_f; try eassumption. unfold doc_ok in OKD. rewrite Forall_forall in OKD. exact (OKD s (nth_error_In _ _ NS)).
  - apply nth_error_None in NW. assert (k < length d)%nat by (apply nth_error_Some; congruence). lia.
Qed.
Print Assumptions C109_legal.

(** A click goes to the first line whose bottom is not above it, or to the last line, and
    there to a caret stop.  Whatever the floats [x] and [w], and the widths, are. *)
Theorem C109_click : forall B following d y lay ps ws hs w al x q v, doc_ok d -> stored d y lay -> d <> [] -> walks B following ->
  Forall run_ok (doc_runs d) -> Forall (begins_at_stops B) (doc_runs d) ->
  length ps = length (lo_pos lay) -> length ws = length d -> length hs = length d ->
  Forall (fun h => between_q 0 h (inject_Z (2 ^ 30))) hs -> is_f32 q -> f32_value q = Some v ->
  let ts := descents None hs in
  exists k s c r, nth_error d k = Some s /\
    (forall i t, (i < k)%nat -> nth_error ts i = Some t -> f32_lt t q = true) /\
    ((exists t, nth_error ts k = Some t /\ f32_le q t = true) \/ S k = length d) /\
    closest_f following lay ps ws ts w al x q = Ok c /\ find_closest_f following lay ps ws w al k x = Ok c /\
    In r (sl_runs s) /\ B (cp_get_position c) /\ sr_start r <= cp_get_position c <= sr_end r.
Proof.
  intros B following d y lay ps ws hs w al x q v OKD ST NE W RO BS LP LW LH HH VQ EQ ts.
  destruct (C77_closest_line hs q v HH VQ EQ) as (_ & k0 & E & K1 & K2 & K3). fold ts in E, K2, K3.
  assert (LT : length ts = length d) by (unfold ts; rewrite descents_length; exact LH).
  assert (LL : length (lo_lines lay) = length d) by (rewrite (stored_eq OKD ST); apply lines_length).
  set (k := if (k0 =? length (lo_lines lay))%nat then (length (lo_lines lay) - 1)%nat else k0).
  assert (LD : (0 < length d)%nat) by (destruct d; [congruence|cbn; lia]).
  assert (KL : (k < length d)%nat) by (unfold k; rewrite LL; destruct (Nat.eqb_spec k0 (length d)); lia).
  destruct (nth_error d k) as [s|] eqn:NS; [|apply nth_error_None in NS; lia].
  destruct (C109_legal B following d y k s lay ps ws w al x OKD ST W NS (line_in _ _ _ _ NS RO) (line_in _ _ _ _ NS BS) LP LW) as (c & r & E2 & IR & BC & RG).
  exists k, s, c, r. split; [exact NS|]. split; [|split].
  - intros i t I N. apply (K2 i t); [|exact N]. unfold k in I. rewrite LL in I. destruct (Nat.eqb_spec k0 (length d)); lia.
  - destruct (Nat.eqb_spec k0 (length d)) as [K|K].
    + right. unfold k. rewrite LL. rewrite (proj2 (Nat.eqb_eq _ _) K). lia.
    + left. destruct (nth_error ts k) as [t|] eqn:N; [|apply nth_error_None in N; lia]. exists t. split; [reflexivity|]. apply (K3 k t); [|exact N].
      unfold k. rewrite LL. rewrite (proj2 (Nat.eqb_neq _ _) K). lia.
  - split; [|auto]. unfold closest_f. rewrite E. cbn [obind]. exact E2.
Qed.
Print Assumptions C109_click.

(** Where the click is within the line: the difference from the line's start, with a
    relative error of at most 2^-24. *)
Theorem C109_point : forall x w lw al, Forall (fun x => between_q (- inject_Z (2 ^ 30)) x (inject_Z (2 ^ 30))) [x; w; lw] ->
  exists xv x0 v, f32_value x = Some xv /\ f32_value (line_start w lw al) = Some x0 /\ f32_value (f32_sub x (line_start w lw al)) = Some v /\
    (Qabs (v - (xv - x0)) <= (1 # 16777216) * Qabs (xv - x0))%Q.
Proof.
  intros x w lw al H. rewrite Forall_forall in H. destruct (click_fin x w lw al) as (a & s & FA & FS & FD & E); try (apply modest_between, H; cbn; auto).
  destruct (fin_value _ _ FA) as (xv & Ex & Rx). destruct (fin_value _ _ FS) as (x0 & E0 & R0). destruct (fin_value _ _ FD) as (v & Ev & Rv).
  exists xv, x0, v. split; [exact Ex|]. split; [exact E0|]. split; [exact Ev|]. apply Rle_Qle. rewrite Q2R_mult, !Q2R_abs, !Q2R_minus, Rx, R0, Rv.
  replace (Q2R (1 # 16777216)) with (bpow radix2 (-24)); [exact E|]. change (bpow radix2 (-24)) with (/ 16777216)%R. unfold Q2R. cbn. field.
Qed.
Print Assumptions C109_point.

(** No caret stop of the line is nearer to that point than the one returned, up to one
    part in four million.  Carets are where the program draws them. *)
Theorem C109_nearest : forall B following d y k s lay ps ws w lw al x, doc_ok d -> stored d y lay -> walks B following -> nth_error d k = Some s ->
  Forall run_ok (sl_runs s) -> Forall (begins_at_stops B) (sl_runs s) ->
  Forall (fun r => increasing (logical_chars r)) (sl_runs s) ->
  Forall (fun r => qnondecreasing (run_xs r)) (sl_runs s) -> adjacent (sl_runs s) ->
  positions ps (lo_pos lay) -> nth_error ws k = Some lw ->
  Forall (fun x => between_q (- inject_Z (2 ^ 30)) x (inject_Z (2 ^ 30))) [x; w; lw] ->
  let first := length (doc_runs (firstn k d)) in
  let caret j p f := exists r, nth_error (sl_runs s) j = Some r /\ sr_start r <= p <= sr_end r /\ offset_in_run lay ps (first + j) p = Ok f in
  exists v c j f u, f32_value (f32_sub x (line_start w lw al)) = Some v /\
    find_closest_f following lay ps ws w al k x = Ok c /\ B (cp_get_position c) /\ caret j (cp_get_position c) f /\ f32_value f = Some u /\
    forall i p f', B p -> caret i p f' -> exists u', f32_value f' = Some u' /\ (Qabs (v - u) <= (1 + (1 # 4194304)) * Qabs (v - u'))%Q.
Proof.
  intros B following d y k s lay ps ws w lw al x OKD ST W NS RO BS ONE MX ADJ PS NW H first caret. pose proof (stored_eq OKD ST); subst lay.
  rewrite Forall_forall in H. destruct (click_fin x w lw al) as (a & x0 & _ & _ & FD & _); try (apply modest_between, H; cbn; auto).
  destruct (fin_value _ _ FD) as (v & Ev & Rv). apply vget_ok in NW.
  assert (NE : sl_runs s <> []) by (unfold doc_ok in OKD; rewrite Forall_forall in OKD; exact (OKD s (nth_error_In _ _ NS))).
  destruct (@hit_nearest_f B following d y k s ps ws w lw al x _ W NS NE RO BS ONE MX ADJ PS NW FD) as (c & j & f & V & E & BC & C & FV & N).
  destruct (fin_value _ _ FV) as (u & Eu & Ru). exists v, c, j, f, u. split; [exact Ev|]. split; [exact E|]. split; [exact BC|]. split; [exact C|]. split; [exact Eu|].
  intros i p f' Bp C'. destruct (N i p f' Bp C') as (V' & FV' & L). destruct (fin_value _ _ FV') as (u' & Eu' & Ru'). exists u'. split; [exact Eu'|].
  apply nearly_q. rewrite Rv, Ru, Ru'. exact L.
Qed.
Print Assumptions C109_nearest.

Lemma drawn_fin w lw al f V : fin f V -> (Rabs V <= bpow radix2 18)%R ->
  (al = XLeft \/ exists zw zl zf, 0 <= zl <= zw /\ zw <= 2 ^ 23 /\ 0 <= zf <= zl /\ w = fixed_f32 zw /\ lw = fixed_f32 zl /\ V = (IZR zf / 64)%R) ->
  fin (f32_sub (screen_x w lw al f) (line_start w lw al)) V.
Proof.
  intros F BV [-> |(zw & zl & zf & Z1 & Z2 & Z3 & -> & -> & ->)].
  - unfold screen_x, line_start. assert (F0 : fin f32_0 0) by (pose proof (fin_of_Z 0 ltac:(lia)) as Z; rewrite rr_0 in Z; exact Z).
    assert (B1 : (bpow radix2 18 <= bpow radix2 100)%R) by (apply bpow_le; lia).
    assert (A : fin (f32_add f32_0 f) V).
    { assert (E : rr (0 + V) = V) by (rewrite Rplus_0_l; exact (fin_rr _ _ F)). rewrite <- E. apply fin_add; [exact F0|exact F|]. rewrite Rplus_0_l. lra. }
    assert (E : rr (V - 0) = V) by (rewrite Rminus_0_r; exact (fin_rr _ _ F)). rewrite <- E. apply fin_sub; [exact A|exact F0|]. rewrite Rminus_0_r. lra.
  - destruct (t_alignment zw zl Z1 ltac:(lia)) as (AL & AR & AC & _).
    assert (G : exists z0, 0 <= z0 /\ z0 + 2 * zf <= 2 ^ 24 /\ fin (line_start (fixed_f32 zw) (fixed_f32 zl) al) (IZR z0 * bpow radix2 (-7))).
    { destruct al.
      - exists 0. split; [lia|]. split; [lia|]. apply exactly_fin in AL. replace (IZR 0 * bpow radix2 (-7))%R with (Q2R 0); [exact AL|]. unfold Q2R. cbn. lra.
      - exists (2 * (zw - zl)). split; [lia|]. split; [lia|]. apply exactly_fin in AR. 
        replace (IZR (2 * (zw - zl)) * bpow radix2 (-7))%R with (Q2R ((zw # 64) - (zl # 64))); [exact AR|].
        rewrite Q2R_minus, !Q2R_64, mult_IZR, minus_IZR. change (bpow radix2 (-7)) with (/ 128)%R. field.
      - exists (zw - zl). split; [lia|]. split; [lia|]. apply exactly_fin in AC.
        replace (IZR (zw - zl) * bpow radix2 (-7))%R with (Q2R ((1 # 2) * ((zw # 64) - (zl # 64)))); [exact AC|].
        rewrite Q2R_mult, Q2R_minus, !Q2R_64, minus_IZR. change (bpow radix2 (-7)) with (/ 128)%R. unfold Q2R at 1. cbn. field. }
    destruct G as (z0 & P0 & P1 & FS). unfold screen_x. set (st := line_start _ _ al) in *.
    assert (E2 : (IZR zf / 64 = IZR (2 * zf) * bpow radix2 (-7))%R) by (rewrite mult_IZR; change (bpow radix2 (-7)) with (/ 128)%R; field). rewrite E2 in *.
    assert (Bd : forall z, 0 <= z <= 2 ^ 24 -> (Rabs (IZR z * bpow radix2 (-7)) <= bpow radix2 100)%R).
    { intros z [Z Z']. apply IZR_le in Z, Z'. change (bpow radix2 (-7)) with (/ 128)%R. rewrite Rabs_pos_eq by lra.
      apply Rle_trans with (bpow radix2 24); [change (bpow radix2 24) with (IZR (2 ^ 24)); lra|apply bpow_le; lia]. }
    assert (A : fin (f32_add st f) (IZR (z0 + 2 * zf) * bpow radix2 (-7))).
    { assert (E : rr (IZR z0 * bpow radix2 (-7) + IZR (2 * zf) * bpow radix2 (-7)) = (IZR (z0 + 2 * zf) * bpow radix2 (-7))%R).
      { replace (IZR z0 * bpow radix2 (-7) + IZR (2 * zf) * bpow radix2 (-7))%R with (IZR (z0 + 2 * zf) * bpow radix2 (-7))%R by (rewrite (plus_IZR z0); ring).
        apply rr_id, format_fixed; lia. }
      rewrite <- E. apply fin_add; [exact FS|exact F|]. replace (IZR z0 * bpow radix2 (-7) + IZR (2 * zf) * bpow radix2 (-7))%R with (IZR (z0 + 2 * zf) * bpow radix2 (-7))%R by (rewrite (plus_IZR z0); ring).
      apply Bd. lia. }
    assert (D : (IZR (z0 + 2 * zf) * bpow radix2 (-7) - IZR z0 * bpow radix2 (-7) = IZR (2 * zf) * bpow radix2 (-7))%R) by (rewrite (plus_IZR z0); ring).
    assert (E : rr (IZR (z0 + 2 * zf) * bpow radix2 (-7) - IZR z0 * bpow radix2 (-7)) = (IZR (2 * zf) * bpow radix2 (-7))%R) by (rewrite D; exact (fin_rr _ _ F)).
    rewrite <- E. apply fin_sub; [exact A|exact FS|]. rewrite D. apply Bd. lia.
Qed.

(** Clicking exactly where a caret is drawn gives a position with its caret exactly
    there, and that very position if it is the only one with a caret there: for every
    caret of left-aligned text, and for the glyphs' edges in any alignment when the widths
    are 26.6 numbers up to 131072 pixels. *)
Theorem C109_round_trip : forall B following d y k s lay ps ws w lw al, doc_ok d -> stored d y lay -> walks B following -> nth_error d k = Some s ->
  Forall run_ok (sl_runs s) -> Forall (begins_at_stops B) (sl_runs s) ->
  Forall (fun r => increasing (logical_chars r)) (sl_runs s) ->
  Forall (fun r => qnondecreasing (run_xs r)) (sl_runs s) -> adjacent (sl_runs s) ->
  positions ps (lo_pos lay) -> nth_error ws k = Some lw ->
  let first := length (doc_runs (firstn k d)) in
  let caret j p f := exists r, nth_error (sl_runs s) j = Some r /\ sr_start r <= p <= sr_end r /\ offset_in_run lay ps (first + j) p = Ok f in
  forall j p f u, B p -> caret j p f -> f32_value f = Some u ->
  (al = XLeft \/ exists zw zl zf, 0 <= zl <= zw /\ zw <= 2 ^ 23 /\ 0 <= zf <= zl /\ w = fixed_f32 zw /\ lw = fixed_f32 zl /\ (u == zf # 64)%Q) ->
  exists c i f' u', find_closest_f following lay ps ws w al k (screen_x w lw al f) = Ok c /\ B (cp_get_position c) /\
    caret i (cp_get_position c) f' /\ f32_value f' = Some u' /\ (u' == u)%Q /\
    ((forall i q g t, B q -> caret i q g -> f32_value g = Some t -> (t == u)%Q -> q = p) -> cp_get_position c = p).
Proof.
  intros B following d y k s lay ps ws w lw al OKD ST W NS RO BS ONE MX ADJ PS NW first caret. pose proof (stored_eq OKD ST); subst lay. intros j p f u Bp C Eu AL.
  apply vget_ok in NW. assert (NE : sl_runs s <> []) by (unfold doc_ok in OKD; rewrite Forall_forall in OKD; exact (OKD s (nth_error_In _ _ NS))).
  destruct (@caretf_inv d y k s ps NS RO PS j p f C) as (r & g & Er & Hp & CA).
  assert (LF : forall i, (i <= run_len r)%nat -> position (lf r (pf d ps (run_first d k + j)) i) (nth i (logical_xs r) 0%Q)) by (intros i Hi; exact (@pf_lf d y k s ps NS PS j r i Er Hi)).
  assert (O : run_ok r) by (rewrite Forall_forall in RO; exact (RO _ (nth_error_In _ _ Er))).
  assert (M : qnondecreasing (run_xs r)) by (rewrite Forall_forall in MX; exact (MX _ (nth_error_In _ _ Er))).
  pose proof (caret_value r _ O LF _ _ _ CA) as FV. pose proof (cv_bounds r _ LF M _ _ _ CA) as Bd. set (V := cv r p g) in *.
  assert (BV : (Rabs V <= bpow radix2 18)%R).
  { pose proof (logical_first_last r) as FL. destruct (X_is r _ LF 0 ltac:(lia)) as (z1 & B1 & E1 & _). destruct (X_is r _ LF (run_len r) ltac:(lia)) as (z2 & B2 & E2 & _).
    pose proof (val_bound _ B1) as V1. pose proof (val_bound _ B2) as V2. rewrite <- E1 in V1. rewrite <- E2 in V2. unfold X in V1, V2.
    apply Rabs_le. destruct (sr_rtl r); destruct FL as [F1 F2]; rewrite F1 in V1; rewrite F2 in V2; lra. }
  pose proof (value_unique _ _ _ FV Eu) as EV.
  assert (FD : fin (f32_sub (screen_x w lw al f) (line_start w lw al)) V).
  { apply drawn_fin; [exact FV|exact BV|]. destruct AL as [A|(zw & zl & zf & A1 & A2 & A3 & A4 & A5 & A6)]; [left; exact A|right].
    exists zw, zl, zf. repeat (split; [assumption|]). rewrite EV. rewrite (Qeq_eqR _ _ A6). apply Q2R_64. }
  destruct (@hit_nearest_f B following d y k s ps ws w lw al (screen_x w lw al f) V W NS NE RO BS ONE MX ADJ PS NW FD) as (c & i & f' & V' & E & BC & C' & FV' & N).
  destruct (N j p f Bp C) as (V'' & FV'' & L). rewrite (fin_unique FV'' FV) in L. unfold nearly in L.
  assert (EQ : V' = V).
  { rewrite (Rminus_diag_eq V V eq_refl), Rabs_R0, Rmult_0_r in L. pose proof (Rabs_pos (V - V')) as P. assert (Z : Rabs (V - V') = 0%R) by lra.
    destruct (Req_dec (V - V') 0) as [D|D]; [lra|]. apply Rabs_no_R0 in D. contradiction. }
  destruct (fin_value _ _ FV') as (u' & Eu' & Ru'). assert (QE : (u' == u)%Q) by (apply eqR_Qeq; rewrite Ru', EQ; exact EV).
  exists c, i, f', u'. split; [exact E|]. split; [exact BC|]. split; [exact C'|]. split; [exact Eu'|]. split; [exact QE|].
  intros U. exact (U i _ f' u' BC C' Eu' QE).
Qed.
Print Assumptions C109_round_trip.

(** The sample, right aligned: a click at 44 within the line goes to position 5, whose
    caret is at 40 and which the right-to-left run draws before position 4 at 50. *)
Example C109_witness : let lay := layout_of sample 0 in let ps := map to_f (lo_pos lay) in let ws := map f32_of_Z [80; 10; 0] in
  positions ps (lo_pos lay) /\ find_closest_f each lay ps ws (f32_of_Z 100) XRight 0 (f32_of_Z 64) = Ok 5 /\
  offset_in_run lay ps 1 5 = Ok (f32_of_Z 40) /\ screen_x (f32_of_Z 100) (f32_of_Z 80) XRight (f32_of_Z 40) = f32_of_Z 60 /\
  closest_f each lay ps ws (descents None (map f32_of_Z [12; 14; 10])) (f32_of_Z 100) XRight (f32_of_Z 64) (f32_of_Z 5) = Ok 5 /\
  closest_f each lay ps ws (descents None (map f32_of_Z [12; 14; 10])) S754_nan XRight (f32_of_Z 64) S754_nan = Ok 0.
Proof. split; [exact (proj1 C77_witness)|]. vm_compute. repeat split. Qed.

(** Not quite the nearest: in a cluster of seven characters on 17/64 pixel with stops
    after the first and the last one, the answer is the first although the last is
    nearer, by one part in thirty million. *)
Definition wide : sdoc := [mkline [mkrun 0 7 0 false [gl 10 0 0] (17 # 64)] 12].
Definition two_stops (c : Z) : Z := if c <? 1 then 1 else if c <? 7 then 7 else -1.
Theorem C109_exactly_refuted : exists d B following ps ws w x v f f' u u',
  doc_ok d /\ Forall run_ok (doc_runs d) /\ walks B following /\ Forall (begins_at_stops B) (doc_runs d) /\ positions ps (lo_pos (layout_of d 0)) /\
  B 1 /\ B 7 /\ is_f32 x /\ f32_value (f32_sub x f32_0) = Some v /\
  find_closest_f following (layout_of d 0) ps ws w XLeft 0 x = Ok 1 /\
  offset_in_run (layout_of d 0) ps 0 1 = Ok f /\ f32_value f = Some u /\ offset_in_run (layout_of d 0) ps 0 7 = Ok f' /\ f32_value f' = Some u' /\
  (Qabs (v - u') < Qabs (v - u))%Q.
Proof.
  exists wide, (fun c => c = 0 \/ c = 1 \/ c = 7), two_stops, (map to_f (lo_pos (layout_of wide 0))), [to_f (17 # 64)], f32_0, (S754_finite false 10186167 (-26)).
  do 5 eexists. split; [repeat constructor; discriminate|]. split; [unfold wide, doc_runs, run_ok; cbn -[Z.pow]; repeat constructor; cbn -[Z.pow]; lia|].
  split. { intros c Hc. unfold two_stops. destruct (Z.ltb_spec c 1); [right|destruct (Z.ltb_spec c 7); [right|left]]; repeat split; intros; lia. }
  split; [unfold wide, doc_runs, begins_at_stops; cbn; repeat constructor; cbn; lia|]. split.
  { repeat constructor; eexists; (split; [|split; [|reflexivity]]); vm_compute; try reflexivity; split; discriminate. }
  split; [lia|]. split; [lia|]. split; [reflexivity|]. repeat (split; [vm_compute; reflexivity|]). vm_compute. reflexivity.
Qed.
Print Assumptions C109_exactly_refuted.
