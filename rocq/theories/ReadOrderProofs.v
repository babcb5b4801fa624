(** Carets of a left-to-right text stand in the order of the text. *)
From Coq Require Import Lqa.
From Verif Require Import Base BaseFacts PackingModel PackingProofs LayoutModel LayoutSpec LayoutProofs LayoutGeomProofs
  LayoutCaretProofs LayoutCursorProofs LayoutHitProofs LayoutTableProofs ClickSpec ClickProofs KeyCaretProofs ReadOrderSpec.
Open Scope Z_scope.
Set Implicit Arguments.

Lemma run_first_mono d x z : (x <= z)%nat -> (run_first d x <= run_first d z)%nat.
Proof.
  intros H. induction H; [lia|]. destruct (nth_error d m) as [s|] eqn:Es.
  - rewrite (run_first_succ _ _ Es). lia.
  - apply nth_error_None in Es. rewrite (@run_first_full d (S m)) by lia. pose proof (run_first_le d x). lia.
Qed.
Lemma line_order d i i' k k' : run_on_line d i k -> run_on_line d i' k' -> (i <= i')%nat -> (k <= k')%nat.
Proof.
  intros [H1 H2] [H3 H4] L. fold (run_first d k) (run_first d (S k)) in H2. fold (run_first d k') (run_first d (S k')) in H4.
  destruct (le_lt_dec k k') as [H|H]; [exact H|]. pose proof (@run_first_mono d (S k') k H). lia.
Qed.

Section Order.
Variables (d : sdoc) (y w : Q) (al : xalign).
Hypothesis OKD : doc_ok d.
Hypothesis T : ltr_text d.

Lemma ok_run i r : nth_error (doc_runs d) i = Some r -> run_ok r.
Proof. destruct T as (_ & _ & RO & _). rewrite Forall_forall in RO. intros E. exact (RO _ (nth_error_In _ _ E)). Qed.
Lemma ltr_run i r : nth_error (doc_runs d) i = Some r -> sr_rtl r = false.
Proof. destruct T as (_ & _ & _ & L & _). rewrite Forall_forall in L. intros E. exact (L _ (nth_error_In _ _ E)). Qed.

(** The run of the cursor has it before its separator. *)
Lemma run_of c : has_caret d (cp_get_position c) ->
  exists i k r, get_run_containing_cursor (layout_of d y) c = Ok (Z.of_nat i, k) /\ run_on_line d i k /\
    nth_error (doc_runs d) i = Some r /\ sr_start r <= cp_get_position c <= sr_end r.
Proof.
  intros (r & Hr & Hp). set (p := cp_get_position c) in *. apply In_nth_error in Hr. destruct Hr as [m Em].
  pose proof T as (J & NE & RO & L & _).
  assert (Hm : (m < length (doc_runs d))%nat) by (apply nth_error_Some; congruence).
  assert (exists r0, nth_error (doc_runs d) 0 = Some r0) as [r0 E0]
    by (destruct (nth_error (doc_runs d) 0) eqn:E; [eauto|apply nth_error_None in E; lia]).
  assert (exists rn, nth_error (doc_runs d) (length (doc_runs d) - 1) = Some rn) as [rn En]
    by (destruct (nth_error (doc_runs d) (length (doc_runs d) - 1)) eqn:E; [eauto|apply nth_error_None in E; lia]).
  pose proof (ok_run _ E0) as (A1 & A2 & A3 & _). pose proof (ok_run _ En) as (B1 & B2 & B3 & _). pose proof (ok_run _ Em) as (C1 & C2 & C3 & _).
  assert (P1 : sr_start r0 <= p).
  { destruct (Nat.eq_dec m 0) as [->|N]; [assert (r = r0) by congruence; subst; lia|]. pose proof (joined_start J E0 Em ltac:(lia)). lia. }
  assert (P2 : p <= sr_end rn + sr_offset rn).
  { destruct (Nat.eq_dec m (length (doc_runs d) - 1)) as [->|N]; [assert (r = rn) by congruence; subst; lia|]. pose proof (joined_start J Em En ltac:(lia)). lia. }
  destruct (@t_C32_every_position d y c r0 rn OKD J RO E0 En ltac:(fold p; lia)) as (i & k & E & O & (t & Et & Ht)). fold p in Ht.
  exists i, k, t. split; [exact E|]. split; [exact O|]. split; [exact Et|]. pose proof (ok_run _ Et) as (D1 & D2 & D3 & _).
  split; [lia|]. destruct (Z_le_gt_dec p (sr_end t)) as [H|H]; [exact H|exfalso].
  destruct (lt_eq_lt_dec i m) as [[H1|H1]|H1].
  - pose proof (joined_start J Et Em H1) as H2.
    destruct (nth_error (doc_runs d) (S i)) as [q|] eqn:Eq; [|apply nth_error_None in Eq; lia].
    pose proof (J _ _ _ Et Eq) as (H3 & _).
    destruct (@t_C32_boundary_policy d y c i k t q OKD J RO Et Eq ltac:(fold p; lia) O) as [_ N].
    destruct N as (line & E' & _).
    + intros [(_ & Q & _)|[(_ & _ & Q & _)|(_ & Q & _)]]; [rewrite (ltr_run _ Et) in Q; discriminate|rewrite (ltr_run _ Eq) in Q; discriminate|lia].
    + rewrite E in E'. injection E' as E' _. lia.
  - subst m. assert (r = t) by congruence. subst. lia.
  - pose proof (joined_start J Em Et H1). lia.
Qed.

Lemma carets_in_order c c' : has_caret d (cp_get_position c) -> has_caret d (cp_get_position c') -> cp_get_position c < cp_get_position c' ->
  exists i i', calc_cursor_pixel_pos (layout_of d y) w al c = Ok i /\ calc_cursor_pixel_pos (layout_of d y) w al c' = Ok i' /\ not_after i i'.
Proof.
  intros HC HC' LT. destruct (run_of _ HC) as (m & k & r & E & O & Er & Hp). destruct (run_of _ HC') as (m' & k' & r' & E' & O' & Er' & Hp').
  pose proof T as (J & NE & RO & L & MX & ADJ).
  assert (exists s, nth_error d k = Some s) as [s Es] by (destruct (nth_error d k) eqn:Q; [eauto|apply nth_error_None in Q; destruct O; lia]).
  assert (exists s', nth_error d k' = Some s') as [s' Es'] by (destruct (nth_error d k') eqn:Q; [eauto|apply nth_error_None in Q; destruct O'; lia]).
  destruct (off_this_line Es O) as [I1 I2]. destruct (off_this_line Es' O') as [I1' I2'].
  assert (EL : nth_error (sl_runs s) (m - run_first d k) = Some r).
  { rewrite <- (line_runs _ _ Es) by lia. replace (run_first d k + (m - run_first d k))%nat with m by lia. exact Er. }
  assert (EL' : nth_error (sl_runs s') (m' - run_first d k') = Some r').
  { rewrite <- (line_runs _ _ Es') by lia. replace (run_first d k' + (m' - run_first d k'))%nat with m' by lia. exact Er'. }
  replace m with (run_first d k + (m - run_first d k))%nat in E by lia. replace m' with (run_first d k' + (m' - run_first d k'))%nat in E' by lia.
  destruct (@caret_of d y k s w al RO Es _ r c EL Hp E) as (i & g & X & F1 & F2 & F3 & F4 & F5 & F6).
  destruct (@caret_of d y k' s' w al RO Es' _ r' c' EL' Hp' E') as (i' & g' & X' & F1' & F2' & F3' & F4' & F5' & F6').
  exists i, i'. split; [exact F1|]. split; [exact F1'|].
  assert (Hm : (m <= m')%nat).
  { destruct (le_lt_dec m m') as [H|H]; [exact H|]. pose proof (joined_start J Er' Er H). pose proof (ok_run _ Er') as (? & ? & ? & _). lia. }
  pose proof (line_order O O' Hm) as Hk. unfold not_after. rewrite F2, F2'. destruct (Nat.eq_dec k k') as [K|K]; [right|left; lia].
  split; [exact K|]. rewrite <- K in *. assert (s' = s) by congruence. subst s'. rewrite F3, F3'. apply Qplus_le_r.
  rewrite Forall_forall in MX. pose proof (MX _ (nth_error_In _ _ Er)) as M1. pose proof (MX _ (nth_error_In _ _ Er')) as M2.
  destruct (Nat.eq_dec m m') as [M|M].
  - subst m'. assert (r' = r) by congruence. subst r'. pose proof (caret_mono (ok_run _ Er) M1 F6 F6' ltac:(lia)) as RD. unfold reads in RD.
    rewrite (ltr_run _ Er) in RD. exact RD.
  - destruct (caret_bounds (ok_run _ Er) M1 F6) as [_ U]. destruct (caret_bounds (ok_run _ Er') M2 F6') as [V _].
    rewrite Forall_forall in ADJ.
    assert (MS : Forall (fun r => qnondecreasing (run_xs r)) (sl_runs s)).
    { apply Forall_forall. intros t Ht. apply MX. unfold doc_runs. apply in_flat_map. exists s. split; [exact (nth_error_In _ _ Es)|exact Ht]. }
    assert (HL : (m - run_first d k < m' - run_first d k)%nat) by lia.
    pose proof (@adjacent_order (sl_runs s) (m - run_first d k) (m' - run_first d k) r r' (ADJ _ (nth_error_In _ _ Es)) MS EL EL' HL) as A.
    eapply Qle_trans; [exact U|]. eapply Qle_trans; [exact A|exact V].
Qed.
End Order.
