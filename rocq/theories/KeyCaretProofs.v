(** The caret after Up, Down, Home and End. *)
From Coq Require Import Lqa Qabs.
From Verif Require Import Base BaseFacts PackingModel PackingProofs LayoutModel LayoutSpec LayoutProofs LayoutGeomProofs
  LayoutCaretProofs LayoutCursorProofs LayoutHitProofs LayoutTableProofs ClickSpec ClickProofs.
Open Scope Z_scope.
Set Implicit Arguments.

Section Ends.
Variables (d : sdoc) (y : Q) (k : nat) (s : sline) (w : Q) (al : xalign).
Hypothesis OKD : doc_ok d.
Hypothesis J : joined d.
Hypothesis RO : Forall run_ok (doc_runs d).
Hypothesis EM : empty_after_separator d.
Hypothesis Es : nth_error d k = Some s.
Hypothesis ONE : Forall (fun r => increasing (logical_chars r)) (sl_runs s).
Let l := layout_of d y.
Let R := run_first d k.

Lemma runs_ok : Forall run_ok (sl_runs s).
Proof. apply Forall_forall. intros t Ht. rewrite Forall_forall in RO. apply RO. unfold doc_runs. apply in_flat_map. exists s. split; [exact (nth_error_In _ _ Es)|exact Ht]. Qed.
Lemma runs_ne : sl_runs s <> [].
Proof. unfold doc_ok in OKD. rewrite Forall_forall in OKD. apply OKD, (nth_error_In _ _ Es). Qed.
Lemma run_at j r : nth_error (sl_runs s) j = Some r -> nth_error (doc_runs d) (R + j) = Some r.
Proof. intros Er. unfold R. rewrite (line_runs _ _ Es) by (apply nth_error_Some; congruence). exact Er. Qed.
Lemma run_is_ok j r : nth_error (sl_runs s) j = Some r -> run_ok r.
Proof. intros Er. pose proof runs_ok as L. rewrite Forall_forall in L. exact (L _ (nth_error_In _ _ Er)). Qed.

(** The caret of a cursor that falls to run [j] of the line. *)
Lemma caret_of j r c : nth_error (sl_runs s) j = Some r -> sr_start r <= cp_get_position c <= sr_end r ->
  get_run_containing_cursor l c = Ok (Z.of_nat (R + j), k) ->
  exists i g X, calc_cursor_pixel_pos l w al c = Ok i /\ ci_line i = k /\ (ci_x i == align_x w al s + X)%Q /\ (ci_y i == y + heights (firstn k d))%Q /\
    (ci_height i == sl_height s)%Q /\ caret_at r (cp_get_position c) g X.
Proof.
  intros Er Hp E. destruct (@caret_ex d y k s Es runs_ok j r _ Er Hp) as (X & g & (r1 & _ & _ & V) & CA).
  destruct (x_start_of d y k w al Es) as (x0 & E0 & EA). destruct (above_of d y k Es) as (h & t & Eh & Hh & Et & Ht).
  eexists. exists g, X. split.
  { unfold calc_cursor_pixel_pos. rewrite E. cbn [obind]. fold l in E0, Eh, Et, V. rewrite E0. cbn [obind].
    replace (Z.of_nat (R + j) <? 0) with false by (symmetry; apply Z.ltb_ge; lia). rewrite Nat2Z.id.
    fold R in V. rewrite V. cbn [obind]. rewrite Eh. cbn [obind]. rewrite Et. cbn [obind]. reflexivity. }
  cbn [ci_x ci_y ci_height ci_line]. split; [reflexivity|]. split; [rewrite EA; reflexivity|]. split; [rewrite Hh; reflexivity|].
  split; [rewrite Ht, Hh; ring|exact CA].
Qed.

Lemma starts_grow i j r q : nth_error (sl_runs s) i = Some r -> nth_error (sl_runs s) j = Some q -> (i < j)%nat -> sr_end r <= sr_start q /\ sr_start r < sr_start q.
Proof.
  intros Er Eq L. pose proof (joined_start J (run_at _ Er) (run_at _ Eq) ltac:(lia)) as A.
  pose proof (run_is_ok _ Er) as (_ & _ & B & _).
  assert (Hj : (j < length (sl_runs s))%nat) by (apply nth_error_Some; congruence).
  destruct (nth_error (sl_runs s) (S i)) as [t|] eqn:Et; [|apply nth_error_None in Et; lia].
  pose proof (run_at _ Et) as E2. replace (R + S i)%nat with (S (R + i)) in E2 by lia.
  pose proof (J _ (run_at _ Er) E2) as (_ & C & _). lia.
Qed.

Lemma last_run : exists r, nth_error (sl_runs s) (length (sl_runs s) - 1) = Some r.
Proof.
  destruct (nth_error (sl_runs s) (length (sl_runs s) - 1)) as [r|] eqn:E; [exists r; reflexivity|].
  apply nth_error_None in E. pose proof runs_ne. destruct (sl_runs s); [congruence|cbn in E; lia].
Qed.

(** A cursor at the left end of the first run. *)
Lemma home_run r c : nth_error (sl_runs s) 0 = Some r -> cp_get_affinity c = ADefault ->
  cp_get_position c = (if sr_rtl r then sr_end r else sr_start r) ->
  sr_rtl r = false \/ one_run_paragraph d k s -> get_run_containing_cursor l c = Ok (Z.of_nat (R + 0), k).
Proof.
  intros Er Ea Ep H. pose proof (run_is_ok _ Er) as (O1 & O2 & O3 & _).
  destruct H as [D|P].
  2: { destruct (@caret_ex d y k s Es runs_ok 0 r (cp_get_position c) Er) as (X & g & CX & _); [destruct (sr_rtl r); lia|].
       destruct (click_run_paragraph OKD J RO Es c P CX) as (m & X' & E & (r1 & Er1 & _) & _). fold l R in E.
       assert (m = 0%nat) by (destruct P as (L1 & _); assert (m < length (sl_runs s))%nat by (apply nth_error_Some; congruence); lia). subst m. exact E. }
  rewrite D in Ep.
  assert (Hl : (0 < length (sl_runs s))%nat) by (apply nth_error_Some; congruence).
  apply (@cursor_at d y c (R + 0) k r OKD J RO (run_at _ Er) (on_this_line d k Es Hl)); rewrite ?Ep; [lia| |intros; congruence].
  intros _ i' k' q Hi' Ol Eq K. unfold keeps_cursor in K. rewrite <- Hi', Ea in K.
  assert (NL : ~ run_on_line d (R + 0) k').
  { intros Y. pose proof (on_line_unique (on_this_line d k Es Hl) Y) as <-. apply (off_this_line Es) in Ol. fold R in Ol. lia. }
  destruct K as [(Y & _)|[(Y & _)|(_ & _ & A)]]; [exact (NL Y)|exact (NL Y)|discriminate].
Qed.

(** A cursor at the right end of the last run. *)
Lemma end_run r c : let n := (length (sl_runs s) - 1)%nat in nth_error (sl_runs s) n = Some r ->
  cp_get_affinity c = (if sr_offset r =? 0 then AOpposite else ADefault) ->
  cp_get_position c = (if sr_rtl r then sr_start r else sr_end r) ->
  (sr_rtl r = false /\ (sr_start r < sr_end r \/ n = 0%nat)) \/ one_run_paragraph d k s -> get_run_containing_cursor l c = Ok (Z.of_nat (R + n), k).
Proof.
  intros n Er Ea Ep H. pose proof (run_is_ok _ Er) as (O1 & O2 & O3 & _).
  destruct H as [[D NE]|P].
  2: { destruct (@caret_ex d y k s Es runs_ok n r (cp_get_position c) Er) as (X & g & CX & _); [destruct (sr_rtl r); lia|].
       destruct (click_run_paragraph OKD J RO Es c P CX) as (m & X' & E & (r1 & Er1 & _) & _). fold l R in E.
       assert (m = n) by (destruct P as (L1 & _); assert (m < length (sl_runs s))%nat by (apply nth_error_Some; congruence); lia). subst m. exact E. }
  rewrite D in Ep.
  assert (Hl : (n < length (sl_runs s))%nat) by (apply nth_error_Some; congruence).
  apply (@cursor_at d y c (R + n) k r OKD J RO (run_at _ Er) (on_this_line d k Es Hl)); rewrite ?Ep; [lia| |].
  - intros Hs i' k' q Hi' Ol Eq K. destruct NE as [NE|NE]; [lia|]. unfold keeps_cursor in K. rewrite <- Hi' in K.
    assert (NL : ~ run_on_line d (R + n) k').
    { intros Y. pose proof (on_line_unique (on_this_line d k Es Hl) Y) as <-. apply (off_this_line Es) in Ol. fold R in Ol. lia. }
    destruct K as [(Y & _)|[(Y & _)|(_ & Ho & A)]]; [exact (NL Y)|exact (NL Y)|].
    pose proof (run_at _ Er) as Ei. rewrite Hi' in Ei. exact (EM _ Eq Ei ltac:(lia) Ho).
  - intros Hs He q Eq. right. right. assert (Ho : sr_offset r = 0) by lia. split; [|split; [exact Ho|rewrite Ea, Ho; reflexivity]].
    intros Y. apply (off_this_line Es) in Y. fold R in Y. lia.
Qed.


(** An empty run of the line is not after another one without a separator. *)
Lemma no_empty_after j r i q : nth_error (sl_runs s) j = Some r -> nth_error (sl_runs s) i = Some q -> (i < j)%nat -> sr_start r = sr_end r -> sr_end q < sr_start r.
Proof.
  intros Er Eq L Z0. destruct (nth_error (sl_runs s) (j - 1)) as [t|] eqn:Et;
    [|apply nth_error_None in Et; assert (j < length (sl_runs s))%nat by (apply nth_error_Some; congruence); lia].
  pose proof (run_at _ Et) as E1. pose proof (run_at _ Er) as E2. replace (R + j)%nat with (S (R + (j - 1))) in E2 by lia.
  pose proof (EM _ E1 E2 Z0) as NZ. pose proof (J _ E1 E2) as (H & _). pose proof (run_is_ok _ Et) as (T1 & _ & T3 & _).
  destruct (Nat.eq_dec i (j - 1)) as [->|NE]; [assert (q = t) by congruence; subst q; lia|].
  destruct (@starts_grow i (j - 1) q t Eq Et ltac:(lia)). lia.
Qed.

Lemma home_shows r : nth_error (sl_runs s) 0 = Some r -> sr_rtl r = false \/ one_run_paragraph d k s ->
  exists c i, get_line_start_position l k = Ok c /\ calc_cursor_pixel_pos l w al c = Ok i /\ ci_line i = k /\
    (ci_x i == align_x w al s + run_first_x r)%Q /\ (ci_y i == y + heights (firstn k d))%Q /\ (ci_height i == sl_height s)%Q.
Proof.
  intros Er H. destruct (line_start_of d y k Es runs_ne) as (r1 & Hr & Min & E).
  assert (r1 = r).
  { apply In_nth_error in Hr. destruct Hr as [a Ha]. destruct (Nat.eq_dec a 0) as [->|NZ]; [congruence|]. exfalso.
    pose proof (@starts_grow 0 a r r1 Er Ha ltac:(lia)) as [A _]. specialize (Min r (nth_error_In _ _ Er)). pose proof (run_is_ok _ Ha) as (B & _).
    pose proof (@no_empty_after a r1 0 r Ha Er ltac:(lia) ltac:(lia)). lia. }
  subst r1. pose proof (run_is_ok _ Er) as O. pose proof O as (O1 & O2 & O3 & _).
  set (c := cp_make (if sr_rtl r then sr_end r else sr_start r)) in *.
  assert (Ep : cp_get_position c = if sr_rtl r then sr_end r else sr_start r) by (apply cp_make_position; destruct (sr_rtl r); lia).
  assert (Ea : cp_get_affinity c = ADefault).
  { unfold c, cp_make, cp_get_affinity. rewrite wrap_small by (destruct (sr_rtl r); lia). rewrite Z.shiftr_div_pow2, Z.div_small by (destruct (sr_rtl r); lia). reflexivity. }
  pose proof (@home_run r c Er Ea Ep H) as G.
  destruct (@caret_of 0 r c Er ltac:(rewrite Ep; destruct (sr_rtl r); lia) G) as (i & g & X & C1 & C2 & C3 & C4 & C5 & CA).
  exists c, i. split; [exact E|]. split; [exact C1|]. split; [exact C2|]. split; [|split; assumption].
  rewrite C3. rewrite (caret_left d k O CA) by (try exact Ep; rewrite Forall_forall in ONE; apply ONE, (nth_error_In _ _ Er)). reflexivity.
Qed.

Lemma end_shows r : nth_error (sl_runs s) (length (sl_runs s) - 1) = Some r ->
  (sr_rtl r = false /\ (sr_start r < sr_end r \/ length (sl_runs s) = 1%nat)) \/ one_run_paragraph d k s ->
  exists c i, get_line_end_position l k = Ok c /\ calc_cursor_pixel_pos l w al c = Ok i /\ ci_line i = k /\
    (ci_x i == align_x w al s + sr_end_x r)%Q /\ (ci_y i == y + heights (firstn k d))%Q /\ (ci_height i == sl_height s)%Q.
Proof.
  intros Er H. destruct (line_end_of d y k Es runs_ne) as (j & r1 & Hr & Max & E). set (n := (length (sl_runs s) - 1)%nat) in *.
  assert (Hn : (n < length (sl_runs s))%nat) by (apply nth_error_Some; congruence).
  assert (j = n).
  { assert (j < length (sl_runs s))%nat by (apply nth_error_Some; congruence). destruct (Nat.eq_dec j n) as [|NE]; [assumption|]. exfalso.
    pose proof (@starts_grow j n r1 r Hr Er ltac:(lia)) as [A _]. specialize (Max r (nth_error_In _ _ Er)). pose proof (run_is_ok _ Er) as (B & _).
    pose proof (@no_empty_after n r j r1 Er Hr ltac:(lia) ltac:(lia)). lia. }
  subst j. rewrite Er in Hr. injection Hr as <-. pose proof (run_is_ok _ Er) as O. pose proof O as (O1 & O2 & O3 & _).
  replace (S n =? length (sl_runs s))%nat with true in E by (symmetry; apply Nat.eqb_eq; lia). cbn [andb] in E.
  set (c := make_cursor (if sr_rtl r then sr_start r else sr_end r) (sr_offset r =? 0)) in *.
  assert (Ep : cp_get_position c = if sr_rtl r then sr_start r else sr_end r) by (apply make_cursor_position; destruct (sr_rtl r); lia).
  assert (Ea : cp_get_affinity c = if sr_offset r =? 0 then AOpposite else ADefault) by (apply make_cursor_affinity; destruct (sr_rtl r); lia).
  assert (H' : (sr_rtl r = false /\ (sr_start r < sr_end r \/ n = 0%nat)) \/ one_run_paragraph d k s).
  { destruct H as [[H1 [H2|H2]]|H]; [left; auto| |right; exact H]. left. split; [exact H1|right; lia]. }
  pose proof (@end_run r c Er Ea Ep H') as G.
  destruct (@caret_of n r c Er ltac:(rewrite Ep; destruct (sr_rtl r); lia) G) as (i & g & X & C1 & C2 & C3 & C4 & C5 & CA).
  exists c, i. split; [exact E|]. split; [exact C1|]. split; [exact C2|]. split; [|split; assumption].
  rewrite C3. rewrite (caret_right d k O CA) by (try exact Ep; rewrite Forall_forall in ONE; apply ONE, (nth_error_In _ _ Er)). reflexivity.
Qed.
End Ends.
