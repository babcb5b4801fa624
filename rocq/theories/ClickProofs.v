(** The caret after a click. *)
From Coq Require Import Lqa Qabs.
From Verif Require Import Base BaseFacts PackingModel PackingProofs LayoutModel LayoutSpec LayoutProofs LayoutGeomProofs
  LayoutCaretProofs LayoutCursorProofs LayoutHitProofs LayoutTableProofs ClickSpec.
Open Scope Z_scope.
Set Implicit Arguments.

Lemma place_caret r p g x z : run_ok r -> increasing (logical_chars r) -> place r p x -> caret_at r p g z -> (x == z)%Q.
Proof.
  intros O I [(G & -> & E)|(m & Hm & Hp & E)] C.
  - rewrite E. assert (L : run_len r = 0%nat) by (unfold run_len; rewrite G; reflexivity).
    rewrite (caret_boundary O C (k := 0)); [|lia|apply run_ok_first; exact O|lia].
    pose proof (logical_first_last r) as FL. destruct (sr_rtl r); destruct FL as [F1 F2]; [rewrite F1; reflexivity|].
    rewrite L in F2. rewrite F2. reflexivity.
  - rewrite E. symmetry. exact (caret_lerp O I Hm Hp C).
Qed.
Lemma caret_place r p g x : run_ok r -> increasing (logical_chars r) -> sr_start r <= p <= sr_end r -> caret_at r p g x -> place r p x.
Proof.
  intros O I Hp C. pose proof C as (Hg & Lo & Hi & V). destruct (Nat.eq_dec (run_len r) 0) as [L|L].
  - left. assert (sr_glyphs r = []) by (apply length_zero_iff_nil; exact L). split; [assumption|].
    assert (E : sr_start r = sr_end r).
    { destruct O as (_ & _ & _ & _ & M). assert (N : logical_chars r = []) by (apply length_zero_iff_nil; rewrite length_logical_chars; exact L).
      rewrite N in M. exact M. }
    split; [lia|]. rewrite (caret_boundary O C (k := 0)); [|lia|rewrite run_ok_first by exact O; lia|lia].
    pose proof (logical_first_last r) as FL. destruct (sr_rtl r); destruct FL as [F1 F2]; [rewrite F1; reflexivity|].
    rewrite L in F2. rewrite F2. reflexivity.
  - right. destruct g as [|k].
    + exists 0%nat. split; [lia|]. specialize (Hi 0%nat (Nat.le_refl _)). pose proof (run_ok_first O) as F.
      pose proof (@chars_strict r 0 1 O I ltac:(lia)) as SC. unfold char_after. split; [lia|].
      rewrite V. assert (p = nth 0 (logical_chars r) (sr_end r)) by lia. subst p. rewrite lerp_start. reflexivity.
    + exists k. split; [lia|]. split; [|exact V]. specialize (Lo k ltac:(lia)). specialize (Hi (S k) ltac:(lia)). unfold char_after. lia.
Qed.

(** The run a cursor falls to. *)
Lemma cursor_at d y c i k r : doc_ok d -> joined d -> Forall run_ok (doc_runs d) ->
  nth_error (doc_runs d) i = Some r -> run_on_line d i k ->
  let p := cp_get_position c in let a := cp_get_affinity c in
  sr_start r <= p <= sr_end r + sr_offset r ->
  (p = sr_start r -> forall i' k' q, i = S i' -> run_on_line d i' k' -> nth_error (doc_runs d) i' = Some q -> ~ keeps_cursor d i' k' q r a) ->
  (p <> sr_start r -> p = sr_end r + sr_offset r -> forall q, nth_error (doc_runs d) (S i) = Some q -> keeps_cursor d i k r q a) ->
  get_run_containing_cursor (layout_of d y) c = Ok (Z.of_nat i, k).
Proof.
  intros OK J R Er Hk p a Hp NK KP.
  assert (LE : forall m t, nth_error (doc_runs d) m = Some t -> sr_start t <= sr_end t + sr_offset t).
  { intros m t Ht. rewrite Forall_forall in R. destruct (R _ (nth_error_In _ _ Ht)) as (? & ? & ? & _). lia. }
  assert (Hi : (i < length (doc_runs d))%nat) by (apply nth_error_Some; congruence).
  assert (SO : forall m, (m < length (doc_runs d))%nat -> exists t, nth_error (doc_runs d) m = Some t).
  { intros m Hm. destruct (nth_error (doc_runs d) m) as [t|] eqn:Et; [exists t; reflexivity|apply nth_error_None in Et; lia]. }
  destruct (Z.eq_dec p (sr_start r)) as [Hs|Hs]; [destruct i as [|i']|].
  2: { destruct (nth_error (doc_runs d) i') as [q|] eqn:Eq; [|apply nth_error_None in Eq; lia].
    destruct (@on_some_line d i' ltac:(lia)) as [k' Hk'].
    destruct (@t_C32_boundary_policy d y c i' k' q r OK J R Eq Er Hs Hk') as [_ N].
    destruct (N (NK Hs i' k' q eq_refl Hk' Eq)) as (line & E & O). rewrite (on_line_unique Hk O). exact E. }
  2: destruct (Z.eq_dec p (sr_end r + sr_offset r)) as [He|He].
  2: destruct (nth_error (doc_runs d) (S i)) as [q|] eqn:Eq.
  2: { destruct (J _ _ _ Er Eq) as (HJ & _). destruct (@t_C32_boundary_policy d y c i k r q OK J R Er Eq ltac:(fold p; lia) Hk) as [Y _].
       exact (Y (KP Hs He q eq_refl)). }
  all: destruct (SO 0%nat ltac:(lia)) as [r0 E0].
  all: destruct (SO (length (doc_runs d) - 1)%nat ltac:(lia)) as [rn En].
  all: assert (B0 : sr_start r0 <= p) by
    (match type of Er with nth_error _ ?i = _ => destruct (Nat.eq_dec i 0) as [Z0|Z0];
      [assert (r0 = r) by congruence; subst r0; lia
      |pose proof (joined_start J E0 Er ltac:(lia)); pose proof (LE _ _ E0); lia] end).
  all: assert (B1 : p <= sr_end rn + sr_offset rn) by
    (match type of Er with nth_error _ ?i = _ => destruct (Nat.eq_dec i (length (doc_runs d) - 1)) as [Z0|Z0];
      [assert (rn = r) by congruence; subst rn; lia
      |pose proof (joined_start J Er En ltac:(lia)); pose proof (LE _ _ En); lia] end).
  all: destruct (@t_C32_every_position d y c r0 rn OK J R E0 En ltac:(fold p; lia)) as (run & line & E & O & (t & Et & Ht)); fold p in Ht.
  all: match goal with |- _ = Ok (Z.of_nat ?i, _) => assert (run = i); [|subst run; rewrite (on_line_unique Hk O); exact E] end.
  all: match goal with |- ?a = ?i => destruct (lt_eq_lt_dec a i) as [[H|H]|H]; [|exact H|] end.
  - lia.
  - (* after the first run, which starts at p *)
    exfalso. pose proof (joined_start J Er Et H) as A.
    destruct (nth_error (doc_runs d) 1) as [q|] eqn:Eq; [|apply nth_error_None in Eq; assert (run < length (doc_runs d))%nat by (apply nth_error_Some; congruence); lia].
    destruct (J _ _ _ Er Eq) as (_ & A2 & _). lia.
  - pose proof (joined_start J Et Er H). lia.
  - exfalso. apply nth_error_None in Eq. assert (run < length (doc_runs d))%nat by (apply nth_error_Some; congruence). lia.
  - pose proof (joined_start J Et Er H). lia.
  - pose proof (joined_start J Er Et H). lia.
Qed.

Section Click.
Variables (B : Z -> Prop) (following : Z -> Z) (d : sdoc) (y : Q) (k : nat) (s : sline) (w : Q) (al : xalign) (x : Q).
Hypothesis W : walks B following.
Hypothesis OKD : doc_ok d.
Hypothesis J : joined d.
Hypothesis RO : Forall run_ok (doc_runs d).
Hypothesis EM : empty_after_separator d.
Hypothesis Es : nth_error d k = Some s.
Hypothesis ST : Forall (begins_at_stops B) (sl_runs s).
Hypothesis ONE : Forall (fun r => increasing (logical_chars r)) (sl_runs s).
Hypothesis MX : Forall (fun r => qnondecreasing (run_xs r)) (sl_runs s).
Hypothesis ADJ : adjacent (sl_runs s).
Let l := layout_of d y.
Let R := run_first d k.

Lemma line_sub t : In t (sl_runs s) -> In t (doc_runs d).
Proof. intros Ht. unfold doc_runs. apply in_flat_map. exists s. split; [exact (nth_error_In _ _ Es)|exact Ht]. Qed.
Lemma line_ok : Forall run_ok (sl_runs s).
Proof. apply Forall_forall. intros t Ht. rewrite Forall_forall in RO. apply RO, line_sub, Ht. Qed.
Lemma on_this_line m : (m < length (sl_runs s))%nat -> run_on_line d (R + m) k.
Proof.
  intros H. split; [apply nth_error_Some; congruence|]. fold (run_first d k) (run_first d (S k)). fold R.
  rewrite (run_first_succ _ _ Es). fold R. lia.
Qed.
Lemma off_this_line m : run_on_line d m k -> (R <= m < R + length (sl_runs s))%nat.
Proof. intros [_ H]. fold (run_first d k) (run_first d (S k)) in H. rewrite (run_first_succ _ _ Es) in H. fold R in H. exact H. Qed.

(** The affinity of what was found. *)
Lemma found_affinity (LTR : mostly_ltr s) j c r : found s j c -> nth_error (sl_runs s) j = Some r -> sr_start r <= cp_get_position c <= sr_end r ->
  let p := cp_get_position c in let a := cp_get_affinity c in
  (sr_rtl r = true -> a = ADefault) /\
  (sr_rtl r = false -> p = sr_start r -> sr_start r < sr_end r -> a = if edge_first (sl_runs s) j r then AOpposite else ADefault) /\
  (sr_rtl r = false -> p = sr_start r -> sr_start r = sr_end r ->
     a = (if edge_first (sl_runs s) j r then AOpposite else ADefault) \/ (S j = length (sl_runs s) /\ a = AOpposite)) /\
  (sr_rtl r = false -> p = sr_end r -> sr_start r < sr_end r -> edge_last (sl_runs s) j r = true -> a = AOpposite).
Proof.
  intros (r' & p' & Er' & P & C) Er Hp. rewrite Er in Er'. injection Er' as <-. cbv zeta.
  destruct LTR as [_ LAST].
  assert (LN : sr_rtl r = true -> S j <> length (sl_runs s)).
  { intros H E. specialize (LAST r). replace (length (sl_runs s) - 1)%nat with j in LAST by lia. specialize (LAST Er). congruence. }
  assert (EF : sr_rtl r = true -> edge_first (sl_runs s) j r = false) by (intros H; unfold edge_first; rewrite H, andb_false_r; reflexivity).
  assert (EL : sr_rtl r = true -> edge_last (sl_runs s) j r = false).
  { intros H. unfold edge_last. rewrite H, andb_false_r. specialize (LN H). apply Nat.eqb_neq in LN. rewrite LN. reflexivity. }
  destruct C as [(Sj & Hp' & ->)|[(Hp' & ->)|(Lt & ->)]].
  - rewrite (cp_opposite_position P) in *. rewrite (cp_opposite_affinity P). split; [intros H; exfalso; exact (LN H Sj)|]. split; [|split].
    + intros H. rewrite H in Hp'. intros; lia.
    + intros. right. auto.
    + reflexivity.
  - rewrite (make_cursor_position _ P) in *. rewrite (make_cursor_affinity _ P). split; [intros H; rewrite (EF H); reflexivity|]. split; [reflexivity|]. split; [auto|].
    intros H. rewrite H in Hp'. intros; lia.
  - rewrite (make_cursor_position _ P) in *. rewrite (make_cursor_affinity _ P). destruct (sr_rtl r) eqn:D.
    + rewrite (EF eq_refl), (EL eq_refl), !andb_false_r. cbn [orb]. split; [reflexivity|]. split; [|split]; intros; discriminate.
    + split; [discriminate|]. split; [|split].
      * intros _ -> L. rewrite Z.eqb_refl. cbn [andb]. destruct (Z.eqb_spec (sr_start r) (sr_end r)); [lia|]. cbn [andb]. rewrite orb_false_r. reflexivity.
      * intros; lia.
      * intros _ -> L ->. rewrite Z.eqb_refl. cbn [andb]. rewrite orb_true_r. reflexivity.
Qed.

(** The cursor is drawn in the run it was found in, or in the next one at the same place. *)
Lemma click_run (LTR : mostly_ltr s) j c X : found s j c -> caret d y k s j (cp_get_position c) X ->
  exists m X', get_run_containing_cursor l c = Ok (Z.of_nat (R + m), k) /\ caret d y k s m (cp_get_position c) X' /\ (X' == X)%Q.
Proof.
  intros F C. pose proof C as (r & Er & Hp & EX). set (p := cp_get_position c) in *. set (a := cp_get_affinity c) in *.
  destruct (found_affinity LTR F Er Hp) as (A1 & A2 & A3 & A4). cbv zeta in A1, A2, A3, A4. fold p a in A1, A2, A3, A4.
  assert (Hj : (j < length (sl_runs s))%nat) by (apply nth_error_Some; congruence).
  assert (Ei : nth_error (doc_runs d) (R + j) = Some r) by (unfold R; rewrite (line_runs _ _ Es Hj); exact Er).
  assert (O : run_ok r) by (pose proof line_ok as L; rewrite Forall_forall in L; exact (L _ (nth_error_In _ _ Er))).
  pose proof O as (O1 & O2 & O3 & _). destruct LTR as [TWO LAST].
  assert (Prev : forall i' k' q, (R + j)%nat = S i' -> run_on_line d i' k' -> nth_error (doc_runs d) i' = Some q -> run_on_line d (R + j) k' ->
    j <> 0%nat /\ nth_error (sl_runs s) (j - 1) = Some q).
  { intros i' k' q Hi' Ol Eq Ol2. pose proof (on_line_unique (on_this_line Hj) Ol2) as <-. apply off_this_line in Ol.
    split; [lia|]. rewrite <- (line_runs _ _ Es) by lia. fold R. replace (R + (j - 1))%nat with i' by lia. exact Eq. }
  assert (First : forall i' k' q, (R + j)%nat = S i' -> run_on_line d i' k' -> nth_error (doc_runs d) i' = Some q -> ~ run_on_line d (R + j) k' -> j = 0%nat).
  { intros i' k' q Hi' Ol Eq Ol2. destruct (Nat.eq_dec j 0) as [|Hj0]; [assumption|]. exfalso. apply Ol2.
    pose proof (@on_this_line (j - 1) ltac:(lia)) as H. replace (R + (j - 1))%nat with i' in H by lia.
    rewrite (on_line_unique Ol H). exact (on_this_line Hj). }
  (* a cursor at the start is not kept by the run before *)
  assert (NK : p = sr_start r -> forall i' k' q, (R + j)%nat = S i' -> run_on_line d i' k' -> nth_error (doc_runs d) i' = Some q -> ~ keeps_cursor d i' k' q r a).
  { intros Hs i' k' q Hi' Ol Eq K. unfold keeps_cursor in K. rewrite <- Hi' in K. destruct K as [(Y & D1 & D2 & Ea)|[(Y & D1 & D2 & Ea)|(N & Ho & Ea)]].
    - destruct (Prev i' k' q Hi' Ol Eq Y) as [Hj0 Ep].
      assert (EF : edge_first (sl_runs s) j r = true).
      { unfold edge_first. rewrite D2. replace (j =? 0)%nat with false by (symmetry; apply Nat.eqb_neq; exact Hj0). cbn [negb andb]. rewrite Ep. exact D1. }
      rewrite EF in A2, A3. destruct (Z.eq_dec (sr_start r) (sr_end r)) as [H|H].
      + destruct (A3 D2 Hs H) as [H1|[_ H1]]; congruence.
      + specialize (A2 D2 Hs ltac:(lia)). congruence.
    - specialize (A1 D2). congruence.
    - pose proof (First i' k' q Hi' Ol Eq N) as ->. assert (EF : edge_first (sl_runs s) 0 r = false) by reflexivity. rewrite EF in A2, A3.
      destruct (sr_rtl r) eqn:D; [specialize (A1 eq_refl); congruence|].
      destruct (Z.eq_dec (sr_start r) (sr_end r)) as [H|H].
      + rewrite Hi' in Ei. exact (EM _ Eq Ei H Ho).
      + specialize (A2 eq_refl Hs ltac:(lia)). congruence. }
  assert (Here : (p <> sr_start r -> p = sr_end r + sr_offset r -> forall q, nth_error (doc_runs d) (S (R + j)) = Some q -> keeps_cursor d (R + j) k r q a) ->
    exists m X', get_run_containing_cursor l c = Ok (Z.of_nat (R + m), k) /\ caret d y k s m p X' /\ (X' == X)%Q).
  { intros KP. exists j, X. split; [|split; [exact C|reflexivity]].
    apply (@cursor_at d y c (R + j) k r OKD J RO Ei (on_this_line Hj)); fold p a; [lia|exact NK|exact KP]. }
  destruct (Z.eq_dec p (sr_start r)) as [Hs|Hs]; [apply Here; intros; contradiction|].
  destruct (Z.eq_dec p (sr_end r + sr_offset r)) as [He|He]; [|apply Here; intros; contradiction].
  assert (Ho : sr_offset r = 0) by lia. assert (Hpe : p = sr_end r) by lia. assert (Lt : sr_start r < sr_end r) by lia.
  destruct (nth_error (doc_runs d) (S (R + j))) as [q|] eqn:Eq; [|apply Here; intros _ _ q' E'; discriminate].
  destruct (Nat.eq_dec (S j) (length (sl_runs s))) as [SN|SN].
  - (* the last run of the line *)
    assert (D : sr_rtl r = false) by (apply LAST; replace (length (sl_runs s) - 1)%nat with j by lia; exact Er).
    apply Here. intros _ _ q' E'. right. right. split; [|split; [exact Ho|]].
    + intros H. apply off_this_line in H. lia.
    + apply A4; auto. unfold edge_last. replace (S j =? length (sl_runs s))%nat with true by (symmetry; apply Nat.eqb_eq; exact SN). rewrite Ho. reflexivity.
  - assert (Enx : nth_error (sl_runs s) (S j) = Some q).
    { rewrite <- (line_runs _ _ Es) by lia. fold R. replace (R + S j)%nat with (S (R + j)) by lia. exact Eq. }
    assert (On : run_on_line d (S (R + j)) k) by (replace (S (R + j)) with (R + S j)%nat by lia; apply on_this_line; lia).
    destruct (sr_rtl r) eqn:D.
    + specialize (TWO j r q Er Enx D). apply Here. intros _ _ q' E'. injection E' as <-. left. split; [exact On|]. split; [exact D|]. split; [exact TWO|apply A1; reflexivity].
    + destruct (sr_rtl q) eqn:Dq.
      * apply Here. intros _ _ q' E'. injection E' as <-. right. left. split; [exact On|]. split; [exact D|]. split; [exact Dq|].
        apply A4; auto. unfold edge_last. replace (S j =? length (sl_runs s))%nat with false by (symmetry; apply Nat.eqb_neq; exact SN).
        rewrite D. cbn [negb andb]. rewrite Enx. exact Dq.
      * (* two left-to-right runs: the next one has its first caret here *)
        pose proof (J _ Ei Eq) as (HJ & _).
        destruct (@t_C32_boundary_policy d y c (R + j) k r q OKD J RO Ei Eq ltac:(fold p; lia) (on_this_line Hj)) as [_ N].
        destruct N as (line & E & Oq).
        { intros [(_ & H & _)|[(_ & _ & H & _)|(H & _)]]; [congruence|congruence|exact (H On)]. }
        rewrite <- (on_line_unique On Oq) in E. 
        assert (Oq' : run_ok q) by (pose proof line_ok as L; rewrite Forall_forall in L; exact (L _ (nth_error_In _ _ Enx))).
        pose proof Oq' as (Q1 & _).
        destruct (@caret_ex d y k s Es line_ok (S j) q p Enx ltac:(lia)) as (X' & g' & CX' & CA').
        destruct (@caret_ex d y k s Es line_ok j r p Er Hp) as (X0 & g0 & (r0 & Er0 & _ & E0) & CA0).
        assert (X0 = X) by (fold R l in E0, EX; rewrite EX in E0; injection E0 as <-; reflexivity). subst X0.
        exists (S j), X'. split; [|split; [exact CX'|]].
        { unfold l. rewrite E. do 3 f_equal. lia. }
        pose proof ONE as I. rewrite Forall_forall in I.
        rewrite (caret_left d k Oq' CA') by (try (rewrite Dq; lia); apply I, (nth_error_In _ _ Enx)).
        rewrite (caret_right d k O CA0) by (try (rewrite D; lia); apply I, (nth_error_In _ _ Er)).
        symmetry. exact (@adjacent_end _ _ _ _ ADJ Er Enx).
Qed.

(** In a paragraph of one run there is only that run. *)
Lemma click_run_paragraph j c X : one_run_paragraph d k s -> caret d y k s j (cp_get_position c) X ->
  exists m X', get_run_containing_cursor l c = Ok (Z.of_nat (R + m), k) /\ caret d y k s m (cp_get_position c) X' /\ (X' == X)%Q.
Proof.
  intros (L1 & P1 & P2) C. pose proof C as (r & Er & Hp & EX).
  assert (Hj : (j < length (sl_runs s))%nat) by (apply nth_error_Some; congruence). assert (j = 0%nat) by lia. subst j.
  assert (Ei : nth_error (doc_runs d) (R + 0) = Some r) by (unfold R; rewrite (line_runs _ _ Es Hj); exact Er).
  assert (O : run_ok r) by (pose proof line_ok as L; rewrite Forall_forall in L; exact (L _ (nth_error_In _ _ Er))).
  pose proof O as (O1 & O2 & O3 & _). pose proof (on_this_line Hj) as On.
  exists 0%nat, X. split; [|split; [exact C|reflexivity]].
  apply (@cursor_at d y c (R + 0) k r OKD J RO Ei On).
  - lia.
  - intros Hs i' k' q Hi' Ol Eq K. unfold keeps_cursor in K. rewrite <- Hi' in K. 
    assert (NL : ~ run_on_line d (R + 0) k').
    { intros Y. pose proof (on_line_unique On Y) as <-. apply off_this_line in Ol. lia. }
    destruct K as [(Y & _)|[(Y & _)|(N & Ho & Ea)]]; [exact (NL Y)|exact (NL Y)|].
    pose proof Ol as [Kl [Ra Rb]]. fold (run_first d k') (run_first d (S k')) in Ra, Rb.
    destruct (nth_error d k') as [s'|] eqn:Es'; [|apply nth_error_None in Es'; lia].
    rewrite (run_first_succ _ _ Es') in Rb.
    assert (Kk : k = S k').
    { assert (K0 : k <> 0%nat) by (intros Z0; assert (R = 0%nat) by (unfold R; rewrite Z0; reflexivity); lia).
      assert (Hk : (k < length d)%nat) by (apply nth_error_Some; congruence).
      destruct (nth_error d (k - 1)) as [s1|] eqn:E1; [|apply nth_error_None in E1; lia].
      pose proof (run_first_succ _ _ E1) as F1. replace (S (k - 1)) with k in F1 by lia. fold R in F1.
      assert (sl_runs s1 <> []) by (unfold doc_ok in OKD; rewrite Forall_forall in OKD; apply OKD, (nth_error_In _ _ E1)).
      assert (0 < length (sl_runs s1))%nat by (destruct (sl_runs s1); [congruence|cbn; lia]).
      assert (On1 : run_on_line d i' (k - 1)).
      { split; [lia|]. fold (run_first d (k - 1)) (run_first d (S (k - 1))). replace (S (k - 1)) with k by lia. fold R. lia. }
      pose proof (on_line_unique Ol On1). lia. }
    destruct (P2 k' Kk) as [H|H]; [assert (k < length d)%nat by (apply nth_error_Some; congruence); lia|].
    assert (RR : R = (run_first d k' + length (sl_runs s'))%nat) by (unfold R; rewrite Kk; apply (run_first_succ _ _ Es')).
    apply (H s' q Es'); [|exact Ho]. rewrite <- (line_runs _ _ Es') by lia. replace (run_first d k' + (length (sl_runs s') - 1))%nat with i' by lia. exact Eq.
  - intros _ He q Eq. exfalso. destruct P1 as [H|H].
    + assert (R1 : length (doc_runs d) = S R).
      { pose proof (run_first_succ _ _ Es) as F. fold R in F. rewrite L1 in F. unfold run_first in F at 1. rewrite firstn_all2 in F by lia. lia. }
      assert (S (R + 0) < length (doc_runs d))%nat by (apply nth_error_Some; congruence). lia.
    + apply (H s r Es); [replace (length (sl_runs s) - 1)%nat with 0%nat by lia; exact Er|lia].
Qed.

Lemma above_of : exists h t, (match k with O => Ok 0%Q | S j => get_line_total_descent l j end) = Ok h /\ (h == heights (firstn k d))%Q /\
  get_line_total_descent l k = Ok t /\ (t == heights (firstn k d) + sl_height s)%Q.
Proof.
  assert (Hk : (k < length d)%nat) by (apply nth_error_Some; congruence).
  destruct (@line_bottom d y k Hk) as (li & V & E). unfold bottom in E.
  assert (T : get_line_total_descent l k = Ok (li_descent li)) by (unfold get_line_total_descent, l; rewrite V; reflexivity).
  assert (E' : (li_descent li == heights (firstn k d) + sl_height s)%Q).
  { rewrite E, (firstn_succ _ _ Es), heights_app. cbn [heights]. ring. }
  destruct k as [|j].
  - exists 0%Q, (li_descent li). split; [reflexivity|]. split; [reflexivity|]. auto.
  - destruct (@line_bottom d y j ltac:(lia)) as (li' & V' & B'). exists (li_descent li'), (li_descent li).
    split; [unfold get_line_total_descent, l; rewrite V'; reflexivity|]. split; [exact B'|]. auto.
Qed.

Lemma x_start_of : exists x0, get_line_x_start l k w al = Ok x0 /\ (x0 == align_x w al s)%Q.
Proof.
  destruct (split_nth _ _ Es) as [Ed L]. pose proof (line_x_start_of y (firstn k d) s (skipn (S k) d) w al) as V. rewrite <- Ed, L in V.
  eexists. split; [exact V|]. unfold align_x. destruct al; try reflexivity. field.
Qed.

Lemma click_shows : mostly_ltr s \/ one_run_paragraph d k s -> exists c i r X, find_closest_cursor_position following l w al k x = Ok c /\ calc_cursor_pixel_pos l w al c = Ok i /\
  B (cp_get_position c) /\ In r (sl_runs s) /\ sr_start r <= cp_get_position c <= sr_end r /\ place r (cp_get_position c) X /\
  ci_line i = k /\ (ci_x i == align_x w al s + X)%Q /\ (ci_y i == y + heights (firstn k d))%Q /\ (ci_height i == sl_height s)%Q /\
  forall r' p' X', In r' (sl_runs s) -> B p' -> sr_start r' <= p' <= sr_end r' -> place r' p' X' ->
    (Qabs (x - ci_x i) <= Qabs (x - (align_x w al s + X')))%Q.
Proof.
  intros LTR. assert (NE : sl_runs s <> []) by (unfold doc_ok in OKD; rewrite Forall_forall in OKD; apply OKD, (nth_error_In _ _ Es)).
  destruct (@hit_nearest_found B following d y k s w al x W Es NE line_ok ST ONE MX ADJ) as (x0 & c & j & X & E0 & Ec & Bc & CX & F & Near).
  assert (CR : exists m X', get_run_containing_cursor l c = Ok (Z.of_nat (R + m), k) /\ caret d y k s m (cp_get_position c) X' /\ (X' == X)%Q)
    by (destruct LTR as [LTR|PAR]; [exact (click_run LTR F CX)|exact (click_run_paragraph _ PAR CX)]).
  destruct CR as (m & X' & Er & CX' & EX). destruct x_start_of as (x0' & E0' & EA). fold l in E0, Ec. rewrite E0 in E0'. injection E0' as <-.
  destruct above_of as (h & t & Eh & Hh & Et & Ht).
  destruct (@caret_inv d y k s Es line_ok m _ X' CX') as (r & g & Nr & Hp & CA). pose proof ONE as I. rewrite Forall_forall in I.
  pose proof line_ok as LO. rewrite Forall_forall in LO. pose proof (nth_error_In _ _ Nr) as In_r.
  exists c. eexists. exists r, X'. split; [exact Ec|]. split.
  { unfold calc_cursor_pixel_pos. rewrite Er. cbn [obind]. rewrite E0. cbn [obind].
    replace (Z.of_nat (R + m) <? 0) with false by (symmetry; apply Z.ltb_ge; lia). rewrite Nat2Z.id.
    destruct CX' as (r1 & _ & _ & V). fold R l in V. rewrite V. cbn [obind]. rewrite Eh. cbn [obind]. rewrite Et. cbn [obind]. reflexivity. }
  cbn [ci_x ci_y ci_height ci_line].
  split; [exact Bc|]. split; [exact In_r|]. split; [exact Hp|]. split; [exact (caret_place (LO _ In_r) (I _ In_r) Hp CA)|].
  split; [reflexivity|]. split; [rewrite EA; reflexivity|]. split; [rewrite Hh; reflexivity|]. split; [rewrite Ht, Hh; ring|].
  intros r' p' Y In' Bp' Hp' P'. apply In_nth_error in In' as Ej'. destruct Ej' as [j' Ej'].
  destruct (@caret_ex d y k s Es line_ok j' r' p' Ej' Hp') as (Y' & g' & CY & CA').
  pose proof (place_caret (LO _ In') (I _ In') P' CA') as EY. specialize (Near j' p' Y' Bp' CY).
  assert (Z1 : (x - (x0 + X') == x - x0 - X)%Q) by (rewrite EX; ring). assert (Z2 : (x - (align_x w al s + Y) == x - x0 - Y')%Q) by (rewrite <- EA, EY; ring).
  rewrite Z1, Z2. exact Near.
Qed.
End Click.
