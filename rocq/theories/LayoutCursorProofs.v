(** From cursors to runs and lines. *)
From Verif Require Import Base BaseFacts BinarySearchModel BinarySearchProofs PackingModel PackingProofs
  LayoutModel LayoutSpec LayoutProofs LayoutGeomProofs.
Open Scope Z_scope.
Set Implicit Arguments.

Definition run_first (d : sdoc) (k : nat) : nat := length (doc_runs (firstn k d)).

Lemma firstn_succ {A} (l : list A) k x : nth_error l k = Some x -> firstn (S k) l = firstn k l ++ [x].
Proof.
  revert k. induction l as [|a l IH]; intros [|k] H; cbn [nth_error] in H; try discriminate.
  - inversion H; subst. reflexivity.
  - cbn [firstn app]. f_equal. apply IH. exact H.
Qed.
Lemma run_first_succ d k s : nth_error d k = Some s -> run_first d (S k) = (run_first d k + length (sl_runs s))%nat.
Proof.
  intros H. unfold run_first. rewrite (firstn_succ _ _ H), doc_runs_app, app_length. unfold doc_runs at 2.
  cbn [flat_map]. rewrite app_nil_r. reflexivity.
Qed.
Lemma run_first_le d k : (run_first d k <= length (doc_runs d))%nat.
Proof.
  unfold run_first. rewrite <- (firstn_skipn k d) at 2. rewrite doc_runs_app, app_length. lia.
Qed.
Lemma run_first_full d k : (length d <= k)%nat -> run_first d k = length (doc_runs d).
Proof. intros H. unfold run_first. rewrite firstn_all2 by exact H. reflexivity. Qed.

Lemma line_get d y k : (k < length d)%nat ->
  exists li, vget (lo_lines (layout_of d y)) k = Ok li /\ li_run_end li = run_first d (S k).
Proof.
  intros H. destruct (nth_error d k) as [s|] eqn:E; [|apply nth_error_None in E; lia].
  destruct (split_nth _ _ E) as [Ed L].
  destruct (@doc_line_view d y (firstn k d) s (skipn (S k) d) Ed) as (_ & _ & V). cbv zeta in V. rewrite L in V.
  eexists. split; [exact V|]. cbn [li_run_end]. rewrite (run_first_succ _ _ E). reflexivity.
Qed.
Lemma run_get d y i r : nth_error (doc_runs d) i = Some r ->
  exists g, vget (lo_runs (layout_of d y)) i = Ok (vrun_of g r).
Proof.
  intros H. destruct (split_nth _ _ H) as [Ed L].
  destruct (@doc_run_view d y (firstn i (doc_runs d)) r (skipn (S i) (doc_runs d)) Ed) as (V & _). cbv zeta in V.
  rewrite L in V. eexists. exact V.
Qed.
Lemma length_lo_runs d y : length (lo_runs (layout_of d y)) = length (doc_runs d).
Proof. unfold layout_of. cbn [lo_runs]. apply length_runs_of. Qed.
Lemma length_lo_lines d y : length (lo_lines (layout_of d y)) = length d.
Proof. unfold layout_of, doc_lines. cbn [lo_lines]. apply length_lines_of. Qed.

(** Whether run [i] on line [k] takes a cursor. *)
Definition takes (d : sdoc) (p : Z) (a : affinity) (i k : nat) : Prop :=
  exists r, nth_error (doc_runs d) i = Some r /\ sr_start r <= p <= sr_end r + sr_offset r /\
  (p = sr_start r -> forall j q, i = S j -> nth_error (doc_runs d) j = Some q ->
     affinity_prefer_prev_run false false (sr_rtl q) (sr_rtl r) a = false) /\
  (p = sr_end r + sr_offset r -> forall q, nth_error (doc_runs d) (S i) = Some q ->
     let bb := (S i =? run_first d (S k))%nat in
     affinity_prefer_prev_run bb (bb && (sr_offset r =? 0)) (sr_rtl r) (sr_rtl q) a = true).

Section Loop.
Variables (d : sdoc) (y : Q) (p : Z) (a : affinity).
Hypothesis OK : doc_ok d.
Let l := layout_of d y.
Let N := length (doc_runs d).

Lemma cursor_loop_of fuel : forall i line, (N <= i + fuel)%nat -> (i <= N)%nat -> (0 < N)%nat ->
  (line < length d)%nat -> (run_first d line <= i <= run_first d (S line))%nat -> (i = 0 \/ run_first d line < i)%nat ->
  (exists j k, cursor_loop fuel l p a i line = Ok (Some j, k) /\ (i <= j)%nat /\ run_on_line d j k /\ takes d p a j k /\
     (forall j' k', (i <= j' < j)%nat -> run_on_line d j' k' -> ~ takes d p a j' k')) \/
  (exists k, cursor_loop fuel l p a i line = Ok (None, k) /\ run_on_line d (N - 1) k /\
     forall j' k', (i <= j')%nat -> run_on_line d j' k' -> ~ takes d p a j' k').
Proof.
  induction fuel as [|fuel IH]; intros i line Hf Hi HN Hl Hr Hs.
  - right. exists line. assert (i = N) by lia. subst i. cbn [cursor_loop].
    unfold l. rewrite length_lo_runs. fold N. rewrite Nat.ltb_irrefl. split; [reflexivity|]. split.
    + split; [exact Hl|]. fold (run_first d line) (run_first d (S line)). lia.
    + intros j' k' Hj _ (r & Er & _). 
      assert (j' < N)%nat by (apply nth_error_Some; congruence). lia.
  - cbn [cursor_loop]. unfold l. rewrite length_lo_runs. fold l N. destruct (Nat.ltb_spec i N) as [HiN|HiN].
    2:{ assert (i = N) by lia. subst i. right. exists line. split; [reflexivity|]. split.
        - split; [exact Hl|]. fold (run_first d line) (run_first d (S line)). lia.
        - intros j' k' Hj _ (r & Er & _). assert (j' < N)%nat by (apply nth_error_Some; congruence). lia. }
    destruct (line_get d y Hl) as (li & El & Eli). fold l in El. rewrite El. cbn [obind]. rewrite Eli.
    set (line' := if (i =? run_first d (S line))%nat then S line else line).
    assert (On : run_on_line d i line').
    { unfold line', run_on_line. fold (run_first d line). destruct (Nat.eqb_spec i (run_first d (S line))) as [He|He].
      - assert (Hl' : (S line < length d)%nat).
        { destruct (Nat.ltb_spec (S line) (length d)); [assumption|]. rewrite run_first_full in He by assumption. fold N in He. lia. }
        split; [exact Hl'|]. fold (run_first d (S line)) (run_first d (S (S line))).
        destruct (nth_error d (S line)) as [s|] eqn:Es; [|apply nth_error_None in Es; lia].
        rewrite (run_first_succ _ _ Es). assert (sl_runs s <> []).
        { unfold doc_ok in OK. rewrite Forall_forall in OK. apply OK. eauto using nth_error_In. }
        destruct (sl_runs s); [congruence|]. cbn [length]. lia.
      - split; [exact Hl|]. fold (run_first d line) (run_first d (S line)). lia. }
    destruct (nth_error (doc_runs d) i) as [r|] eqn:Er; [|apply nth_error_None in Er; fold N in Er; lia].
    destruct (run_get d y _ Er) as (g & Vr). fold l in Vr. rewrite Vr. cbn [obind].
    destruct On as [On1 On2]. destruct (line_get d y On1) as (li' & El' & Eli'). fold l in El'.
    rewrite El'. cbn [obind]. rewrite Eli'. fold (run_first d line') (run_first d (S line')) in On2.
    cbn [vrun_of ru_start ru_end ru_offset ru_rtl].
    replace (i =? run_first d (S line'))%nat with false by (symmetry; apply Nat.eqb_neq; lia).
    cbn [andb obind].
    assert (Pv : exists up, (if (0 <? i)%nat then do pq <- vget (lo_runs l) (i - 1);
        Ok (affinity_prefer_prev_run false false (ru_rtl pq) (sr_rtl r) a) else Ok false) = Ok up /\
        (up = false <-> forall j q, i = S j -> nth_error (doc_runs d) j = Some q ->
           affinity_prefer_prev_run false false (sr_rtl q) (sr_rtl r) a = false)).
    { destruct i as [|j].
      - exists false. split; [reflexivity|]. split; [intros _ j q Hj; discriminate|reflexivity].
      - rewrite (proj2 (Nat.ltb_lt 0 (S j))) by lia. replace (S j - 1)%nat with j by lia.
        destruct (nth_error (doc_runs d) j) as [q|] eqn:Eq; [|apply nth_error_None in Eq; fold N in Eq; lia].
        destruct (run_get d y _ Eq) as (gq & Vq). fold l in Vq. rewrite Vq. cbn [obind vrun_of ru_rtl].
        eexists. split; [reflexivity|]. split.
        + intros H j' q' Hj' Eq'. assert (j' = j) by lia. subst j'. rewrite Eq in Eq'. inversion Eq'; subst. exact H.
        + intros H. apply (H j q); auto. }
    destruct Pv as (up & -> & Hup). cbn [obind].
    set (bb := (S i =? run_first d (S line'))%nat).
    assert (Nv : exists us, (if (i + 1 <? N)%nat then do q <- vget (lo_runs l) (i + 1);
        Ok (negb (affinity_prefer_prev_run ((i + 1 <? N)%nat && (i + 1 =? run_first d (S line'))%nat)
          ((i + 1 <? N)%nat && (i + 1 =? run_first d (S line'))%nat && (sr_offset r =? 0)) (sr_rtl r) (ru_rtl q) a)) else Ok false) = Ok us /\
        (us = false <-> forall q, nth_error (doc_runs d) (S i) = Some q ->
           affinity_prefer_prev_run bb (bb && (sr_offset r =? 0)) (sr_rtl r) (sr_rtl q) a = true)).
    { replace (i + 1)%nat with (S i) by lia. destruct (Nat.ltb_spec (S i) N) as [HSi|HSi].
      - destruct (nth_error (doc_runs d) (S i)) as [q|] eqn:Eq; [|apply nth_error_None in Eq; fold N in Eq; lia].
        destruct (run_get d y _ Eq) as (gq & Vq). fold l in Vq. rewrite Vq. cbn [obind vrun_of ru_rtl andb].
        fold bb. eexists. split; [reflexivity|]. rewrite negb_false_iff. split.
        + intros H q' Eq'. inversion Eq'; subst. exact H.
        + intros H. apply H. reflexivity.
      - exists false. split; [reflexivity|]. split; [|reflexivity]. intros _ q Eq.
        assert (S i < N)%nat by (apply nth_error_Some; congruence). lia. }
    destruct Nv as (us & -> & Hus). cbn [obind].
    assert (T : forall b, b = (sr_start r <=? p) && (p <=? sr_end r + sr_offset r) && negb ((p =? sr_start r) && up)
                   && negb ((p =? sr_end r + sr_offset r) && us) -> (b = true <-> takes d p a i line')).
    { intros b ->. rewrite !andb_true_iff, !negb_true_iff, !andb_false_iff, !Z.leb_le, !Z.eqb_neq. split.
      - intros [[[H1 H2] H3] H4]. exists r. split; [exact Er|]. split; [lia|]. split.
        + intros Hp. destruct H3 as [H3|H3]; [lia|]. apply Hup, H3.
        + intros Hp. destruct H4 as [H4|H4]; [lia|]. apply Hus, H4.
      - intros (r' & Er' & Hin & H3 & H4). rewrite Er in Er'. inversion Er'; subst r'.
        split; [split; [lia|]|].
        + destruct (Z.eq_dec p (sr_start r)) as [Hp|Hp]; [right; apply Hup; exact (H3 Hp)|left; exact Hp].
        + destruct (Z.eq_dec p (sr_end r + sr_offset r)) as [Hp|Hp]; [right; apply Hus; exact (H4 Hp)|left; exact Hp]. }
    specialize (T _ eq_refl).
    assert (Uniq : forall k', run_on_line d i k' -> k' = line').
    { intros k' [Hk1 Hk2]. fold (run_first d k') (run_first d (S k')) in Hk2.
      assert (Mono : forall x z, (x <= z)%nat -> (run_first d x <= run_first d z)%nat).
      { clear. intros x z H. induction H; [lia|]. destruct (nth_error d m) as [s|] eqn:Es.
        - rewrite (run_first_succ _ _ Es). lia.
        - apply nth_error_None in Es. rewrite (@run_first_full d (S m)) by lia.
          pose proof (run_first_le d x). lia. }
      destruct (lt_eq_lt_dec k' line') as [[H|H]|H]; [|exact H|].
      - pose proof (Mono (S k') line' ltac:(lia)). lia.
      - pose proof (Mono (S line') k' ltac:(lia)). lia. }
    destruct (_ && _ && _ && _) eqn:Eb.
    + left. exists i, line'. split; [reflexivity|]. split; [lia|]. split; [split; assumption|]. split; [apply T; reflexivity|].
      intros j' k' Hj'. lia.
    + assert (NT : ~ takes d p a i line') by (intros H; apply T in H; discriminate).
      destruct (IH (S i) line') as [(j & k & Ej & Hj & Ok_ & Tk & Bf)|(k & Ek & Ok_ & Bf)]; try lia; try assumption.
      * left. exists j, k. split; [exact Ej|]. split; [lia|]. split; [exact Ok_|]. split; [exact Tk|].
        intros j' k' Hj' O'. destruct (Nat.eq_dec j' i) as [->|]; [rewrite (Uniq _ O'); exact NT|apply (Bf j' k'); [lia|exact O']].
      * right. exists k. split; [exact Ek|]. split; [exact Ok_|].
        intros j' k' Hj' O'. destruct (Nat.eq_dec j' i) as [->|]; [rewrite (Uniq _ O'); exact NT|apply (Bf j' k'); [lia|exact O']].
Qed.
End Loop.

Lemma on_line_unique d i k k' : run_on_line d i k -> run_on_line d i k' -> k = k'.
Proof.
  intros [H1 H2] [H3 H4]. fold (run_first d k) (run_first d (S k)) in H2. fold (run_first d k') (run_first d (S k')) in H4.
  assert (Mono : forall x z, (x <= z)%nat -> (run_first d x <= run_first d z)%nat).
  { clear. intros x z H. induction H; [lia|]. destruct (nth_error d m) as [s|] eqn:Es.
    - rewrite (run_first_succ _ _ Es). lia.
    - apply nth_error_None in Es. rewrite (@run_first_full d (S m)) by lia.
      pose proof (run_first_le d x). lia. }
  destruct (lt_eq_lt_dec k k') as [[H|H]|H]; [|exact H|].
  - pose proof (Mono (S k) k' ltac:(lia)). lia.
  - pose proof (Mono (S k') k ltac:(lia)). lia.
Qed.
Lemma on_some_line d i : (i < length (doc_runs d))%nat -> exists k, run_on_line d i k.
Proof.
  intros H. assert (G : forall k, (k <= length d)%nat -> (i < run_first d k)%nat -> exists k', run_on_line d i k').
  { induction k as [|k IH]; intros Hk Hi; [cbn in Hi; lia|].
    destruct (Nat.ltb_spec i (run_first d k)); [apply IH; lia|].
    exists k. split; [lia|]. split; [exact H0|exact Hi]. }
  apply (G (length d)); [lia|]. rewrite run_first_full by lia. exact H.
Qed.

Lemma cursor_run_of d y c : doc_ok d -> d <> [] ->
  let p := cp_get_position c in let a := cp_get_affinity c in
  exists run line, get_run_containing_cursor (layout_of d y) c = Ok (Z.of_nat run, line) /\ run_on_line d run line /\
    ((takes d p a run line /\ forall j k, (j < run)%nat -> run_on_line d j k -> ~ takes d p a j k) \/
     (run = length (doc_runs d) - 1 /\ forall j k, run_on_line d j k -> ~ takes d p a j k)%nat).
Proof.
  intros OK NE p a. unfold get_run_containing_cursor. fold p a.
  assert (HN : (0 < length (doc_runs d))%nat).
  { destruct d as [|s d']; [congruence|]. unfold doc_ok in OK. inversion OK; subst. unfold doc_runs. cbn [flat_map].
    rewrite app_length. destruct (sl_runs s); [congruence|]. cbn [length]. lia. }
  rewrite length_lo_runs.
  destruct (@cursor_loop_of d y p a OK (length (doc_runs d)) 0 0) as [(j & k & Ej & _ & O & T & B)|(k & Ek & O & B)]; try lia.
  - destruct d; [congruence|cbn [length]; lia].
  - cbn. lia.
  - rewrite Ej. cbn [obind]. exists j, k. split; [reflexivity|]. split; [exact O|]. left. split; [exact T|].
    intros j' k' H. apply B. lia.
  - rewrite Ek. cbn [obind]. exists (length (doc_runs d) - 1)%nat, k. split; [|split; [exact O|]].
    + do 2 f_equal. lia.
    + right. split; [reflexivity|]. intros j k'. apply B. lia.
Qed.

Lemma takes_holds d p a i k : takes d p a i k -> run_holds d i p.
Proof. intros (r & E & H & _). exists r. auto. Qed.

(** Strictly inside some run. *)
Lemma cursor_inside d y c i r : doc_ok d -> nth_error (doc_runs d) i = Some r ->
  sr_start r < cp_get_position c < sr_end r + sr_offset r ->
  exists run line, get_run_containing_cursor (layout_of d y) c = Ok (Z.of_nat run, line) /\
    run_on_line d run line /\ run_holds d run (cp_get_position c).
Proof.
  intros OK Er Hp. assert (Hi : (i < length (doc_runs d))%nat) by (apply nth_error_Some; congruence).
  destruct (@cursor_run_of d y c OK) as (run & line & E & O & C).
  { intros ->. cbn in Hi. lia. }
  exists run, line. split; [exact E|]. split; [exact O|].
  destruct C as [[T _]|[_ B]]; [eauto using takes_holds|].
  exfalso. destruct (on_some_line d Hi) as [k Hk]. apply (B i k Hk). exists r. split; [exact Er|]. split; [lia|]. split; intros; lia.
Qed.

(** In joined text, which run a position falls to. *)
Lemma joined_start d i j r q : joined d -> nth_error (doc_runs d) i = Some r -> nth_error (doc_runs d) j = Some q -> (i < j)%nat ->
  sr_end r + sr_offset r <= sr_start q.
Proof.
  intros J Er Eq Hij. revert q Eq. induction Hij as [|m Hm IH]; intros q Eq.
  - destruct (J _ _ _ Er Eq) as (H & _). lia.
  - destruct (nth_error (doc_runs d) m) as [t|] eqn:Et.
    + specialize (IH t eq_refl). destruct (J _ _ _ Et Eq) as (H1 & H2 & _). lia.
    + apply nth_error_None in Et. assert (S m < length (doc_runs d))%nat by (apply nth_error_Some; congruence). lia.
Qed.

Lemma prefer_same b s x a : affinity_prefer_prev_run b s x x a = s && affinity_eqb a AOpposite.
Proof. unfold affinity_prefer_prev_run. destruct b, s, x, a; reflexivity. Qed.

(** At the boundary of two runs. *)
Lemma cursor_boundary d y c i r q : doc_ok d -> joined d -> (forall t, In t (doc_runs d) -> sr_start t <= sr_end t + sr_offset t) ->
  nth_error (doc_runs d) i = Some r -> nth_error (doc_runs d) (S i) = Some q ->
  cp_get_position c = sr_start q ->
  forall k, run_on_line d i k ->
  let bb := (S i =? run_first d (S k))%nat in
  let prefer := affinity_prefer_prev_run bb (bb && (sr_offset r =? 0)) (sr_rtl r) (sr_rtl q) (cp_get_affinity c) in
  exists line, get_run_containing_cursor (layout_of d y) c = Ok (Z.of_nat (if prefer then i else S i), line) /\
    run_on_line d (if prefer then i else S i) line.
Proof.
  intros OK J LE Er Eq Hp k Hk bb prefer. set (a := cp_get_affinity c) in *. set (p := cp_get_position c) in *.
  destruct (J _ _ _ Er Eq) as (Jn & Hr & Dir).
  assert (HS : (S i < length (doc_runs d))%nat) by (apply nth_error_Some; congruence).
  destruct (on_some_line d HS) as [k2 Hk2].
  assert (BB : bb = true -> sr_rtl r = sr_rtl q).
  { intros B. apply Nat.eqb_eq in B. apply (Dir k Hk). intros [_ [_ H]]. fold (run_first d (S k)) in H. lia. }
  assert (PS : affinity_prefer_prev_run false false (sr_rtl r) (sr_rtl q) a = true -> prefer = true).
  { unfold prefer. destruct bb; [rewrite BB by reflexivity; rewrite prefer_same; discriminate|auto]. }
  (* who takes [p] *)
  assert (Ti : takes d p a i k <-> prefer = true).
  { split.
    - intros (r' & Er' & _ & _ & T). rewrite Er in Er'. inversion Er'; subst r'. apply (T ltac:(lia) q Eq).
    - intros P. exists r. split; [exact Er|]. split; [lia|]. split; [lia|]. intros _ q' Eq'. rewrite Eq in Eq'.
      inversion Eq'; subst q'. exact P. }
  assert (Tn : prefer = false -> takes d p a (S i) k2).
  { intros P. exists q. split; [exact Eq|].
    assert (Hqe : sr_start q <= sr_end q + sr_offset q) by (apply LE, (nth_error_In _ _ Eq)).
    split; [lia|]. split; [|intros He t Et; destruct (J _ _ _ Eq Et) as (_ & Hne & _); lia]. intros _ j q' Hj Eq'.
    assert (j = i) by lia. subst j. rewrite Er in Eq'. inversion Eq'; subst q'.
    destruct (affinity_prefer_prev_run false false (sr_rtl r) (sr_rtl q) a) eqn:F; [|reflexivity].
    rewrite (PS eq_refl) in P. discriminate. }
  assert (Early : forall j k', (j < i)%nat -> ~ takes d p a j k').
  { intros j k' Hj (r' & Er' & H & _). pose proof (joined_start J Er' Er Hj). lia. }
  destruct (@cursor_run_of d y c OK) as (run & line & E & O & C).
  { intros ->. cbn in HS. lia. }
  fold p a in C. destruct prefer eqn:P.
  - exists line. destruct C as [[T B]|[_ B]].
    + assert (run = i).
      { destruct (lt_eq_lt_dec run i) as [[H|H]|H]; [exfalso; exact (Early _ _ H T)|exact H|].
        exfalso. apply (B i k H Hk). apply Ti. reflexivity. }
      subst run. auto.
    + exfalso. apply (B i k Hk). apply Ti. reflexivity.
  - exists line. destruct C as [[T B]|[_ B]].
    + assert (run = S i).
      { destruct (lt_eq_lt_dec run (S i)) as [[H|H]|H]; [|exact H|].
        - exfalso. destruct (Nat.eq_dec run i) as [->|].
          + rewrite (on_line_unique O Hk) in T. apply Ti in T. discriminate.
          + apply (@Early run line); [lia|exact T].
        - exfalso. apply (B (S i) k2 H Hk2). apply Tn. reflexivity. }
      subst run. auto.
    + exfalso. apply (B (S i) k2 Hk2). apply Tn. reflexivity.
Qed.

Lemma joined_find d p : joined d -> forall n, (n < length (doc_runs d))%nat ->
  forall r0 rn, nth_error (doc_runs d) 0 = Some r0 -> nth_error (doc_runs d) n = Some rn ->
  sr_start r0 <= p <= sr_end rn + sr_offset rn ->
  exists i r, (i <= n)%nat /\ nth_error (doc_runs d) i = Some r /\ sr_start r <= p <= sr_end r + sr_offset r /\
    (p = sr_start r -> i = 0%nat \/ i = n \/ p < sr_end r + sr_offset r) /\ (p = sr_end r + sr_offset r -> i = n).
Proof.
  intros J. induction n as [|n IH]; intros Hn r0 rn E0 En Hp.
  - exists 0%nat, rn. rewrite E0 in En. inversion En; subst. split; [lia|]. auto.
  - destruct (Z.leb_spec (sr_start rn) p) as [H|H].
    + exists (S n), rn. split; [lia|]. split; [exact En|]. split; [lia|]. auto.
    + destruct (nth_error (doc_runs d) n) as [rm|] eqn:Em; [|apply nth_error_None in Em; lia].
      destruct (J _ _ _ Em En) as (Jn & Jl & _).
      destruct (IH ltac:(lia) r0 rm E0 eq_refl ltac:(lia)) as (i & r & Hi & Er & Hin & Hs & He).
      exists i, r. split; [lia|]. split; [exact Er|]. split; [exact Hin|]. split.
      * intros Hps. destruct (Hs Hps) as [?|[Hn'|?]]; auto. subst i. rewrite Em in Er. inversion Er; subst. right. right. lia.
      * intros Hpe. specialize (He Hpe). subst i. rewrite Em in Er. inversion Er; subst. lia.
Qed.

Lemma cursor_joined d y c r0 rn : doc_ok d -> joined d -> (forall t, In t (doc_runs d) -> sr_start t <= sr_end t + sr_offset t) ->
  nth_error (doc_runs d) 0 = Some r0 -> nth_error (doc_runs d) (length (doc_runs d) - 1) = Some rn ->
  sr_start r0 <= cp_get_position c <= sr_end rn + sr_offset rn ->
  exists run line, get_run_containing_cursor (layout_of d y) c = Ok (Z.of_nat run, line) /\
    run_on_line d run line /\ run_holds d run (cp_get_position c).
Proof.
  intros OK J LE E0 En Hp. set (p := cp_get_position c) in *. set (a := cp_get_affinity c) in *.
  assert (HN : (0 < length (doc_runs d))%nat) by (apply nth_error_Some; congruence).
  destruct (@joined_find d p J (length (doc_runs d) - 1) ltac:(lia) r0 rn E0 En Hp) as (i & r & Hi & Er & Hin & Hs & He).
  destruct (@cursor_run_of d y c OK) as (run & line & E & O & C).
  { intros ->. cbn in HN. lia. }
  fold p a in C. exists run, line. split; [exact E|]. split; [exact O|].
  destruct C as [[T _]|[Hrun B]]; [eauto using takes_holds|].
  (* nobody takes it: then it is in the last run *)
  subst run. exists rn. split; [exact En|].
  destruct (Nat.eq_dec i (length (doc_runs d) - 1)) as [->|Hne].
  { rewrite En in Er. inversion Er; subst. exact Hin. }
  exfalso. assert (Hpe : p < sr_end r + sr_offset r) by (destruct (Z.eq_dec p (sr_end r + sr_offset r)); [specialize (He e); lia|lia]).
  assert (Hil : (i < length (doc_runs d))%nat) by lia. destruct (on_some_line d Hil) as [k Hk].
  destruct (Z.eq_dec p (sr_start r)) as [Hps|Hps].
  - destruct i as [|j].
    + apply (B _ _ Hk). exists r. split; [exact Er|]. split; [lia|]. split; [intros _ j q Hj; discriminate|lia].
    + destruct (nth_error (doc_runs d) j) as [q|] eqn:Eq; [|apply nth_error_None in Eq; lia].
      assert (Hjl : (j < length (doc_runs d))%nat) by lia. destruct (on_some_line d Hjl) as [kj Hkj].
      destruct (@cursor_boundary d y c j q r OK J LE Eq Er Hps kj Hkj) as (line' & E' & O').
      rewrite E in E'. inversion E' as [[H1 H2]]. apply Nat2Z.inj in H1.
      match type of H1 with _ = if ?b then _ else _ => destruct b end; lia.
  - apply (B _ _ Hk). exists r. split; [exact Er|]. split; [lia|]. split; lia.
Qed.

(** ** Line start and end *)
Lemma best_run_of d y better (n : nat) : forall i best e rb,
  (forall a b c, better a b = true -> better b c = true -> better a c = true) ->
  (forall a b c, better a b = false -> better b c = false -> better a c = false) ->
  (forall a, better a a = false) ->
  (forall a b, better a b = true -> better b a = false) ->
  nth_error (doc_runs d) best = Some rb -> e = sr_end rb -> (i + n <= length (doc_runs d))%nat ->
  exists b r, best_run n (layout_of d y) better i best e = Ok b /\ (b = best \/ i <= b < i + n)%nat /\
    nth_error (doc_runs d) b = Some r /\ better e (sr_end r) = false /\
    forall j q, (i <= j < i + n)%nat -> nth_error (doc_runs d) j = Some q -> better (sr_end q) (sr_end r) = false.
Proof.
  induction n as [|n IH]; intros i best e rb Tr Tn Ir As Eb Ee Hi; cbn [best_run].
  - exists best, rb. split; [reflexivity|]. split; [auto|]. split; [exact Eb|]. subst e. split; [apply Ir|lia].
  - destruct (nth_error (doc_runs d) i) as [ri|] eqn:Ei; [|apply nth_error_None in Ei; lia].
    destruct (run_get d y _ Ei) as (g & V). rewrite V. cbn [obind vrun_of ru_end].
    destruct (better (sr_end ri) e) eqn:Bt.
    + destruct (IH (S i) i (sr_end ri) ri Tr Tn Ir As Ei eq_refl ltac:(lia)) as (b & r & E & Hb & Er & H1 & H2).
      exists b, r. split; [exact E|]. split; [lia|]. split; [exact Er|]. split.
      * eapply Tn; [apply As, Bt|exact H1].
      * intros j q Hj Eq. destruct (Nat.eq_dec j i) as [->|]; [|apply (H2 j q); [lia|exact Eq]].
        rewrite Ei in Eq. inversion Eq; subst. exact H1.
    + destruct (IH (S i) best e rb Tr Tn Ir As Eb Ee ltac:(lia)) as (b & r & E & Hb & Er & H1 & H2).
      exists b, r. split; [exact E|]. split; [lia|]. split; [exact Er|]. split; [exact H1|].
      intros j q Hj Eq. destruct (Nat.eq_dec j i) as [->|]; [|apply (H2 j q); [lia|exact Eq]].
      rewrite Ei in Eq. inversion Eq; subst. eapply Tn; [exact Bt|exact H1].
Qed.

Lemma line_runs d k s : nth_error d k = Some s ->
  forall j, (j < length (sl_runs s))%nat -> nth_error (doc_runs d) (run_first d k + j) = nth_error (sl_runs s) j.
Proof.
  intros E j Hj. destruct (split_nth _ _ E) as [Ed L]. rewrite Ed at 1. rewrite doc_runs_app.
  unfold run_first. rewrite nth_error_app2 by lia. replace (_ + j - _)%nat with j by lia.
  unfold doc_runs. cbn [flat_map]. rewrite nth_error_app1 by exact Hj. reflexivity.
Qed.

Lemma line_start_of d y k s : nth_error d k = Some s -> sl_runs s <> [] ->
  exists r, In r (sl_runs s) /\ (forall q, In q (sl_runs s) -> sr_end r <= sr_end q) /\
    get_line_start_position (layout_of d y) k = Ok (cp_make (if sr_rtl r then sr_end r else sr_start r)).
Proof.
  intros E NE. unfold get_line_start_position.
  destruct (split_nth _ _ E) as [Ed L].
  destruct (@doc_line_view d y (firstn k d) s (skipn (S k) d) Ed) as (V1 & V2 & _). cbv zeta in V1, V2. rewrite L in V1, V2.
  fold (run_first d k) in V1, V2.
  destruct (lo_lines (layout_of d y)) eqn:EL.
  { pose proof (length_lo_lines d y) as H. rewrite EL in H. cbn [length] in H. destruct d; [destruct k; discriminate|discriminate]. }
  rewrite V1, V2. cbn [obind].
  assert (Hlen : (0 < length (sl_runs s))%nat) by (destruct (sl_runs s); [congruence|cbn [length]; lia]).
  destruct (nth_error (sl_runs s) 0) as [r0|] eqn:E0; [|apply nth_error_None in E0; lia].
  pose proof (line_runs _ _ E) as LR. assert (E0' : nth_error (doc_runs d) (run_first d k) = Some r0).
  { specialize (LR 0%nat Hlen). rewrite Nat.add_0_r in LR. congruence. }
  destruct (run_get d y _ E0') as (g & Vr). rewrite Vr. cbn [obind vrun_of ru_end].
  assert (Hall : (run_first d k + length (sl_runs s) <= length (doc_runs d))%nat)
    by (rewrite <- (run_first_succ _ _ E); apply run_first_le).
  destruct (@best_run_of d y (fun new old => new <? old) (run_first d k + length (sl_runs s) - S (run_first d k))
     (S (run_first d k)) (run_first d k) (sr_end r0) r0) as (b & r & Eb & Hb & Er & H1 & H2); try (intros; lia); try assumption; try reflexivity.
  rewrite Eb. cbn [obind]. destruct (run_get d y _ Er) as (g' & Vb). rewrite Vb. cbn [obind vrun_of ru_rtl ru_end ru_start].
  exists r. split; [|split; [|reflexivity]].
  - assert (Hbk : exists j, b = (run_first d k + j)%nat /\ (j < length (sl_runs s))%nat) by (exists (b - run_first d k)%nat; lia).
    destruct Hbk as (j & -> & Hj). rewrite LR in Er by exact Hj. eauto using nth_error_In.
  - intros q Hq. apply In_nth_error in Hq as (j & Ej). assert (Hj : (j < length (sl_runs s))%nat) by (apply nth_error_Some; congruence).
    destruct j as [|j]; [rewrite E0 in Ej; inversion Ej; subst; lia|].
    specialize (H2 (run_first d k + S j)%nat q ltac:(lia)). rewrite LR in H2 by exact Hj. specialize (H2 Ej). lia.
Qed.

Lemma line_end_of d y k s : nth_error d k = Some s -> sl_runs s <> [] ->
  exists j r, nth_error (sl_runs s) j = Some r /\ (forall q, In q (sl_runs s) -> sr_end q <= sr_end r) /\
    get_line_end_position (layout_of d y) k =
    Ok (make_cursor (if sr_rtl r then sr_start r else sr_end r) ((S j =? length (sl_runs s))%nat && (sr_offset r =? 0))).
Proof.
  intros E NE. unfold get_line_end_position.
  destruct (split_nth _ _ E) as [Ed L].
  destruct (@doc_line_view d y (firstn k d) s (skipn (S k) d) Ed) as (V1 & V2 & _). cbv zeta in V1, V2. rewrite L in V1, V2.
  fold (run_first d k) in V1, V2.
  destruct (lo_lines (layout_of d y)) eqn:EL.
  { pose proof (length_lo_lines d y) as H. rewrite EL in H. cbn [length] in H. destruct d; [destruct k; discriminate|discriminate]. }
  rewrite V1, V2. cbn [obind].
  assert (Hlen : (0 < length (sl_runs s))%nat) by (destruct (sl_runs s); [congruence|cbn [length]; lia]).
  destruct (nth_error (sl_runs s) 0) as [r0|] eqn:E0; [|apply nth_error_None in E0; lia].
  pose proof (line_runs _ _ E) as LR. assert (E0' : nth_error (doc_runs d) (run_first d k) = Some r0).
  { specialize (LR 0%nat Hlen). rewrite Nat.add_0_r in LR. congruence. }
  destruct (run_get d y _ E0') as (g & Vr). rewrite Vr. cbn [obind vrun_of ru_end].
  assert (Hall : (run_first d k + length (sl_runs s) <= length (doc_runs d))%nat)
    by (rewrite <- (run_first_succ _ _ E); apply run_first_le).
  destruct (@best_run_of d y (fun new old => old <? new) (run_first d k + length (sl_runs s) - S (run_first d k))
     (S (run_first d k)) (run_first d k) (sr_end r0) r0) as (b & r & Eb & Hb & Er & H1 & H2); try (intros; lia); try assumption; try reflexivity.
  rewrite Eb. cbn [obind]. destruct (run_get d y _ Er) as (g' & Vb). rewrite Vb. cbn [obind vrun_of ru_rtl ru_end ru_start ru_offset].
  assert (Hbk : exists j, b = (run_first d k + j)%nat /\ (j < length (sl_runs s))%nat) by (exists (b - run_first d k)%nat; lia).
  destruct Hbk as (j & -> & Hj). exists j, r. split; [|split].
  - rewrite LR in Er by exact Hj. exact Er.
  - intros q Hq. apply In_nth_error in Hq as (i & Ei). assert (Hi : (i < length (sl_runs s))%nat) by (apply nth_error_Some; congruence).
    destruct i as [|i]; [rewrite E0 in Ei; inversion Ei; subst; lia|].
    specialize (H2 (run_first d k + S i)%nat q ltac:(lia)). rewrite LR in H2 by exact Hi. specialize (H2 Ei). lia.
  - do 3 f_equal. destruct (Nat.eqb_spec (run_first d k + j) (run_first d k + length (sl_runs s) - 1)), (Nat.eqb_spec (S j) (length (sl_runs s))); lia.
Qed.

(** ** When the reported line is the line of a given run *)
Lemma joined_unique d p i j r q : joined d -> nth_error (doc_runs d) i = Some r -> sr_start r < p < sr_end r + sr_offset r ->
  nth_error (doc_runs d) j = Some q -> sr_start q <= p <= sr_end q + sr_offset q -> j = i.
Proof.
  intros J Er Hr Eq Hq. destruct (lt_eq_lt_dec j i) as [[H|H]|H]; [|exact H|].
  - pose proof (joined_start J Eq Er H). lia.
  - pose proof (joined_start J Er Eq H). lia.
Qed.

Lemma cursor_on_line d y c k s j r : doc_ok d -> joined d ->
  (forall t, In t (doc_runs d) -> sr_start t <= sr_end t + sr_offset t) ->
  (forall t, In t (doc_runs d) -> sr_rtl t = false) ->
  nth_error d k = Some s -> nth_error (sl_runs s) j = Some r ->
  let p := cp_get_position c in let a := cp_get_affinity c in let i := (run_first d k + j)%nat in
  sr_start r <= p <= sr_end r + sr_offset r ->
  (p = sr_start r -> j = 0%nat -> forall i' q, i = S i' -> nth_error (doc_runs d) i' = Some q -> sr_offset q = 0 -> a = ADefault) ->
  (p = sr_end r + sr_offset r -> S j = length (sl_runs s) -> forall q, nth_error (doc_runs d) (S i) = Some q -> sr_offset r = 0 /\ a = AOpposite) ->
  exists run, get_run_containing_cursor (layout_of d y) c = Ok (run, k).
Proof.
  intros OK J LE LTR Es Ej p a i Hp H1 H2.
  assert (Hj : (j < length (sl_runs s))%nat) by (apply nth_error_Some; congruence).
  assert (Ei : nth_error (doc_runs d) i = Some r) by (unfold i; rewrite (line_runs _ _ Es Hj); exact Ej).
  assert (Hkd : (k < length d)%nat) by (apply nth_error_Some; congruence).
  pose proof (run_first_succ _ _ Es) as RS.
  assert (Ol : forall m, (run_first d k <= m < run_first d k + length (sl_runs s))%nat -> run_on_line d m k).
  { intros m Hm. split; [exact Hkd|]. fold (run_first d k) (run_first d (S k)). lia. }
  assert (Oi : run_on_line d i k) by (apply Ol; unfold i; lia).
  assert (Dir : forall m t, nth_error (doc_runs d) m = Some t -> sr_rtl t = false) by (intros m t Et; apply LTR, (nth_error_In _ _ Et)).
  (* boundaries: any reported run on line [k] will do *)
  assert (Fin : forall m line, run_on_line d m k -> get_run_containing_cursor (layout_of d y) c = Ok (Z.of_nat m, line) ->
    run_on_line d m line -> exists run, get_run_containing_cursor (layout_of d y) c = Ok (run, k)).
  { intros m line Om E Ol'. rewrite (on_line_unique Om Ol'). eauto. }
  assert (Hil : (i < length (doc_runs d))%nat) by (apply nth_error_Some; congruence).
  destruct (@cursor_run_of d y c OK) as (run & line & E & O & C); [intros ->; cbn in Hil; lia|]. fold p a in C.
  (* when nothing else can hold the position *)
  assert (Uniq : (forall m t, nth_error (doc_runs d) m = Some t -> sr_start t <= p <= sr_end t + sr_offset t -> m = i) ->
                 (takes d p a i k \/ i = length (doc_runs d) - 1)%nat ->
                 exists run, get_run_containing_cursor (layout_of d y) c = Ok (run, k)).
  { intros U Ti. assert (run = i).
    { destruct C as [[(t & Et & Ht & _) _]|[Hr B]]; [exact (U _ _ Et Ht)|].
      destruct Ti as [Ti|Ti]; [exfalso; exact (B _ _ Oi Ti)|lia]. }
    subst run. exact (Fin i line Oi E O). }
  destruct (Z.eq_dec p (sr_start r)) as [Hps|Hps].
  - destruct i as [|i'] eqn:Ei0.
    + (* the first run *)
      destruct (Z.eq_dec p (sr_end r + sr_offset r)) as [Hpe|Hpe].
      * assert (Hlast : length (doc_runs d) = 1%nat).
        { destruct (nth_error (doc_runs d) 1) as [t|] eqn:Et; [destruct (J _ _ _ Ei Et) as (_ & ? & _); lia|].
          apply nth_error_None in Et. lia. }
        apply Uniq; [|right; lia]. intros m t Et _. assert (m < length (doc_runs d))%nat by (apply nth_error_Some; congruence). lia.
      * assert (Tk : takes d p a 0%nat k).
        { exists r. split; [exact Ei|]. split; [lia|]. split; [intros _ j' q' H; discriminate|lia]. }
        assert (run = 0%nat).
        { destruct C as [[_ B]|[_ B]]; [|exfalso; exact (B _ _ Oi Tk)]. destruct run as [|run]; [reflexivity|].
          exfalso. exact (B 0%nat k ltac:(lia) Oi Tk). }
        subst run. exact (Fin 0%nat line Oi E O).
    + destruct (nth_error (doc_runs d) i') as [q|] eqn:Eq; [|apply nth_error_None in Eq; lia].
      destruct (@on_some_line d i') as [k' Ok']; [lia|].
      destruct (@cursor_boundary d y c i' q r OK J LE Eq Ei Hps k' Ok') as (line' & E' & O').
      rewrite (Dir _ _ Eq), (Dir _ _ Ei), prefer_same in E', O'. fold a in E', O'.
      destruct (Nat.eqb_spec (S i') (run_first d (S k'))) as [Hb|Hb]; cbn [andb] in E', O'.
      * destruct (Z.eqb_spec (sr_offset q) 0) as [Ho|Ho]; cbn [andb] in E', O'; [|exact (Fin _ _ Oi E' O')].
        destruct (affinity_eqb a AOpposite) eqn:Ha; [|exact (Fin _ _ Oi E' O')].
        destruct (Nat.eq_dec j 0) as [J0|J0].
        -- rewrite (H1 Hps J0 i' q eq_refl Eq Ho) in Ha. discriminate.
        -- exfalso. (* the boundary is not inside line k *)
           assert (Oi' : run_on_line d i' k) by (apply Ol; lia). rewrite (on_line_unique Ok' Oi') in Hb. lia.
      * exact (Fin _ _ Oi E' O').
  - destruct (Z.eq_dec p (sr_end r + sr_offset r)) as [Hpe|Hpe].
    + destruct (nth_error (doc_runs d) (S i)) as [q|] eqn:Eq.
      * destruct (J _ _ _ Ei Eq) as (Jn & _).
        destruct (@cursor_boundary d y c i r q OK J LE Ei Eq ltac:(lia) k Oi) as (line' & E' & O').
        rewrite (Dir _ _ Eq), (Dir _ _ Ei), prefer_same in E', O'. fold a in E', O'.
        destruct (Nat.eq_dec (S j) (length (sl_runs s))) as [HjN|HjN].
        -- destruct (H2 Hpe HjN q eq_refl) as [Ho Ha]. rewrite Ho, Ha in E', O'.
           replace (S i =? run_first d (S k))%nat with true in E', O' by (symmetry; apply Nat.eqb_eq; lia).
           cbn [andb Z.eqb affinity_eqb] in E', O'. exact (Fin _ _ Oi E' O').
        -- match type of E' with context [if ?b then _ else _] => destruct b end; [exact (Fin _ _ Oi E' O')|].
           apply (Fin (S i) line'); [apply Ol; lia|exact E'|exact O'].
      * apply nth_error_None in Eq. apply Uniq; [|right; lia].
        intros m t Et Ht. assert (m < length (doc_runs d))%nat by (apply nth_error_Some; congruence).
        destruct (lt_eq_lt_dec m i) as [[Hm|Hm]|Hm]; [|exact Hm|lia]. pose proof (joined_start J Et Ei Hm). lia.
    + apply Uniq.
      * intros m t Et Ht. eapply joined_unique; [exact J|exact Ei| |exact Et|exact Ht]. lia.
      * left. exists r. split; [exact Ei|]. split; [lia|]. split; lia.
Qed.
