From Verif Require Import Base BaseFacts ValueRunsModel ValueRunsSpec ValueRunsProofs FloatModel ColorModel
  FormattingModel FormattingIterModel FormattingIterSpec.
Open Scope Z_scope.

Lemma run_forward_ok {T} (rv : runs_view T) (t : table T) x : represents rv t -> sorted t ->
  (runs_before t x < List.length t)%nat -> forall fuel i, (i < List.length t)%nat -> (List.length t <= i + fuel)%nat ->
  run_forward fuel rv i x = Ok (Nat.max i (runs_before t x)).
Proof.
  intros (Hc & Hl & Hv) Hs Hx. induction fuel as [|fuel IH]; intros i Hi Hf; cbn [run_forward]; rewrite Hc.
  - replace (i + 1 <? List.length t)%nat with false by lia. lia.
  - destruct (Nat.ltb_spec (i + 1) (List.length t)) as [H|H].
    + rewrite Hl. destruct (@vget_lt _ (map fst t) i) as (l & E1 & E2); [now rewrite map_length|].
      rewrite E1. cbn [obind]. pose proof (runs_before_lt_iff x Hs i E2).
      destruct (Z.leb_spec l x) as [Hx'|Hx'].
      * rewrite IH by lia. f_equal. lia.
      * f_equal. lia.
    + f_equal. lia.
Qed.

Lemma run_backward_ok {T} (rv : runs_view T) (t : table T) x : represents rv t -> sorted t ->
  forall i, (i <= List.length t)%nat -> (runs_before t x <= i)%nat ->
  run_backward rv i x = Ok (runs_before t x).
Proof.
  intros (Hc & Hl & Hv) Hs. induction i as [|i IH]; intros Hi Hx; cbn [run_backward].
  - f_equal. lia.
  - rewrite Hl. destruct (@vget_lt _ (map fst t) i) as (l & E1 & E2); [rewrite map_length; lia|].
    rewrite E1. cbn [obind]. pose proof (runs_before_lt_iff x Hs i E2).
    destruct (Z.ltb_spec x l) as [H1|H1].
    + apply IH; lia.
    + f_equal. lia.
Qed.

Lemma advance_run_ok {T} (rv : runs_view T) (t : table T) n i x : represents rv t -> table_for n t ->
  (i < List.length t)%nat -> x < n -> advance_run rv i x = Ok (runs_before t x) /\ (runs_before t x < List.length t)%nat.
Proof.
  intros R (Hne & Hs & Hf & _) Hi Hx.
  assert (L : (runs_before t x < List.length t)%nat) by (apply runs_before_lt_length with (d := 0); auto; lia).
  split; auto. unfold advance_run. rewrite (proj1 R).
  rewrite (run_forward_ok rv t x R Hs L) by lia. cbn [obind].
  apply (run_backward_ok rv t x R Hs); lia.
Qed.

Lemma value_at {T} (rv : runs_view T) (t : table T) n x : represents rv t -> table_for n t -> x < n ->
  exists v, rv_value rv (runs_before t x) = Ok v /\ lookup t x = Some v.
Proof.
  intros (Hc & Hl & Hv) (Hne & Hs & Hf & _) Hx.
  destruct (lookup_lt_final 0 Hne (i := x) ltac:(lia)) as (v & E). exists v. split; auto.
  rewrite lookup_runs_before in E. rewrite Hv. now apply vget_ok.
Qed.

Section Tables.
Variable f : fmt_tables.
Variable n : Z.
Hypothesis Hf : tables_for n f.
Let v := views_of f.

Lemma rep_color : represents (fv_color v) (ft_color f). Proof. apply view_build. Qed.
Lemma rep_stroke : represents (fv_stroke v) (ft_stroke f). Proof. apply view_build. Qed.
Lemma rep_strike : represents (fv_strike v) (ft_strike f).
Proof. apply view_build_bool. unfold limits_31. apply Forall_forall. apply Hf. Qed.
Lemma rep_under : represents (fv_under v) (ft_under f).
Proof. apply view_build_bool. unfold limits_31. apply Forall_forall. apply Hf. Qed.

(** The iterator stands at [x]. *)
Definition at_index (it : fiter) (x : Z) : Prop :=
  fi_color_run it = runs_before (ft_color f) x /\ fi_stroke_run it = runs_before (ft_stroke f) x /\
  fi_strike_run it = runs_before (ft_strike f) x /\ fi_under_run it = runs_before (ft_under f) x /\
  lookup (ft_color f) x = Some (fi_color it).

Lemma make_ok x : x < n -> exists it, fi_make v x = Ok it /\ at_index it x /\
  fi_strike it = false /\ fi_under it = false.
Proof.
  intros Hx. destruct Hf as (H1 & H2 & H3 & H4). unfold fi_make.
  rewrite (search_represents x rep_color) by apply H1. cbn [obind].
  rewrite (search_represents x rep_stroke) by apply H2. cbn [obind].
  rewrite (search_represents x rep_strike) by apply H3. cbn [obind].
  rewrite (search_represents x rep_under) by apply H4. cbn [obind].
  destruct (value_at _ _ n x rep_color H1 Hx) as (c & E & L). rewrite E. cbn [obind].
  eexists. split; [reflexivity|]. unfold at_index; cbn. auto 10.
Qed.

Lemma advance_ok it x y : at_index it x -> x < n -> y < n ->
  exists e it', fi_advance_to v it y = Ok (e, it') /\ at_index it' y /\
    fi_prev it' = lookup (ft_color f) x /\
    lookup (ft_strike f) y = Some (fi_strike it') /\ lookup (ft_under f) y = Some (fi_under it') /\
    (exists k, fi_stroke v it' = Ok k /\ lookup (ft_stroke f) y = Some k) /\
    let changed := negb (color_eqb (fi_color it') (fi_color it)) in
    e = {| ev_strike_begin := fi_strike it' && (negb (fi_strike it) || changed);
           ev_strike_end := (negb (fi_strike it') && fi_strike it) || (fi_strike it' && changed);
           ev_under_begin := fi_under it' && (negb (fi_under it) || changed);
           ev_under_end := (negb (fi_under it') && fi_under it) || (fi_under it' && changed) |}.
Proof.
  intros (A1 & A2 & A3 & A4 & A5) Hx Hy. destruct Hf as (H1 & H2 & H3 & H4). unfold fi_advance_to.
  assert (LT : forall T (t : table T), table_for n t -> (runs_before t x < List.length t)%nat).
  { intros T t (Hne & Hs & Hfl & _). apply runs_before_lt_length with (d := 0); auto; lia. }
  rewrite A1, A2, A3, A4.
  destruct (advance_run_ok _ _ n _ y rep_stroke H2 (LT _ _ H2) Hy) as [-> _]. cbn [obind].
  destruct (advance_run_ok _ _ n _ y rep_color H1 (LT _ _ H1) Hy) as [-> _]. cbn [obind].
  destruct (advance_run_ok _ _ n _ y rep_strike H3 (LT _ _ H3) Hy) as [-> _]. cbn [obind].
  destruct (advance_run_ok _ _ n _ y rep_under H4 (LT _ _ H4) Hy) as [-> _]. cbn [obind].
  destruct (value_at _ _ n y rep_color H1 Hy) as (c & -> & L1). cbn [obind].
  destruct (value_at _ _ n y rep_strike H3 Hy) as (s & -> & L3). cbn [obind].
  destruct (value_at _ _ n y rep_under H4 Hy) as (u & -> & L4). cbn [obind].
  eexists _, _. split; [reflexivity|]. unfold at_index, fi_stroke; cbn.
  destruct (value_at _ _ n y rep_stroke H2 Hy) as (k & E & L2).
  split; [auto 10|]. split; [auto|]. split; [auto|]. split; [auto|]. split; [|reflexivity].
  exists k. auto.
Qed.

Lemma walk_app v0 a : forall it b,
  fi_walk v0 it (a ++ b) = (do (es, it') <- fi_walk v0 it a; do (es', it'') <- fi_walk v0 it' b; Ok (es ++ es', it'')).
Proof.
  induction a as [|y a IH]; intros it b; cbn [app fi_walk obind].
  - destruct (fi_walk v0 it b) as [[es it']| |]; reflexivity.
  - destruct (fi_advance_to v0 it y) as [[e it1]| |]; cbn [obind]; auto. rewrite IH.
    destruct (fi_walk v0 it1 a) as [[es it2]| |]; cbn [obind]; auto.
    destruct (fi_walk v0 it2 b) as [[es' it3]| |]; cbn [obind]; auto.
Qed.

Lemma last_app1 {A} (l : list A) x d : last (l ++ [x]) d = x.
Proof. apply last_last. Qed.

Lemma walk_ok : forall targets it x, at_index it x -> x < n -> Forall (fun y => y < n) targets ->
  exists es it', fi_walk v it targets = Ok (es, it') /\ at_index it' (last targets x) /\ last targets x < n /\
    List.length es = List.length targets.
Proof.
  induction targets as [|y ts IH]; intros it x A Hx Ht.
  - exists [], it. cbn. auto.
  - inversion Ht as [|? ? Hy Ht']; subst. cbn [fi_walk].
    destruct (advance_ok it x y A Hx Hy) as (e & it1 & -> & A1 & _). cbn [obind].
    destruct (IH it1 y A1 Hy Ht') as (es & it2 & -> & A2 & L & N). cbn [obind].
    exists (e :: es), it2. split; [reflexivity|].
    assert (E : last (y :: ts) x = last ts y).
    { clear. revert y. induction ts as [|z ts IH]; intros y; [reflexivity|]. cbn [last] in *. destruct ts; auto. }
    rewrite E. cbn [List.length]. auto.
Qed.

Lemma walk_last x0 pre y : x0 < n -> Forall (fun y => y < n) pre -> y < n ->
  exists it es it', fi_make v x0 = Ok it /\ fi_walk v it (pre ++ [y]) = Ok (es, it') /\
    lookup (ft_color f) y = Some (fi_color it') /\
    fi_prev it' = lookup (ft_color f) (last pre x0) /\
    lookup (ft_strike f) y = Some (fi_strike it') /\ lookup (ft_under f) y = Some (fi_under it') /\
    (exists k, fi_stroke v it' = Ok k /\ lookup (ft_stroke f) y = Some k).
Proof.
  intros Hx Hp Hy. destruct (make_ok x0 Hx) as (it & E & A & _).
  destruct (walk_ok pre it x0 A Hx Hp) as (es & it1 & E1 & A1 & L1 & _).
  destruct (advance_ok it1 _ y A1 L1 Hy) as (e & it2 & E2 & A2 & P2 & S2 & U2 & K2 & _).
  exists it, (es ++ [e]), it2. split; [exact E|]. rewrite walk_app, E1. cbn [obind fi_walk]. rewrite E2. cbn [obind].
  split; [reflexivity|]. split; [apply A2|]. auto.
Qed.

(** Events. *)
Definition line_at (t : table bool) (i : Z) : bool := match lookup t i with Some b => b | None => false end.

Lemma walk_events (ops : fevent -> list line_op) (t : table bool) (get : fiter -> bool) :
  (forall it x y e it', at_index it x -> x < n -> y < n -> fi_advance_to v it y = Ok (e, it') ->
     lookup t y = Some (get it') /\
     let changed := negb (color_eqb (fi_color it') (fi_color it)) in
     ops e = line_ops (get it' && (negb (get it) || changed))
                      ((negb (get it') && get it) || (get it' && changed))) ->
  forall targets it x, at_index it x -> x < n -> Forall (fun y => y < n) targets ->
  steady_starts (line_at t) (lookup (ft_color f)) (get it) x targets ->
  exists es it', fi_walk v it targets = Ok (es, it') /\
    replay_walk (get it) (map ops es) = Some (map (line_at t) targets).
Proof.
  intros Ho. induction targets as [|y ts IH]; intros it x A Hx Ht Hst.
  - exists [], it. auto.
  - inversion Ht as [|? ? Hy Ht']; subst. cbn [fi_walk].
    destruct (advance_ok it x y A Hx Hy) as (e & it1 & E1 & A1 & _).
    destruct (Ho it x y e it1 A Hx Hy E1) as (L & Oe). rewrite E1. cbn [obind].
    destruct Hst as (Hs1 & Hs2).
    assert (Hl : line_at t y = get it1) by (unfold line_at; now rewrite L).
    rewrite Hl in Hs1, Hs2.
    destruct (IH it1 y A1 Hy Ht' Hs2) as (es & it2 & -> & R). cbn [obind].
    eexists _, it2. split; [reflexivity|]. cbn [map replay_walk]. rewrite Oe, Hl.
    assert (C : get it1 = true -> get it = false -> negb (color_eqb (fi_color it1) (fi_color it)) = false).
    { intros G1 G2. destruct (Hs1 G1 G2) as (a & b & Ha & Hb & Hc).
      destruct A as (_ & _ & _ & _ & A). destruct A1 as (_ & _ & _ & _ & A1).
      rewrite A in Ha. rewrite A1 in Hb. injection Ha as <-. injection Hb as <-.
      change (same_color (fi_color it1) (fi_color it)) with (color_eqb (fi_color it1) (fi_color it)) in Hc. now rewrite Hc. }
    destruct (get it1) eqn:G1, (get it) eqn:G2; cbn [negb andb orb].
    + destruct (negb _) eqn:G3; cbn; now rewrite R.
    + rewrite C by auto. cbn. now rewrite R.
    + cbn. now rewrite R.
    + cbn. now rewrite R.
Qed.

Lemma balanced x0 targets : x0 < n -> Forall (fun y => y < n) targets ->
  (steady_starts (line_at (ft_under f)) (lookup (ft_color f)) false x0 targets ->
   exists it es it', fi_make v x0 = Ok it /\ fi_walk v it targets = Ok (es, it') /\
     replay_walk false (map under_ops es) = Some (map (line_at (ft_under f)) targets)) /\
  (steady_starts (line_at (ft_strike f)) (lookup (ft_color f)) false x0 targets ->
   exists it es it', fi_make v x0 = Ok it /\ fi_walk v it targets = Ok (es, it') /\
     replay_walk false (map strike_ops es) = Some (map (line_at (ft_strike f)) targets)).
Proof.
  intros Hx Ht. destruct (make_ok x0 Hx) as (it & E & A & F1 & F2). split; intros Hs; exists it.
  - rewrite <- F2 in Hs.
    destruct (walk_events under_ops (ft_under f) fi_under) with (targets := targets) (it := it) (x := x0)
      as (es & it' & W & R); auto.
    + intros i0 a b e i1 Ha La Lb Hb. destruct (advance_ok i0 a b Ha La Lb) as (e' & i1' & Hb' & _ & _ & _ & U & _ & Ev).
      rewrite Hb in Hb'. injection Hb' as <- <-. split; auto. now rewrite Ev.
    + exists es, it'. rewrite F2 in R. auto.
  - rewrite <- F1 in Hs.
    destruct (walk_events strike_ops (ft_strike f) fi_strike) with (targets := targets) (it := it) (x := x0)
      as (es & it' & W & R); auto.
    + intros i0 a b e i1 Ha La Lb Hb. destruct (advance_ok i0 a b Ha La Lb) as (e' & i1' & Hb' & _ & _ & U & _ & _ & Ev).
      rewrite Hb in Hb'. injection Hb' as <- <-. split; auto. now rewrite Ev.
    + exists es, it'. rewrite F1 in R. auto.
Qed.

(** Exact meaning of the events of one step. *)
Lemma events_exact x0 pre p y : x0 < n -> Forall (fun y => y < n) pre -> p < n -> y < n ->
  exists it es it1 e it2 cp cy, fi_make v x0 = Ok it /\ fi_walk v it (pre ++ [p]) = Ok (es, it1) /\
    fi_advance_to v it1 y = Ok (e, it2) /\
    lookup (ft_color f) p = Some cp /\ lookup (ft_color f) y = Some cy /\
    let changed := negb (color_eqb cy cp) in
    let u := line_at (ft_under f) in let s := line_at (ft_strike f) in
    ev_under_begin e = u y && (negb (u p) || changed) /\
    ev_under_end e = (u p && negb (u y)) || (u y && changed) /\
    ev_strike_begin e = s y && (negb (s p) || changed) /\
    ev_strike_end e = (s p && negb (s y)) || (s y && changed).
Proof.
  intros Hx Hp Hq Hy.
  destruct (walk_last x0 pre p Hx Hp Hq) as (it & es & it1 & E & W & C1 & _ & S1 & U1 & _).
  destruct (make_ok x0 Hx) as (it0 & E0 & A0 & _). rewrite E in E0. injection E0 as <-.
  destruct (walk_ok (pre ++ [p]) it x0 A0 Hx) as (es' & it1' & W' & A1 & L1 & _).
  { apply Forall_app; auto. }
  rewrite W in W'. injection W' as <- <-. rewrite last_app1 in *.
  destruct (advance_ok it1 p y A1 Hq Hy) as (e & it2 & E2 & A2 & _ & S2 & U2 & _ & Ev).
  exists it, es, it1, e, it2, (fi_color it1), (fi_color it2).
  split; [auto|]. split; [auto|]. split; [auto|]. split; [auto|]. split; [apply A2|].
  cbn zeta. unfold line_at. rewrite S1, U1, S2, U2, Ev. cbn.
  split; [auto|]. split; [f_equal; apply andb_comm|]. split; [auto|]. f_equal; apply andb_comm.
Qed.
End Tables.
