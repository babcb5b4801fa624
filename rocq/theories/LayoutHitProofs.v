(** Hit testing. *)
From Coq Require Import Lqa Qabs.
From Verif Require Import Base BaseFacts BinarySearchModel BinarySearchProofs PackingModel PackingProofs
  LayoutModel LayoutSpec LayoutProofs LayoutGeomProofs LayoutCaretProofs LayoutCursorProofs.
Open Scope Z_scope.
Set Implicit Arguments.

Lemma make_cursor_position p o : 0 <= p < 2 ^ 31 -> cp_get_position (make_cursor p o) = p.
Proof.
  intros H. unfold make_cursor. rewrite wrap_small by lia. rewrite get_position_eq. unfold lo.
  rewrite <- Z.land_ones, Z.land_lor_distr_l, !Z.land_ones by lia. rewrite (Z.mod_small p) by lia.
  destruct o; [rewrite Z.mod_same by lia|rewrite Z.mod_0_l by lia]; apply Z.lor_0_r.
Qed.
Lemma cp_make_position p : 0 <= p < 2 ^ 31 -> cp_get_position (cp_make p) = p.
Proof. intros H. unfold cp_make. rewrite wrap_small, get_position_eq by lia. unfold lo. apply Z.mod_small. lia. Qed.
Lemma cp_opposite_position p : 0 <= p < 2 ^ 31 -> cp_get_position (cp_set_affinity (cp_make p) AOpposite) = p.
Proof.
  intros H. unfold cp_make. rewrite wrap_small by lia. rewrite set_affinity_eq by lia. rewrite get_position_eq. unfold lo.
  rewrite (Z.mod_small p) by lia. lia.
Qed.

Section Walk.
Variables (B : Z -> Prop) (following : Z -> Z).
Hypothesis W : walks B following.
Variables (r : vrun) (c n : Z) (a b : Q) (fa la : bool) (x : Q).
Hypothesis Hc : 0 <= c < n.
Hypothesis Hn : n < 2 ^ 31.
Hypothesis Bn : B n.

Lemma walk_next cur : B cur -> c <= cur < n -> cur < following cur <= n /\ B (following cur) /\
  (forall q, cur < q < following cur -> ~ B q) /\ wrap32 (following cur) = following cur.
Proof.
  intros Hb Hr. destruct (W (c := cur)) as [[_ No]|(H1 & H2 & H3)]; [lia|exfalso; exact (No n ltac:(lia) Bn)|].
  assert (following cur <= n). { destruct (Z.leb_spec (following cur) n); [assumption|]. exfalso. exact (H3 n ltac:(lia) Bn). }
  split; [lia|]. split; [exact H2|]. split; [exact H3|]. apply wrap_small. lia.
Qed.

(** The result is a caret stop of the cluster, whatever the positions are. *)
Lemma walk_legal fuel : forall cur pos, B c -> B cur -> c <= cur < n -> (Z.to_nat (n - cur) <= fuel)%nat ->
  exists sel o, cluster_walk following fuel r c n a b fa la x cur pos = Ok (make_cursor sel o) /\ B sel /\ c <= sel <= n.
Proof.
  induction fuel as [|fuel IH]; intros cur pos Bc Bcur Hr Hf; [lia|].
  destruct (walk_next Bcur Hr) as (Hnx & Bnx & _ & Ew). cbn [cluster_walk]. rewrite Ew.
  set (nx := following cur) in *.
  match goal with |- context [if ?t then _ else _] => destruct t end.
  { eexists _, _. split; [reflexivity|]. match goal with |- context [if ?t then _ else _] => destruct t end; split; auto; lia. }
  match goal with |- context [if ?t then _ else _] => destruct t end.
  { eexists _, _. split; [reflexivity|]. match goal with |- context [if ?t then _ else _] => destruct t end; split; auto; lia. }
  destruct (Z.leb_spec n nx).
  { exists c, false. split; [|split; [exact Bc|lia]]. unfold make_cursor, cp_make. rewrite Z.lor_0_r. reflexivity. }
  apply IH; auto; lia.
Qed.

(** ... and the affinity is that of the run's edges. *)
Lemma walk_affinity fuel : forall cur pos, ru_rtl r = false -> fa = false -> B cur -> c <= cur < n -> (Z.to_nat (n - cur) <= fuel)%nat ->
  exists sel o, cluster_walk following fuel r c n a b fa la x cur pos = Ok (make_cursor sel o) /\ c <= sel <= n /\
    (o = (sel =? ru_end r) && la \/ sel = c /\ o = false).
Proof.
  induction fuel as [|fuel IH]; intros cur pos Hd Hfa Bcur Hr Hf; [lia|].
  destruct (walk_next Bcur Hr) as (Hnx & Bnx & _ & Ew). cbn [cluster_walk]. rewrite Ew, Hd. cbn [andb negb].
  set (nx := following cur) in *.
  match goal with |- context [if ?t then _ else _] => destruct t end.
  { eexists _, _. split; [reflexivity|]. split; [match goal with |- context [if ?t then _ else _] => destruct t end; lia|].
    left. rewrite Hfa, andb_false_r. reflexivity. }
  destruct (Z.leb_spec n nx).
  { exists c, false. split; [|split; [lia|auto]]. unfold make_cursor, cp_make. rewrite Z.lor_0_r. reflexivity. }
  apply IH; auto; lia.
Qed.

Lemma step_lerp q : c <= q <= n -> (a + inject_Z (wrap32 (q - c)) / inject_Z (wrap32 (n - c)) * (b - a) == lerp a b c n q)%Q.
Proof. intros H. rewrite !wrap_small by lia. unfold lerp. ring. Qed.

(** With [x] between the ends of the cluster it is the nearest one. *)
Lemma walk_nearest fuel : forall cur pos, B cur -> c <= cur < n -> (Z.to_nat (n - cur) <= fuel)%nat ->
  (pos == lerp a b c n cur)%Q -> (if ru_rtl r then b < x /\ x <= pos else pos < x /\ x <= b)%Q ->
  exists sel o, cluster_walk following fuel r c n a b fa la x cur pos = Ok (make_cursor sel o) /\ B sel /\ c <= sel <= n /\
    o = (if ru_rtl r then (sel =? ru_end r) && fa || (sel =? ru_start r) && la else (sel =? ru_start r) && fa || (sel =? ru_end r) && la) /\
    forall q, B q -> c <= q <= n -> (Qabs (x - lerp a b c n sel) <= Qabs (x - lerp a b c n q))%Q.
Proof.
  induction fuel as [|fuel IH]; intros cur pos Bcur Hr Hf Hpos Hx; [lia|].
  destruct (walk_next Bcur Hr) as (Hnx & Bnx & Gap & Ew). cbn [cluster_walk]. rewrite Ew.
  set (nx := following cur) in *. pose proof (@step_lerp nx ltac:(lia)) as EL.
  set (npos := (a + inject_Z (wrap32 (nx - c)) / inject_Z (wrap32 (n - c)) * (b - a))%Q) in *.
  pose proof (@lerp_end a b c n ltac:(lia)) as EN.
  assert (Mono : forall u v, u <= v -> (if ru_rtl r then lerp a b c n v <= lerp a b c n u else lerp a b c n u <= lerp a b c n v)%Q).
  { intros u v Huv. pose proof (@scale_mono c n u v ltac:(lia) Huv) as Sm.
    assert (AB : (if ru_rtl r then b < a else a < b)%Q).
    { pose proof (@scale_bounds c n cur ltac:(lia) ltac:(lia)) as Sb. unfold lerp in Hpos.
      destruct (ru_rtl r); destruct Hx as [X1 X2]; rewrite Hpos in *; nra. }
    unfold lerp. destruct (ru_rtl r); apply Qplus_le_r; nra. }
  destruct (ru_rtl r) eqn:Hd; cbn [andb negb]; destruct Hx as [X1 X2].
  - destruct (qltb npos x) eqn:T1; cbn [andb].
    + assert (T2 : Qle_bool x pos = true) by (apply Qle_bool_iff; exact X2). rewrite T2. apply qltb_lt in T1.
      eexists _, _. split; [reflexivity|].
      destruct (qltb (x - npos) (pos - x)) eqn:T3; [apply qltb_lt in T3|apply qltb_ge in T3]; (split; [assumption|]; split; [lia|]; split; [reflexivity|]);
        intros q Bq Hq; assert (Hside : q <= cur \/ nx <= q)
          by (destruct (Z.leb_spec q cur); [auto|]; destruct (Z.leb_spec nx q); [auto|]; exfalso; apply (Gap q ltac:(lia) Bq)).
      * destruct Hside as [Hs|Hs]; pose proof (Mono _ _ Hs); apply Qabs_case; apply Qabs_case; intros; lra.
      * destruct Hside as [Hs|Hs]; pose proof (Mono _ _ Hs); apply Qabs_case; apply Qabs_case; intros; lra.
    + apply qltb_ge in T1. destruct (Z.leb_spec n nx).
      { exfalso. assert (nx = n) by lia. rewrite H0, EN in EL. lra. }
      apply IH; auto; lia.
  - destruct (Qle_bool x npos) eqn:T1; cbn [andb].
    + assert (T2 : qltb pos x = true) by (apply qltb_lt; exact X1). rewrite T2. cbn [andb]. apply Qle_bool_iff in T1.
      eexists _, _. split; [reflexivity|].
      destruct (qltb (npos - x) (x - pos)) eqn:T3; [apply qltb_lt in T3|apply qltb_ge in T3]; (split; [assumption|]; split; [lia|]; split; [reflexivity|]);
        intros q Bq Hq; assert (Hside : q <= cur \/ nx <= q)
          by (destruct (Z.leb_spec q cur); [auto|]; destruct (Z.leb_spec nx q); [auto|]; exfalso; apply (Gap q ltac:(lia) Bq)).
      * destruct Hside as [Hs|Hs]; pose proof (Mono _ _ Hs); apply Qabs_case; apply Qabs_case; intros; lra.
      * destruct Hside as [Hs|Hs]; pose proof (Mono _ _ Hs); apply Qabs_case; apply Qabs_case; intros; lra.
    + rewrite andb_false_r. assert (T : (npos < x)%Q).
      { apply Qnot_le_lt. intros H. apply Qle_bool_iff in H. congruence. }
      destruct (Z.leb_spec n nx).
      { exfalso. assert (nx = n) by lia. rewrite H0, EN in EL. lra. }
      apply IH; auto; lia.
Qed.
End Walk.

(** The walk ends for every iterator that moves forward. *)
Lemma walk_terminates following r c n a b fa la x : (forall p, 0 <= p < 2 ^ 31 -> following p = -1 \/ p < following p < 2 ^ 31) ->
  0 <= c < n -> n < 2 ^ 31 -> forall fuel cur pos, c <= cur < n -> (Z.to_nat (n - cur) <= fuel)%nat ->
  exists res, cluster_walk following fuel r c n a b fa la x cur pos = Ok res.
Proof.
  intros F Hc Hn. induction fuel as [|fuel IH]; intros cur pos Hr Hf; [lia|]. cbn [cluster_walk].
  match goal with |- context [if ?t then _ else _] => destruct t eqn:T1 end; [eauto|].
  match goal with |- context [if ?t then _ else _] => destruct t eqn:T2 end; [eauto|].
  destruct (F cur) as [E|E]; [lia| |].
  - rewrite E. destruct (Z.leb_spec n (wrap32 (-1))) as [H|H]; [eauto|].
    exfalso. assert (Hw : wrap32 (-1) = 2 ^ 32 - 1) by (vm_compute; reflexivity). lia.
  - rewrite wrap_small by lia. destruct (Z.leb_spec n (following cur)); [eauto|]. apply IH; lia.
Qed.

(** ** The whole function *)
Section Line.
Variables (d : sdoc) (y : Q) (k : nat) (s : sline) (following : Z -> Z).
Hypothesis Es : nth_error d k = Some s.
Hypothesis NE : sl_runs s <> [].
Hypothesis OK : Forall run_ok (sl_runs s).
Let l := layout_of d y.
Let R := run_first d k.
Let N := length (sl_runs s).

Lemma line_run_split j r : nth_error (sl_runs s) j = Some r ->
  exists pre post, doc_runs d = pre ++ r :: post /\ length pre = (R + j)%nat.
Proof.
  intros H. assert (Hj : (j < length (sl_runs s))%nat) by (apply nth_error_Some; congruence).
  pose proof (line_runs d k Es Hj) as E. rewrite H in E. destruct (split_nth _ _ E) as [Ed L].
  exists (firstn (R + j) (doc_runs d)), (skipn (S (R + j)) (doc_runs d)). auto.
Qed.
Lemma line_run_ok j r : nth_error (sl_runs s) j = Some r -> run_ok r.
Proof. intros H. rewrite Forall_forall in OK. eauto using nth_error_In. Qed.

Definition right_of (X : Q) (i : nat) : bool := qltb (sr_end_x (nth (i - R) (sl_runs s) (empty_run 0 0))) X.
Lemma bound_get X i : (R <= i < R + N)%nat ->
  (do r <- vget (lo_runs l) i; do p <- vget (lo_pos l) (2 * (ru_glyph_end r + i)); Ok (qltb p X)) = Ok (right_of X i).
Proof.
  intros H. destruct (nth_error (sl_runs s) (i - R)) as [r|] eqn:E; [|apply nth_error_None in E; unfold N in H; lia].
  destruct (line_run_split _ E) as (pre & post & Ed & L). replace (R + (i - R))%nat with i in L by lia.
  destruct (@doc_run_view d y pre r post Ed) as (V & _). cbv zeta in V. rewrite L in V. fold l in V. rewrite V.
  cbn [obind vrun_of ru_glyph_end].
  replace (2 * (count_glyphs pre + run_len r + i))%nat with (2 * (count_glyphs pre + length pre) + 2 * run_len r)%nat by lia.
  unfold l. rewrite (@pos_get d y pre r post Ed (run_len r)) by lia. cbn [obind]. unfold right_of.
  rewrite (nth_error_nth _ _ _ E). do 2 f_equal.
  unfold run_xs. rewrite app_nth2 by (rewrite map_length; unfold run_len; lia). rewrite map_length. unfold run_len.
  rewrite Nat.sub_diag. reflexivity.
Qed.

(** Logical number of the glyph before visual boundary [g]. *)
Definition logical_before (r : srun) (g : nat) : nat := if sr_rtl r then (run_len r - g)%nat else (g - 1)%nat.

Definition run_facts (X : Q) (run : nat) : Prop :=
  (forall i j, (i <= j < N)%nat -> right_of X (R + j) = true -> right_of X (R + i) = true) ->
  (forall i, (R <= i < run)%nat -> right_of X i = true) /\ (forall i, (run <= i < R + N)%nat -> right_of X i = false).
Definition glyph_facts (X : Q) (r : srun) (g : nat) : Prop :=
  qnondecreasing (run_xs r) ->
  (forall i, (i < g)%nat -> (nth i (run_xs r) 0 < X)%Q) /\ (forall i, (g <= i < run_len r)%nat -> (X <= nth i (run_xs r) 0)%Q).

(** The affinities the code gives to the edges of run [j] of the line. *)
Definition edge_first (rs : list srun) (j : nat) (r : srun) : bool :=
  if negb (j =? 0)%nat && negb (sr_rtl r) then match nth_error rs (j - 1) with Some q => sr_rtl q | None => false end else false.
Definition edge_last (rs : list srun) (j : nat) (r : srun) : bool :=
  if (S j =? length rs)%nat && (sr_offset r =? 0) then true
  else if negb (S j =? length rs)%nat && negb (sr_rtl r) then match nth_error rs (S j) with Some q => sr_rtl q | None => false end else false.

Lemma hit_structure w al x : exists x0, get_line_x_start l k w al = Ok x0 /\
  let X := (x - x0)%Q in
  (exists r, nth_error (sl_runs s) (N - 1) = Some r /\ run_facts X (R + N) /\
     find_closest_cursor_position following l w al k x =
     Ok (cp_set_affinity (cp_make (if sr_rtl r then sr_start r else sr_end r)) AOpposite)) \/
  (exists j r g G fa la, nth_error (sl_runs s) j = Some r /\ run_facts X (R + j) /\ (g <= run_len r)%nat /\ glyph_facts X r g /\
     (fa = edge_first (sl_runs s) j r /\ la = edge_last (sl_runs s) j r) /\
     find_closest_cursor_position following l w al k x =
     if (g =? 0)%nat then Ok (make_cursor (if sr_rtl r then sr_end r else sr_start r) fa)
     else
       let m := logical_before r g in
       let c := nth m (logical_chars r) (sr_end r) in let e := char_after r m in
       if c =? e then Ok (make_cursor c fa)
       else cluster_walk following (S (Z.to_nat (e - c))) (vrun_of G r) c e
              (nth m (logical_xs r) 0%Q) (nth (S m) (logical_xs r) 0%Q) fa la X c (nth m (logical_xs r) 0%Q)).
Proof.
  unfold find_closest_cursor_position.
  destruct (split_nth _ _ Es) as [Ed L].
  destruct (@doc_line_view d y (firstn k d) s (skipn (S k) d) Ed) as (V1 & V2 & _). cbv zeta in V1, V2. rewrite L in V1, V2.
  fold (run_first d k) in V1, V2. fold l R N in V1, V2.
  pose proof (line_x_start_of y (firstn k d) s (skipn (S k) d) w al) as V0. rewrite <- Ed, L in V0. fold l in V0.
  match type of V0 with _ = Ok ?q => set (x0 := q) in * end. exists x0. split; [exact V0|]. cbv zeta. set (X := (x - x0)%Q) in *.
  destruct (lo_lines l) eqn:EL.
  { pose proof (length_lo_lines d y) as H. fold l in H. rewrite EL in H. cbn [length] in H.
    assert (k < length d)%nat by (apply nth_error_Some; congruence). lia. }
  clear EL. rewrite V0, V1, V2. cbn [obind]. fold X. replace (R + N - R)%nat with N by lia.
  assert (HN : (0 < N)%nat) by (unfold N; destruct (sl_runs s); [congruence|cbn [length]; lia]).
  match goal with |- context [binary_search R N ?cd] => set (cond := cd) end.
  destruct (@binary_search_in_range cond R N) as (run & Erun & Hrun).
  { intros i Hi. exists (right_of X i). apply bound_get. exact Hi. }
  assert (RF : run_facts X run).
  { intros Hm. destruct (@binary_search_partition R N (right_of X)) with (cond := cond) as (run' & Erun' & _ & F).
    - intros i j H1 H2 H3 H4. specialize (Hm (i - R)%nat (j - R)%nat ltac:(lia)).
      replace (R + (j - R))%nat with j in Hm by lia. replace (R + (i - R))%nat with i in Hm by lia. auto.
    - intros i Hi. apply bound_get. exact Hi.
    - rewrite Erun in Erun'. inversion Erun'; subst run'. exact F. }
  rewrite Erun. cbn [obind]. destruct (Nat.eqb_spec run (R + N)) as [Hlast|Hlast].
  - left. subst run. destruct (nth_error (sl_runs s) (N - 1)) as [r|] eqn:Er; [|apply nth_error_None in Er; unfold N in *; lia].
    exists r. split; [reflexivity|]. split; [exact RF|].
    destruct (line_run_split _ Er) as (pre & post & Edr & Lp). replace (R + (N - 1))%nat with (R + N - 1)%nat in Lp by lia.
    destruct (@doc_run_view d y pre r post Edr) as (V & _). cbv zeta in V. rewrite Lp in V. fold l in V. rewrite V. reflexivity.
  - right. destruct (nth_error (sl_runs s) (run - R)) as [r|] eqn:Er; [|apply nth_error_None in Er; unfold N in *; lia].
    pose proof (line_run_ok _ Er) as Ok_r.
    destruct (line_run_split _ Er) as (pre & post & Edr & Lp). replace (R + (run - R))%nat with run in Lp by lia.
    destruct (@doc_run_view d y pre r post Edr) as (Vr & Vg & Vp & _). cbv zeta in Vr, Vg, Vp. rewrite Lp in Vr, Vg, Vp.
    fold l in Vr, Vg, Vp. rewrite Vr, Vg, Vp. cbn [obind vrun_of ru_glyph_end ru_rtl ru_end ru_start ru_offset].
    set (G := count_glyphs pre) in *. replace (G + run_len r - G)%nat with (run_len r) by lia.
    assert (PG : forall i, (i <= run_len r)%nat -> vget (lo_pos l) (2 * (G + run) + 2 * i) = Ok (nth i (run_xs r) 0%Q)).
    { intros i Hi. pose proof (@pos_get d y pre r post Edr i Hi) as H. rewrite Lp in H. exact H. }
    assert (CG : forall i, (i < run_len r)%nat -> vget (lo_chars l) (G + i) = Ok (nth i (run_chars r) (sr_end r))).
    { intros i Hi. exact (@char_get d y pre r post Edr i Hi). }
    match goal with |- context [binary_search 0 (run_len r) ?cd] => set (cond2 := cd) end.
    destruct (@binary_search_in_range cond2 0 (run_len r)) as (g & Eg & Hg).
    { intros i Hi. unfold cond2. rewrite PG by lia. cbn [obind]. eauto. }
    assert (GF : glyph_facts X r g).
    { intros Hm. destruct (@binary_search_partition 0 (run_len r) (fun i => qltb (nth i (run_xs r) 0%Q) X)) with (cond := cond2)
        as (g' & Eg' & _ & F1 & F2).
      - intros i j H1 H2 H3 H4. apply qltb_lt in H4. apply qltb_lt. eapply Qle_lt_trans; [|exact H4].
        apply qnondecreasing_nth; [exact Hm|]. rewrite length_run_xs. lia.
      - intros i Hi. unfold cond2. rewrite PG by lia. reflexivity.
      - rewrite Eg in Eg'. inversion Eg'; subst g'. split.
        + intros i Hi. apply qltb_lt, F1. lia.
        + intros i Hi. apply qltb_ge, F2. lia. }
    rewrite Eg. cbn [obind].
    set (firstAff := (if negb (run =? R)%nat && negb (sr_rtl r) then do p <- vget (lo_runs l) (run - 1); Ok (ru_rtl p) else Ok false)).
    assert (FA : firstAff = Ok (edge_first (sl_runs s) (run - R) r)).
    { unfold firstAff, edge_first. replace (run - R =? 0)%nat with (run =? R)%nat
        by (destruct (Nat.eqb_spec run R), (Nat.eqb_spec (run - R) 0); lia).
      destruct (Nat.eqb_spec run R); cbn [negb andb]; [reflexivity|]. destruct (sr_rtl r); cbn [negb]; [reflexivity|].
      destruct (nth_error (sl_runs s) (run - R - 1)) as [q|] eqn:Eq; [|apply nth_error_None in Eq; unfold N in *; lia].
      destruct (line_run_split _ Eq) as (pre' & post' & Edq & Lq).
      destruct (@doc_run_view d y pre' q post' Edq) as (Vq & _). cbv zeta in Vq. rewrite Lq in Vq. fold l in Vq.
      replace (R + (run - R - 1))%nat with (run - 1)%nat in Vq by lia. rewrite Vq. reflexivity. }
    rewrite FA. clear firstAff FA. set (fa := edge_first (sl_runs s) (run - R) r).
    set (lastAff := (if (run =? R + N - 1)%nat && (sr_offset r =? 0) then Ok true
                     else if negb (run =? R + N - 1)%nat && negb (sr_rtl r)
                          then do q <- vget (lo_runs l) (run + 1); Ok (ru_rtl q) else Ok false)).
    assert (LA : lastAff = Ok (edge_last (sl_runs s) (run - R) r)).
    { unfold lastAff, edge_last. fold N. replace (S (run - R) =? N)%nat with (run =? R + N - 1)%nat
        by (destruct (Nat.eqb_spec run (R + N - 1)), (Nat.eqb_spec (S (run - R)) N); lia).
      destruct (Nat.eqb_spec run (R + N - 1)) as [Hl|Hl]; cbn [negb andb].
      - destruct (sr_offset r =? 0); reflexivity.
      - destruct (sr_rtl r); cbn [negb]; [reflexivity|].
        destruct (nth_error (sl_runs s) (S (run - R))) as [q|] eqn:Eq; [|apply nth_error_None in Eq; unfold N in *; lia].
        destruct (line_run_split _ Eq) as (pre' & post' & Edq & Lq).
        destruct (@doc_run_view d y pre' q post' Edq) as (Vq & _). cbv zeta in Vq. rewrite Lq in Vq. fold l in Vq.
        replace (R + S (run - R))%nat with (run + 1)%nat in Vq by lia. rewrite Vq. reflexivity. }
    rewrite LA. clear lastAff LA. set (la := edge_last (sl_runs s) (run - R) r).
    exists (run - R)%nat, r, g, G, fa, la. split; [exact Er|]. split; [replace (R + (run - R))%nat with run by lia; exact RF|].
    split; [lia|]. split; [exact GF|]. split; [split; reflexivity|].
    replace (G + g =? G)%nat with (g =? 0)%nat by (destruct (Nat.eqb_spec g 0), (Nat.eqb_spec (G + g) G); lia).
    destruct (Nat.eqb_spec g 0) as [->|Hg0]; unfold char_after, logical_before; destruct (sr_rtl r) eqn:Hd.
    + pose proof (PG 0%nat ltac:(lia)) as H. replace (2 * (G + run) + 2 * 0)%nat with (2 * (G + run))%nat in H by lia.
      rewrite H. cbn [obind]. rewrite Z.eqb_refl. reflexivity.
    + pose proof (PG 0%nat ltac:(lia)) as H. replace (2 * (G + run) + 2 * 0)%nat with (2 * (G + run))%nat in H by lia.
      pose proof (PG 0%nat ltac:(lia)) as H'. replace (G + 0 - G)%nat with 0%nat by lia. rewrite H, H'. cbn [obind].
      pose proof (run_ok_first Ok_r) as F. unfold logical_chars in F. rewrite Hd in F.
      assert (E0 : (if (G + 0 =? G + run_len r)%nat then Ok (sr_end r) else vget (lo_chars l) (G + 0)) = Ok (sr_start r)).
      { destruct (Nat.eqb_spec (G + 0) (G + run_len r)) as [Hz|Hz].
        - assert (Z0 : run_chars r = []) by (apply length_zero_iff_nil; rewrite length_run_chars; lia).
          rewrite Z0 in F. cbn [nth] in F. congruence.
        - rewrite CG by lia. congruence. }
      rewrite E0. cbn [obind]. rewrite Z.eqb_refl. reflexivity.
    + replace (G + g - 1)%nat with (G + (g - 1))%nat by lia. rewrite CG by lia. cbn [obind].
      assert (E1 : (if (G + (g - 1) =? G)%nat then Ok (sr_end r) else vget (lo_chars l) (G + g - 2))
                   = Ok (nth (S (run_len r - g)) (logical_chars r) (sr_end r))).
      { destruct (Nat.eqb_spec (G + (g - 1)) G) as [Hz|Hz].
        - rewrite nth_overflow by (rewrite length_logical_chars; lia). reflexivity.
        - replace (G + g - 2)%nat with (G + (g - 2))%nat by lia. rewrite CG by lia. f_equal.
          rewrite (@rev_chars_nth pre r (g - 2) Hd) by lia. f_equal. lia. }
      rewrite E1. cbn [obind]. replace (G + g - G)%nat with g by lia. rewrite PG by lia. cbn [obind].
      replace (G + (g - 1) - G)%nat with (g - 1)%nat by lia. rewrite PG by lia. cbn [obind].
      rewrite (@rev_chars_nth pre r (g - 1) Hd) by lia. rewrite (@rev_xs_nth pre r g Hd) by lia. rewrite (@rev_xs_nth pre r (g - 1) Hd) by lia.
      replace (run_len r - 1 - (g - 1))%nat with (run_len r - g)%nat by lia.
      replace (run_len r - (g - 1))%nat with (S (run_len r - g)) by lia. reflexivity.
    + replace (G + g - 1)%nat with (G + (g - 1))%nat by lia. rewrite CG by lia. cbn [obind].
      assert (LC : logical_chars r = run_chars r) by (unfold logical_chars; rewrite Hd; reflexivity).
      assert (LX : logical_xs r = run_xs r) by (unfold logical_xs; rewrite Hd; reflexivity). rewrite LC, LX.
      assert (E1 : (if (G + g =? G + run_len r)%nat then Ok (sr_end r) else vget (lo_chars l) (G + g))
                   = Ok (nth (S (g - 1)) (run_chars r) (sr_end r))).
      { replace (S (g - 1)) with g by lia. destruct (Nat.eqb_spec (G + g) (G + run_len r)) as [Hz|Hz].
        - rewrite nth_overflow by (rewrite length_run_chars; lia). reflexivity.
        - rewrite CG by lia. reflexivity. }
      rewrite E1. cbn [obind]. replace (G + (g - 1) - G)%nat with (g - 1)%nat by lia. rewrite PG by lia. cbn [obind].
      replace (G + g - G)%nat with g by lia. rewrite PG by lia. cbn [obind].
      replace (S (g - 1)) with g by lia. reflexivity.
Qed.
End Line.

Lemma edges_ltr rs j r : (forall t, In t rs -> sr_rtl t = false) ->
  edge_first rs j r = false /\ edge_last rs j r = ((S j =? length rs)%nat && (sr_offset r =? 0)).
Proof.
  intros LTR. unfold edge_first, edge_last. split.
  - destruct (negb _ && _); [|reflexivity]. destruct (nth_error rs (j - 1)) eqn:E; [apply LTR, (nth_error_In _ _ E)|reflexivity].
  - destruct ((S j =? length rs)%nat && (sr_offset r =? 0)); [reflexivity|]. destruct (negb _ && _); [|reflexivity].
    destruct (nth_error rs (S j)) eqn:E; [apply LTR, (nth_error_In _ _ E)|reflexivity].
Qed.

Lemma run_ok_end r : run_ok r -> sr_start r = sr_end r \/ In (sr_start r) (run_chars r).
Proof.
  intros OK. pose proof OK as (_ & _ & _ & _ & M). unfold logical_chars in M. destruct (sr_rtl r).
  - destruct (rev (run_chars r)) as [|c cs] eqn:E; [auto|]. right. destruct M as [<- _]. apply in_rev. rewrite E. left. reflexivity.
  - destruct (run_chars r) as [|c cs]; [auto|]. right. destruct M as [<- _]. left. reflexivity.
Qed.
Lemma stops_start B r : run_ok r -> begins_at_stops B r -> B (sr_start r).
Proof.
  intros OK [F E]. destruct (run_ok_end OK) as [->|H]; [exact E|]. rewrite Forall_forall in F. auto.
Qed.
Lemma stops_chars B r i : begins_at_stops B r -> B (nth i (logical_chars r) (sr_end r)).
Proof.
  intros [F E]. destruct (Nat.ltb_spec i (run_len r)).
  - assert (F' : Forall B (logical_chars r)) by (unfold logical_chars; destruct (sr_rtl r); [apply Forall_rev|]; exact F).
    rewrite Forall_forall in F'. apply F', nth_In. rewrite length_logical_chars. exact H.
  - rewrite nth_overflow; [exact E|]. rewrite length_logical_chars. lia.
Qed.
Lemma run_ok_range r i : run_ok r -> sr_start r <= nth i (logical_chars r) (sr_end r) <= sr_end r.
Proof.
  intros OK. destruct (Nat.ltb_spec i (run_len r)) as [H|H].
  - pose proof (run_ok_chars OK H). lia.
  - rewrite nth_overflow by (rewrite length_logical_chars; lia). destruct OK as (? & _). lia.
Qed.

Lemma hit_legal B following d y k s w al x : walks B following -> nth_error d k = Some s -> sl_runs s <> [] ->
  Forall run_ok (sl_runs s) -> Forall (begins_at_stops B) (sl_runs s) ->
  exists c r, find_closest_cursor_position following (layout_of d y) w al k x = Ok c /\
    In r (sl_runs s) /\ B (cp_get_position c) /\ sr_start r <= cp_get_position c <= sr_end r.
Proof.
  intros W Es NE OK ST.
  destruct (@hit_structure d y k s following Es NE OK w al x) as (x0 & _ & [(r & Er & _ & ->)|(j & r & g & G & fa & la & Er & _ & Hg & _ & _ & ->)]).
  - assert (In r (sl_runs s)) by eauto using nth_error_In. rewrite Forall_forall in OK, ST. pose proof (OK _ H) as O. pose proof (ST _ H) as T.
    pose proof O as (O1 & O2 & _). pose proof (stops_start O T) as T1. destruct T as [_ T2].
    eexists _, r. split; [reflexivity|]. split; [exact H|].
    rewrite cp_opposite_position by (destruct (sr_rtl r); lia). destruct (sr_rtl r); split; auto; lia.
  - assert (In r (sl_runs s)) by eauto using nth_error_In. rewrite Forall_forall in OK, ST. pose proof (OK _ H) as O. pose proof (ST _ H) as T.
    pose proof O as (O1 & O2 & _). pose proof (stops_start O T) as T1. pose proof T as [_ T2].
    destruct (Nat.eqb_spec g 0) as [->|Hg0].
    + eexists _, r. split; [reflexivity|]. split; [exact H|].
      rewrite make_cursor_position by (destruct (sr_rtl r); lia). destruct (sr_rtl r); split; auto; lia.
    + cbv zeta. set (m := logical_before r g). assert (Hm : (m < run_len r)%nat) by (unfold m, logical_before; destruct (sr_rtl r); lia).
      pose proof (@run_ok_range r m O) as R1. pose proof (@run_ok_range r (S m) O) as R2. fold (char_after r m) in R2.
      assert (Hle : nth m (logical_chars r) (sr_end r) <= char_after r m) by (apply run_ok_sorted; [exact O|lia]).
      destruct (Z.eqb_spec (nth m (logical_chars r) (sr_end r)) (char_after r m)) as [Heq|Hne].
      * eexists _, r. split; [reflexivity|]. split; [exact H|]. rewrite make_cursor_position by lia. split; [apply stops_chars; exact T|lia].
      * destruct (@walk_legal B following W (vrun_of G r) (nth m (logical_chars r) (sr_end r)) (char_after r m)
          (nth m (logical_xs r) 0%Q) (nth (S m) (logical_xs r) 0%Q) fa la (x - x0)%Q) with
          (fuel := S (Z.to_nat (char_after r m - nth m (logical_chars r) (sr_end r)))) (cur := nth m (logical_chars r) (sr_end r))
          (pos := nth m (logical_xs r) 0%Q) as (sel & o & -> & Bs & Hs); try lia;
          try exact (@stops_chars B r m T); try exact (@stops_chars B r (S m) T).
        eexists _, r. split; [reflexivity|]. split; [exact H|]. rewrite make_cursor_position by lia. split; [exact Bs|lia].
Qed.

(** ** The nearest caret *)
Lemma increasing_nth l e : increasing l -> Forall (fun c => c < e) l -> forall i j, (i < j <= length l)%nat -> nth i l e < nth j l e.
Proof.
  induction l as [|a l IH]; intros H F i j Hij; cbn [length] in Hij; [lia|]. inversion F as [|? ? Ha Fl]; subst.
  assert (Hl : increasing l) by (destruct l; [exact Logic.I|apply H]).
  destruct i as [|i], j as [|j]; cbn [nth]; try lia.
  - destruct l as [|b l]; cbn [length] in *; [destruct j; [exact Ha|lia]|]. destruct H as [Hab _].
    destruct j as [|j]; [exact Hab|]. specialize (IH Hl Fl 0%nat (S j) ltac:(lia)). cbn [nth] in *. lia.
  - apply IH; [exact Hl|exact Fl|lia].
Qed.
Lemma chars_strict r i j : run_ok r -> increasing (logical_chars r) -> (i < j <= run_len r)%nat ->
  nth i (logical_chars r) (sr_end r) < nth j (logical_chars r) (sr_end r).
Proof.
  intros OK I H. apply increasing_nth; [exact I| |rewrite length_logical_chars; lia].
  destruct OK as (_ & _ & _ & F & _). apply Forall_forall. intros c Hc. rewrite Forall_forall in F. apply F.
  unfold logical_chars in Hc. destruct (sr_rtl r); [rewrite in_rev|]; exact Hc.
Qed.

Lemma caret_lerp r m p g x : run_ok r -> increasing (logical_chars r) -> (m < run_len r)%nat ->
  nth m (logical_chars r) (sr_end r) <= p <= char_after r m -> caret_at r p g x ->
  (x == lerp (nth m (logical_xs r) 0) (nth (S m) (logical_xs r) 0) (nth m (logical_chars r) (sr_end r)) (char_after r m) p)%Q.
Proof.
  intros OK I Hm Hp C. destruct (Z.eq_dec p (nth m (logical_chars r) (sr_end r))) as [->|Hne].
  - rewrite lerp_start. apply (caret_boundary OK C (k := m)); [lia|reflexivity|].
    intros j Hj. apply chars_strict; auto; lia.
  - assert (g = S m).
    { destruct C as (Hg & Lo & Hi & _). destruct (lt_eq_lt_dec g (S m)) as [[H|H]|H]; [|exact H|].
      - specialize (Hi m ltac:(lia)). lia.
      - specialize (Lo (S m) H). unfold char_after in Hp. lia. }
    subst g. apply C.
Qed.

Lemma adjacent_end rs i r q : adjacent rs -> nth_error rs i = Some r -> nth_error rs (S i) = Some q -> (sr_end_x r == run_first_x q)%Q.
Proof.
  revert i. induction rs as [|a rs IH]; intros i A Er Eq; [destruct i; discriminate|].
  destruct rs as [|b rs]; [destruct i; cbn in Eq; [discriminate|destruct i; discriminate]|].
  destruct A as [A1 A2]. destruct i as [|i].
  - cbn in Er, Eq. inversion Er; inversion Eq; subst. exact A1.
  - exact (IH i A2 Er Eq).
Qed.
Lemma run_xs_ends r : qnondecreasing (run_xs r) -> (run_first_x r <= sr_end_x r)%Q.
Proof.
  intros M. pose proof (@logical_xs_mono r 0 (run_len r) M ltac:(lia)) as H. pose proof (logical_first_last r) as FL.
  unfold reads in H. destruct (sr_rtl r); destruct FL as [F1 F2]; rewrite F1, F2 in H; exact H.
Qed.
Lemma adjacent_order rs i j r q : adjacent rs -> Forall (fun r => qnondecreasing (run_xs r)) rs ->
  nth_error rs i = Some r -> nth_error rs j = Some q -> (i < j)%nat -> (sr_end_x r <= run_first_x q)%Q.
Proof.
  intros A F Er. revert q. intros q Eq H. revert q Eq. induction H as [|m Hm IH]; intros q Eq.
  - rewrite (@adjacent_end _ _ _ _ A Er Eq). apply Qle_refl.
  - destruct (nth_error rs m) as [t|] eqn:Et.
    + specialize (IH t eq_refl). rewrite Forall_forall in F. pose proof (run_xs_ends _ (F _ (nth_error_In _ _ Et))).
      pose proof (@adjacent_end _ _ _ _ A Et Eq) as E. lra.
    + apply nth_error_None in Et. assert (S m < length rs)%nat by (apply nth_error_Some; congruence). lia.
Qed.

Section Nearest.
Variables (B : Z -> Prop) (following : Z -> Z) (d : sdoc) (y : Q) (k : nat) (s : sline) (w : Q) (al : xalign) (x : Q).
Hypothesis W : walks B following.
Hypothesis Es : nth_error d k = Some s.
Hypothesis NE : sl_runs s <> [].
Hypothesis OK : Forall run_ok (sl_runs s).
Hypothesis ST : Forall (begins_at_stops B) (sl_runs s).
Hypothesis ONE : Forall (fun r => increasing (logical_chars r)) (sl_runs s).
Hypothesis MX : Forall (fun r => qnondecreasing (run_xs r)) (sl_runs s).
Hypothesis ADJ : adjacent (sl_runs s).
Let l := layout_of d y.
Let R := run_first d k.

(** The caret of position [p] in run number [j] of the line is at [X]. *)
Definition caret (j : nat) (p : Z) (X : Q) : Prop :=
  exists r, nth_error (sl_runs s) j = Some r /\ sr_start r <= p <= sr_end r /\ get_glyph_offset_in_run l (R + j) p = Ok X.

Lemma caret_ex j r p : nth_error (sl_runs s) j = Some r -> sr_start r <= p <= sr_end r ->
  exists X g, caret j p X /\ caret_at r p g X.
Proof.
  intros Er Hp. destruct (@line_run_split d k s Es j r Er) as (pre & post & Ed & L).
  rewrite Forall_forall in OK. destruct (@run_caret d y pre r post Ed (OK _ (nth_error_In _ _ Er)) p Hp) as (g & X & E & C).
  exists X, g. split; [|exact C]. exists r. split; [exact Er|]. split; [exact Hp|]. fold l in E. rewrite L in E. exact E.
Qed.
Lemma caret_inv j p X : caret j p X -> exists r g, nth_error (sl_runs s) j = Some r /\ sr_start r <= p <= sr_end r /\ caret_at r p g X.
Proof.
  intros (r & Er & Hp & E). destruct (caret_ex _ Er Hp) as (X' & g & (r' & _ & _ & E') & C).
  rewrite E in E'. inversion E'; subst X'. exists r, g. auto.
Qed.

(** Right and left edges. *)
Lemma caret_right r p g X : run_ok r -> caret_at r p g X -> p = (if sr_rtl r then sr_start r else sr_end r) ->
  increasing (logical_chars r) -> (X == sr_end_x r)%Q.
Proof.
  intros O C Hp I. pose proof (logical_first_last r) as FL. destruct (sr_rtl r); destruct FL as [F1 F2]; subst p.
  - rewrite <- F1. apply (caret_boundary O C (k := 0)); [lia|apply run_ok_first; exact O|lia].
  - rewrite <- F2. apply (caret_boundary O C (k := run_len r)); [lia| |].
    + apply nth_overflow. rewrite length_logical_chars. lia.
    + intros j Hj. apply run_ok_chars; auto.
Qed.
Lemma caret_left r p g X : run_ok r -> caret_at r p g X -> p = (if sr_rtl r then sr_end r else sr_start r) ->
  increasing (logical_chars r) -> (X == run_first_x r)%Q.
Proof.
  intros O C Hp I. pose proof (logical_first_last r) as FL. destruct (sr_rtl r); destruct FL as [F1 F2]; subst p.
  - rewrite <- F2. apply (caret_boundary O C (k := run_len r)); [lia| |].
    + apply nth_overflow. rewrite length_logical_chars. lia.
    + intros j Hj. apply run_ok_chars; auto.
  - rewrite <- F1. apply (caret_boundary O C (k := 0)); [lia|apply run_ok_first; exact O|lia].
Qed.

Lemma right_of_mono X i j : (i <= j < length (sl_runs s))%nat -> right_of d k s X (R + j) = true -> right_of d k s X (R + i) = true.
Proof.
  intros H. unfold right_of. fold R. replace (R + j - R)%nat with j by lia. replace (R + i - R)%nat with i by lia.
  rewrite !qltb_lt. destruct (Nat.eq_dec i j) as [->|Hne]; [auto|].
  destruct (nth_error (sl_runs s) i) as [a|] eqn:Ea; [|apply nth_error_None in Ea; lia].
  destruct (nth_error (sl_runs s) j) as [b|] eqn:Eb; [|apply nth_error_None in Eb; lia].
  rewrite (nth_error_nth _ _ _ Ea), (nth_error_nth _ _ _ Eb).
  pose proof (@adjacent_order (sl_runs s) i j a b ADJ MX Ea Eb ltac:(lia)). pose proof MX as M. rewrite Forall_forall in M.
  pose proof (run_xs_ends _ (M _ (nth_error_In _ _ Eb))). intros. lra.
Qed.
Lemma right_of_nth X i r : nth_error (sl_runs s) i = Some r -> right_of d k s X (R + i) = qltb (sr_end_x r) X.
Proof. intros E. unfold right_of. fold R. replace (R + i - R)%nat with i by lia. rewrite (nth_error_nth _ _ _ E). reflexivity. Qed.

(** The affinity found for a position of run [j]: after the line; before the first
    glyph; in a glyph. *)
Definition found (j : nat) (c : Z) : Prop :=
  exists r p, nth_error (sl_runs s) j = Some r /\ 0 <= p < 2 ^ 31 /\
    ((S j = length (sl_runs s) /\ p = (if sr_rtl r then sr_start r else sr_end r) /\ c = cp_set_affinity (cp_make p) AOpposite) \/
     (p = (if sr_rtl r then sr_end r else sr_start r) /\ c = make_cursor p (edge_first (sl_runs s) j r)) \/
     (sr_start r < sr_end r /\
      c = make_cursor p (if sr_rtl r then (p =? sr_end r) && edge_first (sl_runs s) j r || (p =? sr_start r) && edge_last (sl_runs s) j r
                        else (p =? sr_start r) && edge_first (sl_runs s) j r || (p =? sr_end r) && edge_last (sl_runs s) j r))).

Lemma hit_nearest_found : exists x0 c j X, get_line_x_start l k w al = Ok x0 /\
  find_closest_cursor_position following l w al k x = Ok c /\ B (cp_get_position c) /\ caret j (cp_get_position c) X /\ found j c /\
  forall i p Y, B p -> caret i p Y -> (Qabs (x - x0 - X) <= Qabs (x - x0 - Y))%Q.
Proof.
  destruct (@hit_structure d y k s following Es NE OK w al x) as (x0 & V0 & C). fold l in V0, C. fold R in C.
  pose proof OK as OK'. pose proof ST as ST'. pose proof ONE as ONE'. pose proof MX as MX'. rewrite Forall_forall in OK', ST', ONE', MX'.
  exists x0. destruct C as [(r & Er & RF & E)|(j & r & g & G & fa & la & Er & RF & Hg & GF & (FA & LA) & E)].
  - pose proof (nth_error_In _ _ Er) as Hin. pose proof (OK' _ Hin) as O. pose proof (ST' _ Hin) as T.
    pose proof O as (O1 & O2 & _). pose proof (stops_start O T) as T1. pose proof T as [_ T2].
    set (p := if sr_rtl r then sr_start r else sr_end r) in *.
    assert (Hp : sr_start r <= p <= sr_end r) by (unfold p; destruct (sr_rtl r); lia).
    destruct (caret_ex _ Er Hp) as (X & g & CX & CA). eexists _, _, X. split; [exact V0|]. split; [exact E|].
    rewrite cp_opposite_position by lia. split; [unfold p; destruct (sr_rtl r); auto|]. split; [exact CX|].
    split. { assert (0 < length (sl_runs s))%nat by (destruct (sl_runs s); [congruence|cbn [length]; lia]).
      exists r, p. split; [exact Er|]. split; [lia|]. left. split; [lia|]. split; reflexivity. }
    intros i q Y Bq CY. apply caret_inv in CY as (t & h & Et & Ht & CAt).
    pose proof (caret_right O CA eq_refl (ONE' _ Hin)) as EX.
    pose proof (nth_error_In _ _ Et) as Hint. pose proof (caret_bounds (OK' _ Hint) (MX' _ Hint) CAt) as Bd.
    destruct RF as [RF _]; [intros; eapply right_of_mono; eauto|].
    assert (HN : (0 < length (sl_runs s))%nat) by (destruct (sl_runs s); [congruence|cbn [length]; lia]).
    specialize (RF (R + (length (sl_runs s) - 1))%nat ltac:(fold R; lia)). rewrite (right_of_nth _ _ Er) in RF. apply qltb_lt in RF.
    assert (Yle : (Y <= sr_end_x r)%Q).
    { destruct (Nat.eq_dec i (length (sl_runs s) - 1)) as [->|Hne]; [rewrite Er in Et; inversion Et; subst; lra|].
      assert (i < length (sl_runs s))%nat by (apply nth_error_Some; congruence).
      pose proof (@adjacent_order (sl_runs s) i (length (sl_runs s) - 1) t r ADJ MX Et Er ltac:(lia)).
      pose proof (run_xs_ends _ (MX' _ Hin)). lra. }
    apply Qabs_case; apply Qabs_case; intros; lra.
  - pose proof (nth_error_In _ _ Er) as Hin. pose proof (OK' _ Hin) as O. pose proof (ST' _ Hin) as T.
    pose proof O as (O1 & O2 & _). pose proof (stops_start O T) as T1. pose proof T as [_ T2].
    pose proof (MX' _ Hin) as Mr. pose proof (ONE' _ Hin) as Ir. pose proof (run_xs_ends _ Mr) as Er1.
    assert (HjN : (j < length (sl_runs s))%nat) by (apply nth_error_Some; congruence).
    destruct RF as [RF1 RF2]; [intros; eapply right_of_mono; eauto|]. fold R in RF1, RF2.
    specialize (RF2 (R + j)%nat ltac:(lia)). rewrite (right_of_nth _ _ Er) in RF2. apply qltb_ge in RF2.
    destruct (GF Mr) as [GF1 GF2]. set (XX := (x - x0)%Q) in *.
    (* carets of the other runs *)
    assert (Left : forall i p Y, (i < j)%nat -> caret i p Y -> (Y <= run_first_x r)%Q).
    { intros i p Y Hi CY. apply caret_inv in CY as (t & h & Et & Ht & CAt). pose proof (nth_error_In _ _ Et) as Hint.
      pose proof (caret_bounds (OK' _ Hint) (MX' _ Hint) CAt). pose proof (@adjacent_order (sl_runs s) i j t r ADJ MX Et Er Hi). lra. }
    assert (Right : forall i p Y, (j < i)%nat -> caret i p Y -> (sr_end_x r <= Y)%Q).
    { intros i p Y Hi CY. apply caret_inv in CY as (t & h & Et & Ht & CAt). pose proof (nth_error_In _ _ Et) as Hint.
      pose proof (caret_bounds (OK' _ Hint) (MX' _ Hint) CAt). pose proof (@adjacent_order (sl_runs s) j i r t ADJ MX Er Et Hi). lra. }
    destruct (Nat.eqb_spec g 0) as [->|Hg0].
    + set (p := if sr_rtl r then sr_end r else sr_start r) in *.
      assert (Hp : sr_start r <= p <= sr_end r) by (unfold p; destruct (sr_rtl r); lia).
      destruct (caret_ex _ Er Hp) as (X & g & CX & CA). eexists _, _, X. split; [exact V0|]. split; [exact E|].
      rewrite make_cursor_position by lia. split; [unfold p; destruct (sr_rtl r); auto|]. split; [exact CX|].
      split. { exists r, p. split; [exact Er|]. split; [lia|]. right. left. rewrite <- FA. split; reflexivity. }
      pose proof (caret_left O CA eq_refl Ir) as EX.
      assert (XF : (XX <= run_first_x r)%Q).
      { destruct (Nat.eq_dec (run_len r) 0) as [Hz|Hz].
        - assert (run_xs r = [sr_end_x r]) by (unfold run_xs; destruct (sr_glyphs r) eqn:Eg; [reflexivity|unfold run_len in Hz; rewrite Eg in Hz; discriminate]).
          unfold run_first_x. rewrite H. cbn [hd]. exact RF2.
        - specialize (GF2 0%nat ltac:(lia)). unfold run_first_x. destruct (run_xs r); exact GF2. }
      assert (J0 : j = 0%nat).
      { destruct j as [|j]; [reflexivity|]. exfalso.
        destruct (nth_error (sl_runs s) j) as [t|] eqn:Et; [|apply nth_error_None in Et; lia].
        specialize (RF1 (R + j)%nat ltac:(lia)). rewrite (right_of_nth _ _ Et) in RF1. apply qltb_lt in RF1.
        pose proof (@adjacent_end _ _ _ _ ADJ Et Er). lra. }
      subst j. intros i q Y Bq CY.
      assert (YG : (run_first_x r <= Y)%Q).
      { destruct (Nat.eq_dec i 0) as [->|Hne]; [|specialize (Right i q Y ltac:(lia) CY); lra].
        apply caret_inv in CY as (t & h & Et & Ht & CAt). rewrite Er in Et. inversion Et; subst t.
        pose proof (caret_bounds O Mr CAt). lra. }
      apply Qabs_case; apply Qabs_case; intros; lra.
    + cbv zeta in E. set (m := logical_before r g) in *.
      assert (Hm : (m < run_len r)%nat) by (unfold m, logical_before; destruct (sr_rtl r); lia).
      set (c := nth m (logical_chars r) (sr_end r)) in *. set (e := char_after r m) in *.
      set (a := nth m (logical_xs r) 0%Q) in *. set (b := nth (S m) (logical_xs r) 0%Q) in *.
      assert (Hce : c < e) by (apply chars_strict; auto; lia).
      assert (Hcr : sr_start r <= c <= sr_end r) by apply run_ok_range, O.
      assert (Her : sr_start r <= e <= sr_end r) by apply run_ok_range, O.
      destruct (Z.eqb_spec c e) as [|_]; [lia|].
      (* where the click lies *)
      assert (LO : (nth (g - 1) (run_xs r) 0 < XX)%Q) by (apply GF1; lia).
      assert (HI : (XX <= nth g (run_xs r) 0)%Q).
      { destruct (Nat.eq_dec g (run_len r)) as [Hgl|Hgl]; [|apply GF2; lia].
        rewrite Hgl. unfold run_xs. rewrite app_nth2 by (rewrite map_length; unfold run_len; lia). rewrite map_length.
        unfold run_len. rewrite Nat.sub_diag. exact RF2. }
      assert (AB : (if sr_rtl r then b < XX /\ XX <= a else a < XX /\ XX <= b)%Q).
      { unfold a, b, m, logical_before. destruct (sr_rtl r) eqn:Hd.
        - rewrite (@rev_xs_nth [] r g Hd) in HI by lia. rewrite (@rev_xs_nth [] r (g - 1) Hd) in LO by lia.
          replace (run_len r - (g - 1))%nat with (S (run_len r - g)) in LO by lia. auto.
        - assert (LX : logical_xs r = run_xs r) by (unfold logical_xs; rewrite Hd; reflexivity). rewrite LX.
          replace (S (g - 1)) with g by lia. auto. }
      destruct (@walk_nearest B following W (vrun_of G r) c e a b fa la XX ltac:(lia) ltac:(lia) (@stops_chars B r (S m) T)
        (S (Z.to_nat (e - c))) c a) as (sel & o & Ew & Bs & Hs & Ho & Near);
        [apply stops_chars; exact T|lia|lia|symmetry; apply lerp_start|exact AB|].
      rewrite Ew in E. assert (Hsr : sr_start r <= sel <= sr_end r) by lia.
      destruct (caret_ex _ Er Hsr) as (X & h & CX & CA). exists (make_cursor sel o), j, X.
      split; [exact V0|]. split; [exact E|]. rewrite make_cursor_position by lia. split; [exact Bs|]. split; [exact CX|].
      split. { exists r, sel. split; [exact Er|]. split; [lia|]. right. right. split; [lia|]. rewrite Ho, FA, LA. reflexivity. }
      assert (EX : (X == lerp a b c e sel)%Q) by (apply (caret_lerp O Ir Hm Hs CA)).
      pose proof (lerp_start a b c e) as La. pose proof (@lerp_end a b c e Hce) as Lb.
      pose proof (Near c (@stops_chars B r m T) ltac:(lia)) as NA. pose proof (Near e (@stops_chars B r (S m) T) ltac:(lia)) as NB.
      rewrite La in NA. rewrite Lb in NB. rewrite <- EX in NA, NB.
      assert (Sides : (if sr_rtl r then run_first_x r <= b /\ a <= sr_end_x r else run_first_x r <= a /\ b <= sr_end_x r)%Q).
      { pose proof (logical_first_last r) as FL. pose proof (@logical_xs_mono r 0 m Mr ltac:(lia)) as M1.
        pose proof (@logical_xs_mono r (S m) (run_len r) Mr ltac:(lia)) as M2. fold a in M1. fold b in M2.
        unfold reads in M1, M2. destruct (sr_rtl r); destruct FL as [F1 F2]; rewrite F1 in M1; rewrite F2 in M2; auto. }
      intros i q Y Bq CY. destruct (lt_eq_lt_dec i j) as [[Hij|Heq]|Hij]; [|subst i|].
      * pose proof (Left i q Y Hij CY) as HY. destruct (sr_rtl r).
        -- eapply Qle_trans; [exact NB|]. apply Qabs_case; apply Qabs_case; intros; lra.
        -- eapply Qle_trans; [exact NA|]. apply Qabs_case; apply Qabs_case; intros; lra.
      * apply caret_inv in CY as (t & h' & Et & Ht & CAt). rewrite Er in Et. inversion Et; subst t.
        destruct (caret_ex _ Er Hcr) as (Xc & gc & _ & CAc). destruct (caret_ex _ Er Her) as (Xe & ge & _ & CAe).
        pose proof (@caret_lerp r m c gc Xc O Ir Hm ltac:(fold c e; lia) CAc) as Ec. fold a b c e in Ec. rewrite La in Ec.
        pose proof (@caret_lerp r m e ge Xe O Ir Hm ltac:(fold c e; lia) CAe) as Ee. fold a b c e in Ee. rewrite Lb in Ee.
        destruct (Z.ltb_spec q c) as [Hqc|Hqc]; [|destruct (Z.ltb_spec e q) as [Hqe|Hqe]].
        -- pose proof (@caret_mono r q c h' gc Y Xc O Mr CAt CAc ltac:(lia)) as M1. unfold reads in M1.
           eapply Qle_trans; [exact NA|]. destruct (sr_rtl r); apply Qabs_case; apply Qabs_case; intros; lra.
        -- pose proof (@caret_mono r e q ge h' Xe Y O Mr CAe CAt ltac:(lia)) as M1. unfold reads in M1.
           eapply Qle_trans; [exact NB|]. destruct (sr_rtl r); apply Qabs_case; apply Qabs_case; intros; lra.
        -- pose proof (caret_lerp O Ir Hm (conj Hqc Hqe) CAt) as EY. fold a b c e in EY. rewrite EY, EX. apply Near; [exact Bq|lia].
      * pose proof (Right i q Y Hij CY) as HY. destruct (sr_rtl r).
        -- eapply Qle_trans; [exact NA|]. apply Qabs_case; apply Qabs_case; intros; lra.
        -- eapply Qle_trans; [exact NB|]. apply Qabs_case; apply Qabs_case; intros; lra.
Qed.
Lemma hit_nearest : exists x0 c j X, get_line_x_start l k w al = Ok x0 /\
  find_closest_cursor_position following l w al k x = Ok c /\ B (cp_get_position c) /\ caret j (cp_get_position c) X /\
  forall i p Y, B p -> caret i p Y -> (Qabs (x - x0 - X) <= Qabs (x - x0 - Y))%Q.
Proof. destruct hit_nearest_found as (x0 & c & j & X & A & D & E & F & _ & N). exists x0, c, j, X. auto. Qed.
End Nearest.

Lemma hit_terminates following d y k s w al x : (forall p, 0 <= p < 2 ^ 31 -> following p = -1 \/ p < following p < 2 ^ 31) ->
  nth_error d k = Some s -> sl_runs s <> [] -> Forall run_ok (sl_runs s) ->
  exists c, find_closest_cursor_position following (layout_of d y) w al k x = Ok c.
Proof.
  intros F Es NE OK.
  destruct (@hit_structure d y k s following Es NE OK w al x) as (x0 & _ & [(r & Er & _ & ->)|(j & r & g & G & fa & la & Er & _ & Hg & _ & _ & ->)]);
    [eauto|].
  pose proof (nth_error_In _ _ Er) as H. rewrite Forall_forall in OK. pose proof (OK _ H) as O. pose proof O as (O1 & O2 & _).
  destruct (Nat.eqb_spec g 0) as [->|Hg0]; [eauto|]. cbv zeta. set (m := logical_before r g).
  assert (Hm : (m < run_len r)%nat) by (unfold m, logical_before; destruct (sr_rtl r); lia).
  pose proof (@run_ok_range r m O) as R1. pose proof (@run_ok_range r (S m) O) as R2. fold (char_after r m) in R2.
  assert (Hle : nth m (logical_chars r) (sr_end r) <= char_after r m) by (apply run_ok_sorted; [exact O|lia]).
  destruct (Z.eqb_spec (nth m (logical_chars r) (sr_end r)) (char_after r m)) as [Heq|Hne]; [eauto|].
  apply walk_terminates; [exact F|lia|lia|lia|lia].
Qed.

Lemma make_cursor_affinity p o : 0 <= p < 2 ^ 31 -> cp_get_affinity (make_cursor p o) = if o then AOpposite else ADefault.
Proof.
  intros H. unfold make_cursor. rewrite wrap_small by lia. unfold cp_get_affinity. rewrite Z.shiftr_lor.
  rewrite (Z.shiftr_div_pow2 p) by lia. rewrite Z.div_small by lia. destruct o; reflexivity.
Qed.
Lemma cp_opposite_affinity p : 0 <= p < 2 ^ 31 -> cp_get_affinity (cp_set_affinity (cp_make p) AOpposite) = AOpposite.
Proof.
  intros H. unfold cp_make. rewrite wrap_small by lia. rewrite set_affinity_eq by lia. unfold lo. rewrite (Z.mod_small p) by lia.
  rewrite get_affinity_eq by lia. unfold hi. destruct (Z.eqb_spec ((1 * 2 ^ 31 + p) / 2 ^ 31) 0); [lia|reflexivity].
Qed.

(** In left-to-right text the cursor found on a line is shown on that line. *)
Lemma hit_on_line B following d y k s w al x : walks B following -> doc_ok d -> joined d -> Forall run_ok (doc_runs d) ->
  Forall (fun r => sr_rtl r = false) (doc_runs d) ->
  (forall i r q, nth_error (doc_runs d) i = Some r -> nth_error (doc_runs d) (S i) = Some q -> sr_start q = sr_end q -> sr_offset r <> 0) ->
  nth_error d k = Some s -> Forall (begins_at_stops B) (sl_runs s) ->
  exists c run, find_closest_cursor_position following (layout_of d y) w al k x = Ok c /\
    get_run_containing_cursor (layout_of d y) c = Ok (run, k).
Proof.
  intros W DOK J OKs LTRs SEP Es ST. rewrite Forall_forall in OKs, LTRs.
  assert (Sub : forall t, In t (sl_runs s) -> In t (doc_runs d)).
  { intros t Ht. unfold doc_runs. apply in_flat_map. exists s. split; [exact (nth_error_In _ _ Es)|exact Ht]. }
  assert (NE : sl_runs s <> []) by (unfold doc_ok in DOK; rewrite Forall_forall in DOK; apply DOK, (nth_error_In _ _ Es)).
  assert (OK : Forall run_ok (sl_runs s)) by (apply Forall_forall; auto).
  assert (LE : forall t, In t (doc_runs d) -> sr_start t <= sr_end t + sr_offset t).
  { intros t Ht. destruct (OKs _ Ht) as (? & ? & ? & _). lia. }
  rewrite Forall_forall in ST.
  destruct (@hit_structure d y k s following Es NE OK w al x) as (x0 & _ & [(r & Er & _ & E)|(j & r & g & G & fa & la & Er & _ & Hg & _ & AFF & E)]).
  - pose proof (nth_error_In _ _ Er) as H. pose proof (OKs _ (Sub _ H)) as (O1 & O2 & O3 & _). rewrite (LTRs _ (Sub _ H)) in E.
    assert (HN : (0 < length (sl_runs s))%nat) by (destruct (sl_runs s); [congruence|cbn [length]; lia]).
    eexists. rewrite E. assert (P : 0 <= sr_end r < 2 ^ 31) by lia.
    pose proof (cp_opposite_position P) as EP. pose proof (cp_opposite_affinity P) as EA.
    edestruct (@cursor_on_line d y (cp_set_affinity (cp_make (sr_end r)) AOpposite) k s (length (sl_runs s) - 1) r) as [run Hrun];
      try eassumption; rewrite ?EP, ?EA.
    + lia.
    + intros Hp Hj i' q Hi' Eq Ho. exfalso. eapply (SEP i' q r); [exact Eq| |lia|exact Ho].
      rewrite <- Hi'. rewrite (line_runs d k Es) by lia. exact Er.
    + intros Hp _ q _. split; [lia|reflexivity].
    + exists run. split; [reflexivity|exact Hrun].
  - pose proof (nth_error_In _ _ Er) as H. pose proof (OKs _ (Sub _ H)) as O. pose proof O as (O1 & O2 & O3 & _).
    pose proof (ST _ H) as T. assert (Hd : sr_rtl r = false) by auto.
    destruct AFF as [FA LA]. destruct (@edges_ltr (sl_runs s) j r) as [FA' LA']; [auto|]. rewrite FA' in FA. rewrite LA' in LA.
    assert (Fin : forall sel o, sr_start r <= sel <= sr_end r ->
      (sel = sr_start r -> o = true -> sr_start r = sr_end r) ->
      (sel = sr_end r -> sr_offset r = 0 -> S j = length (sl_runs s) -> sr_start r < sr_end r -> o = true) ->
      (sr_start r = sr_end r -> o = false) ->
      exists run, get_run_containing_cursor (layout_of d y) (make_cursor sel o) = Ok (run, k)).
    { intros sel o Hsel F1 F2 F3. assert (P : 0 <= sel < 2 ^ 31) by lia.
      apply (@cursor_on_line d y (make_cursor sel o) k s j r); auto;
        rewrite (make_cursor_position o P), ?(make_cursor_affinity o P); [lia| |].
      - intros Hp Hj i' q Hi' Eq Ho. destruct o; [|reflexivity]. exfalso.
        specialize (F1 Hp eq_refl). specialize (F3 F1). discriminate.
      - intros Hp Hj q Eq. split; [lia|].
        assert (Hij : (j < length (sl_runs s))%nat) by lia.
        destruct (J (run_first d k + j)%nat r q) as (_ & Hlt & _); [rewrite (line_runs d k Es Hij); exact Er|exact Eq|].
        rewrite F2; [reflexivity|lia|lia|exact Hj|lia]. }
    rewrite E. destruct (Nat.eqb_spec g 0) as [Hg0|Hg0].
    + rewrite Hd, FA. destruct (Fin (sr_start r) false) as [run Hrun]; [lia|discriminate|lia|reflexivity|]. eauto.
    + cbv zeta. set (m := logical_before r g).
      assert (Hm : (m < run_len r)%nat) by (unfold m, logical_before; rewrite Hd; lia).
      pose proof (@run_ok_chars r m O Hm) as R1. pose proof (@run_ok_range r (S m) O) as R2. fold (char_after r m) in R2.
      assert (Hle : nth m (logical_chars r) (sr_end r) <= char_after r m) by (apply run_ok_sorted; [exact O|lia]).
      destruct (Z.eqb_spec (nth m (logical_chars r) (sr_end r)) (char_after r m)) as [Heq|Hne].
      * rewrite FA. destruct (Fin (nth m (logical_chars r) (sr_end r)) false) as [run Hrun]; [lia|discriminate|lia|reflexivity|]. eauto.
      * destruct (@walk_affinity B following W (vrun_of G r) (nth m (logical_chars r) (sr_end r)) (char_after r m)
          (nth m (logical_xs r) 0%Q) (nth (S m) (logical_xs r) 0%Q) fa la (x - x0)%Q ltac:(lia) ltac:(lia) (@stops_chars B r (S m) T)
          (S (Z.to_nat (char_after r m - nth m (logical_chars r) (sr_end r)))) (nth m (logical_chars r) (sr_end r)) (nth m (logical_xs r) 0%Q))
          as (sel & o & -> & Hs & Ho); [exact Hd|exact FA|apply stops_chars; exact T|lia|lia|].
        cbn [vrun_of ru_end] in Ho. destruct (Fin sel o) as [run Hrun]; [lia| | | |eauto].
        -- intros -> ->. destruct Ho as [Ho|[_ Ho]]; [|discriminate]. destruct (Z.eqb_spec (sr_start r) (sr_end r)); [auto|discriminate].
        -- intros Hse Hof Hj Hlt. destruct Ho as [Ho|[Ho _]]; [|lia]. rewrite Ho, LA.
           rewrite (proj2 (Z.eqb_eq sel (sr_end r)) Hse), (proj2 (Z.eqb_eq (sr_offset r) 0) Hof), (proj2 (Nat.eqb_eq _ _) Hj). reflexivity.
        -- lia.
Qed.
