(** Hit testing in single precision. *)
From Coq Require Import ZArith QArith Qabs Qreals Reals Lia Lra.
From Verif Require Import Base BaseFacts FloatModel BinarySearchModel BinarySearchProofs PackingModel PackingProofs
  LayoutModel LayoutSpec LayoutProofs LayoutGeomProofs LayoutCaretProofs LayoutCursorProofs LayoutHitProofs FloatLayoutModel FloatLayoutSpec
  FloatRealProofs FloatLayoutProofs FloatHitModel.
From Flocq Require Import Core.Core IEEE754.BinarySingleNaN Relative Plus_error.
Open Scope Z_scope.
Set Implicit Arguments.

(** * The walk, for any floats *)

Section Walk.
Variables (B : Z -> Prop) (following : Z -> Z).
Hypothesis W : walks B following.
Variables (r : vrun) (c n : Z) (a b : f32) (fa la : bool) (x : f32).
Hypothesis Hc : 0 <= c < n.
Hypothesis Hn : n < 2 ^ 31.
Hypothesis Bn : B n.

Lemma walk_legal_f fuel : forall cur pos, B c -> B cur -> c <= cur < n -> (Z.to_nat (n - cur) <= fuel)%nat ->
  exists sel o, cluster_walk_f following fuel r c n a b fa la x cur pos = Ok (make_cursor sel o) /\ B sel /\ c <= sel <= n.
Proof.
  induction fuel as [|fuel IH]; intros cur pos Bc Bcur Hr Hf; [lia|].
  destruct (walk_next W Hc Hn Bn Bcur Hr) as (Hnx & Bnx & _ & Ew). cbn [cluster_walk_f]. rewrite Ew.
  set (nx := following cur) in *.
  match goal with |- context [if ?t then _ else _] => destruct t end.
  { eexists _, _. split; [reflexivity|]. match goal with |- context [if ?t then _ else _] => destruct t end; split; auto; lia. }
  match goal with |- context [if ?t then _ else _] => destruct t end.
  { eexists _, _. split; [reflexivity|]. match goal with |- context [if ?t then _ else _] => destruct t end; split; auto; lia. }
  destruct (Z.leb_spec n nx).
  { exists c, false. split; [|split; [exact Bc|lia]]. unfold make_cursor, cp_make. rewrite Z.lor_0_r. reflexivity. }
  apply IH; auto; lia.
Qed.
End Walk.

Lemma walk_ends_f following r c n a b fa la x : (forall p, 0 <= p < 2 ^ 31 -> following p = -1 \/ p < following p < 2 ^ 31) ->
  0 <= c < n -> n < 2 ^ 31 -> forall fuel cur pos, c <= cur < n -> (Z.to_nat (n - cur) <= fuel)%nat ->
  exists res, cluster_walk_f following fuel r c n a b fa la x cur pos = Ok res.
Proof.
  intros F Hc Hn. induction fuel as [|fuel IH]; intros cur pos Hr Hf; [lia|]. cbn [cluster_walk_f].
  match goal with |- context [if ?t then _ else _] => destruct t eqn:T1 end; [eauto|].
  match goal with |- context [if ?t then _ else _] => destruct t eqn:T2 end; [eauto|].
  destruct (F cur) as [E|E]; [lia| |].
  - rewrite E. destruct (Z.leb_spec n (wrap32 (-1))) as [H|H]; [eauto|].
    exfalso. assert (Hw : wrap32 (-1) = 2 ^ 32 - 1) by (vm_compute; reflexivity). lia.
  - rewrite wrap_small by lia. destruct (Z.leb_spec n (following cur)); [eauto|]. apply IH; lia.
Qed.

(** * The whole function, for any floats *)

Section Line.
Variables (d : sdoc) (y : Q) (k : nat) (s : sline) (following : Z -> Z) (ps ws : list f32).
Hypothesis Es : nth_error d k = Some s.
Hypothesis NE : sl_runs s <> [].
Hypothesis OK : Forall run_ok (sl_runs s).
Let l := layout_of d y.
Let R := run_first d k.
Let N := length (sl_runs s).
Hypothesis LEN : length ps = length (lo_pos l).
Lemma splitR j r : nth_error (sl_runs s) j = Some r -> exists pre post, doc_runs d = pre ++ r :: post /\ length pre = (R + j)%nat.
Proof. exact (@line_run_split d k s Es j r). Qed.

Lemma pf_get pre r post (Ed : doc_runs d = pre ++ r :: post) i : (i <= run_len r)%nat ->
  vget ps (2 * (count_glyphs pre + length pre) + 2 * i) = Ok (run_f pre ps i).
Proof.
  intros H. pose proof (@pos_get d y pre r post Ed i H) as P. fold l in P. apply vget_ok in P.
  assert (L : (2 * (count_glyphs pre + length pre) + 2 * i < length ps)%nat) by (rewrite LEN; apply nth_error_Some; congruence).
  apply vget_ok. unfold run_f. apply nth_error_nth'. exact L.
Qed.
(** Positions of run [i] of the whole text. *)
Definition pf (i : nat) : nat -> f32 := run_f (firstn i (doc_runs d)) ps.
Lemma pf_at pre r post i : doc_runs d = pre ++ r :: post -> length pre = i -> pf i = run_f pre ps.
Proof. intros E <-. unfold pf. rewrite E, firstn_app, Nat.sub_diag, firstn_all. cbn [firstn]. rewrite app_nil_r. reflexivity. Qed.

Definition rightf (X : f32) (i : nat) : bool := f32_lt (pf i (run_len (nth (i - R) (sl_runs s) (empty_run 0 0)))) X.
Lemma boundf_get X i : (R <= i < R + N)%nat ->
  (do r <- vget (lo_runs l) i; do p <- vget ps (2 * (ru_glyph_end r + i)); Ok (f32_lt p X)) = Ok (rightf X i).
Proof.
  intros H. destruct (nth_error (sl_runs s) (i - R)) as [r|] eqn:E; [|apply nth_error_None in E; unfold N in H; lia].
  destruct (splitR _ E) as (pre & post & Ed & L). replace (R + (i - R))%nat with i in L by lia.
  destruct (@doc_run_view d y pre r post Ed) as (V & _). cbv zeta in V. rewrite L in V. fold l in V. rewrite V.
  cbn [obind vrun_of ru_glyph_end].
  replace (2 * (count_glyphs pre + run_len r + i))%nat with (2 * (count_glyphs pre + length pre) + 2 * run_len r)%nat by lia.
  rewrite (@pf_get pre r post Ed (run_len r)) by lia. cbn [obind]. unfold rightf. rewrite (@pf_at pre r post _ Ed L).
  rewrite (nth_error_nth _ _ _ E). reflexivity.
Qed.

Definition run_factsf (X : f32) (run : nat) : Prop :=
  (forall i j, (i <= j < N)%nat -> rightf X (R + j) = true -> rightf X (R + i) = true) ->
  (forall i, (R <= i < run)%nat -> rightf X i = true) /\ (forall i, (run <= i < R + N)%nat -> rightf X i = false).
Definition glyph_factsf (X : f32) (F : nat -> f32) (r : srun) (g : nat) : Prop :=
  (forall i j, (i <= j < run_len r)%nat -> f32_lt (F j) X = true -> f32_lt (F i) X = true) ->
  (forall i, (i < g)%nat -> f32_lt (F i) X = true) /\ (forall i, (g <= i < run_len r)%nat -> f32_lt (F i) X = false).

Lemma hit_structuref w al x lw : vget ws k = Ok lw ->
  let X := f32_sub x (line_start w lw al) in
  (exists r, nth_error (sl_runs s) (N - 1) = Some r /\ run_factsf X (R + N) /\
     find_closest_f following l ps ws w al k x =
     Ok (cp_set_affinity (cp_make (if sr_rtl r then sr_start r else sr_end r)) AOpposite)) \/
  (exists j r g G fa la, nth_error (sl_runs s) j = Some r /\ run_factsf X (R + j) /\ (g <= run_len r)%nat /\ glyph_factsf X (pf (R + j)) r g /\
     ((forall t, In t (sl_runs s) -> sr_rtl t = false) -> fa = false /\ la = ((S j =? N)%nat && (sr_offset r =? 0))) /\
     find_closest_f following l ps ws w al k x =
     if (g =? 0)%nat then Ok (make_cursor (if sr_rtl r then sr_end r else sr_start r) fa)
     else
       let m := logical_before r g in
       let c := nth m (logical_chars r) (sr_end r) in let e := char_after r m in
       if c =? e then Ok (make_cursor c fa)
       else cluster_walk_f following (S (Z.to_nat (e - c))) (vrun_of G r) c e
              (lf r (pf (R + j)) m) (lf r (pf (R + j)) (S m)) fa la X c (lf r (pf (R + j)) m)).
Proof.
  intros V0. unfold find_closest_f.
  destruct (split_nth _ _ Es) as [Ed L].
  destruct (@doc_line_view d y (firstn k d) s (skipn (S k) d) Ed) as (V1 & V2 & _). cbv zeta in V1, V2. rewrite L in V1, V2.
  fold (run_first d k) in V1, V2. fold l R N in V1, V2.
  cbv zeta. set (X := f32_sub x (line_start w lw al)) in *.
  destruct (lo_lines l) eqn:EL.
  { pose proof (length_lo_lines d y) as H. fold l in H. rewrite EL in H. cbn [length] in H.
    assert (k < length d)%nat by (apply nth_error_Some; congruence). lia. }
  clear EL. rewrite V0, V1, V2. cbn [obind]. fold X. replace (R + N - R)%nat with N by lia.
  assert (HN : (0 < N)%nat) by (unfold N; destruct (sl_runs s); [congruence|cbn [length]; lia]).
  match goal with |- context [binary_search R N ?cd] => set (cond := cd) end.
  destruct (@binary_search_in_range cond R N) as (run & Erun & Hrun).
  { intros i Hi. exists (rightf X i). apply boundf_get. exact Hi. }
  assert (RF : run_factsf X run).
  { intros Hm. destruct (@binary_search_partition R N (rightf X)) with (cond := cond) as (run' & Erun' & _ & F).
    - intros i j H1 H2 H3 H4. specialize (Hm (i - R)%nat (j - R)%nat ltac:(lia)).
      replace (R + (j - R))%nat with j in Hm by lia. replace (R + (i - R))%nat with i in Hm by lia. auto.
    - intros i Hi. apply boundf_get. exact Hi.
    - rewrite Erun in Erun'. inversion Erun'; subst run'. exact F. }
  rewrite Erun. cbn [obind]. destruct (Nat.eqb_spec run (R + N)) as [Hlast|Hlast].
  - left. subst run. destruct (nth_error (sl_runs s) (N - 1)) as [r|] eqn:Er; [|apply nth_error_None in Er; unfold N in *; lia].
    exists r. split; [reflexivity|]. split; [exact RF|].
    destruct (splitR _ Er) as (pre & post & Edr & Lp). replace (R + (N - 1))%nat with (R + N - 1)%nat in Lp by lia.
    destruct (@doc_run_view d y pre r post Edr) as (V & _). cbv zeta in V. rewrite Lp in V. fold l in V. rewrite V. reflexivity.
  - right. destruct (nth_error (sl_runs s) (run - R)) as [r|] eqn:Er; [|apply nth_error_None in Er; unfold N in *; lia].
    pose proof (@line_run_ok s OK _ _ Er) as Ok_r.
    destruct (splitR _ Er) as (pre & post & Edr & Lp). replace (R + (run - R))%nat with run in Lp by lia.
    destruct (@doc_run_view d y pre r post Edr) as (Vr & Vg & Vp & _). cbv zeta in Vr, Vg, Vp. rewrite Lp in Vr, Vg, Vp.
    fold l in Vr, Vg, Vp. rewrite Vr, Vg, Vp. cbn [obind vrun_of ru_glyph_end ru_rtl ru_end ru_start ru_offset].
    set (G := count_glyphs pre) in *. replace (G + run_len r - G)%nat with (run_len r) by lia.
    assert (PG : forall i, (i <= run_len r)%nat -> vget ps (2 * (G + run) + 2 * i) = Ok (run_f pre ps i)).
    { intros i Hi. pose proof (@pf_get pre r post Edr i Hi) as H. rewrite Lp in H. exact H. }
    assert (CG : forall i, (i < run_len r)%nat -> vget (lo_chars l) (G + i) = Ok (nth i (run_chars r) (sr_end r))).
    { intros i Hi. exact (@char_get d y pre r post Edr i Hi). }
    match goal with |- context [binary_search 0 (run_len r) ?cd] => set (cond2 := cd) end.
    destruct (@binary_search_in_range cond2 0 (run_len r)) as (g & Eg & Hg).
    { intros i Hi. unfold cond2. rewrite PG by lia. cbn [obind]. eauto. }
    assert (GF : glyph_factsf X (run_f pre ps) r g).
    { intros Hm. destruct (@binary_search_partition 0 (run_len r) (fun i => f32_lt (run_f pre ps i) X)) with (cond := cond2)
        as (g' & Eg' & _ & F1 & F2).
      - intros i j H1 H2 H3 H4. apply (Hm i j); [lia|exact H4].
      - intros i Hi. unfold cond2. rewrite PG by lia. reflexivity.
      - rewrite Eg in Eg'. inversion Eg'; subst g'. split; intros i Hi; [apply F1|apply F2]; lia. }
    rewrite Eg. cbn [obind].
    set (firstAff := (if negb (run =? R)%nat && negb (sr_rtl r) then do p <- vget (lo_runs l) (run - 1); Ok (ru_rtl p) else Ok false)).
    assert (FA : exists fa, firstAff = Ok fa /\ ((forall t, In t (sl_runs s) -> sr_rtl t = false) -> fa = false)).
    { unfold firstAff. destruct (Nat.eqb_spec run R); cbn [negb andb]; [eauto|]. destruct (sr_rtl r); cbn [negb]; [eauto|].
      destruct (nth_error (sl_runs s) (run - R - 1)) as [q|] eqn:Eq; [|apply nth_error_None in Eq; unfold N in *; lia].
      destruct (splitR _ Eq) as (pre' & post' & Edq & Lq).
      destruct (@doc_run_view d y pre' q post' Edq) as (Vq & _). cbv zeta in Vq. rewrite Lq in Vq. fold l in Vq.
      replace (R + (run - R - 1))%nat with (run - 1)%nat in Vq by lia. rewrite Vq. cbn [obind vrun_of ru_rtl].
      eexists. split; [reflexivity|]. intros LTR. apply LTR, (nth_error_In _ _ Eq). }
    destruct FA as (fa & FA & FA'). rewrite FA. clear firstAff FA.
    set (lastAff := (if (run =? R + N - 1)%nat && (sr_offset r =? 0) then Ok true
                     else if negb (run =? R + N - 1)%nat && negb (sr_rtl r)
                          then do q <- vget (lo_runs l) (run + 1); Ok (ru_rtl q) else Ok false)).
    assert (LA : exists la, lastAff = Ok la /\ ((forall t, In t (sl_runs s) -> sr_rtl t = false) ->
      la = ((S (run - R) =? N)%nat && (sr_offset r =? 0)))).
    { unfold lastAff. destruct (Nat.eqb_spec run (R + N - 1)) as [Hl|Hl]; cbn [negb andb].
      - replace (S (run - R) =? N)%nat with true by (symmetry; apply Nat.eqb_eq; lia).
        destruct (sr_offset r =? 0); cbn [andb]; eauto.
      - replace (S (run - R) =? N)%nat with false by (symmetry; apply Nat.eqb_neq; lia). cbn [andb].
        destruct (sr_rtl r); cbn [negb]; [eauto|].
        destruct (nth_error (sl_runs s) (run - R + 1)) as [q|] eqn:Eq; [|apply nth_error_None in Eq; unfold N in *; lia].
        destruct (splitR _ Eq) as (pre' & post' & Edq & Lq).
        destruct (@doc_run_view d y pre' q post' Edq) as (Vq & _). cbv zeta in Vq. rewrite Lq in Vq. fold l in Vq.
        replace (R + (run - R + 1))%nat with (run + 1)%nat in Vq by lia. rewrite Vq. cbn [obind vrun_of ru_rtl].
        eexists. split; [reflexivity|]. intros LTR. apply LTR, (nth_error_In _ _ Eq). }
    destruct LA as (la & LA & LA'). rewrite LA. clear lastAff LA.
    exists (run - R)%nat, r, g, G, fa, la. split; [exact Er|]. split; [replace (R + (run - R))%nat with run by lia; exact RF|].
    replace (R + (run - R))%nat with run by lia. rewrite (@pf_at pre r post _ Edr Lp).
    split; [lia|]. split; [exact GF|]. split; [intros LTR; split; auto|].
    replace (G + g =? G)%nat with (g =? 0)%nat by (destruct (Nat.eqb_spec g 0), (Nat.eqb_spec (G + g) G); lia).
    destruct (Nat.eqb_spec g 0) as [->|Hg0]; unfold char_after, logical_before, lf; destruct (sr_rtl r) eqn:Hd.
    + pose proof (PG 0%nat ltac:(lia)) as H. replace (2 * (G + run) + 2 * 0)%nat with (2 * (G + run))%nat in H by lia.
      rewrite H. cbn [obind]. rewrite Z.eqb_refl. reflexivity.
    + pose proof (PG 0%nat ltac:(lia)) as H. replace (2 * (G + run) + 2 * 0)%nat with (2 * (G + run))%nat in H by lia.
      pose proof (PG 0%nat ltac:(lia)) as H'. replace (G + 0 - G)%nat with 0%nat by lia. rewrite H, H'. cbn [obind].
      pose proof (run_ok_first Ok_r) as F. unfold logical_chars in F. rewrite Hd in F.
      assert (E0 : (if (G + 0 =? G + run_len r)%nat then Ok (sr_end r) else vget (lo_chars l) (G + 0)) = Ok (sr_start r)).
      { destruct (Nat.eqb_spec (G + 0) (G + run_len r)) as [Hz|Hz].
        - assert (Z0 : run_chars r = []) by (apply length_zero_iff_nil; rewrite length_run_chars; lia).
          rewrite Z0 in F. cbn [nth] in F. congruence.
        - rewrite CG by lia. congruence. }
      rewrite E0. cbn [obind]. rewrite Z.eqb_refl. reflexivity.
    + replace (G + g - 1)%nat with (G + (g - 1))%nat by lia. rewrite CG by lia. cbn [obind].
      assert (E1 : (if (G + (g - 1) =? G)%nat then Ok (sr_end r) else vget (lo_chars l) (G + g - 2))
                   = Ok (nth (S (run_len r - g)) (logical_chars r) (sr_end r))).
      { destruct (Nat.eqb_spec (G + (g - 1)) G) as [Hz|Hz].
        - rewrite nth_overflow by (rewrite length_logical_chars; lia). reflexivity.
        - replace (G + g - 2)%nat with (G + (g - 2))%nat by lia. rewrite CG by lia. f_equal.
          rewrite (@rev_chars_nth pre r (g - 2) Hd) by lia. f_equal. lia. }
      rewrite E1. cbn [obind]. replace (G + g - G)%nat with g by lia. rewrite PG by lia. cbn [obind].
      replace (G + (g - 1) - G)%nat with (g - 1)%nat by lia. rewrite PG by lia. cbn [obind].
      rewrite (@rev_chars_nth pre r (g - 1) Hd) by lia.
      replace (run_len r - 1 - (g - 1))%nat with (run_len r - g)%nat by lia.
      replace (run_len r - (run_len r - g))%nat with g by lia. replace (run_len r - S (run_len r - g))%nat with (g - 1)%nat by lia. reflexivity.
    + replace (G + g - 1)%nat with (G + (g - 1))%nat by lia. rewrite CG by lia. cbn [obind].
      assert (LC : logical_chars r = run_chars r) by (unfold logical_chars; rewrite Hd; reflexivity).
      rewrite LC.
      assert (E1 : (if (G + g =? G + run_len r)%nat then Ok (sr_end r) else vget (lo_chars l) (G + g))
                   = Ok (nth (S (g - 1)) (run_chars r) (sr_end r))).
      { replace (S (g - 1)) with g by lia. destruct (Nat.eqb_spec (G + g) (G + run_len r)) as [Hz|Hz].
        - rewrite nth_overflow by (rewrite length_run_chars; lia). reflexivity.
        - rewrite CG by lia. reflexivity. }
      rewrite E1. cbn [obind]. replace (G + (g - 1) - G)%nat with (g - 1)%nat by lia. rewrite PG by lia. cbn [obind].
      replace (G + g - G)%nat with g by lia. rewrite PG by lia. cbn [obind].
      replace (S (g - 1)) with g by lia. reflexivity.
Qed.
End Line.


Lemma hit_legal_f B following d y k s ps ws w al x lw : walks B following -> nth_error d k = Some s -> sl_runs s <> [] ->
  Forall run_ok (sl_runs s) -> Forall (begins_at_stops B) (sl_runs s) -> length ps = length (lo_pos (layout_of d y)) -> vget ws k = Ok lw ->
  exists c r, find_closest_f following (layout_of d y) ps ws w al k x = Ok c /\
    In r (sl_runs s) /\ B (cp_get_position c) /\ sr_start r <= cp_get_position c <= sr_end r.
Proof.
  intros W Es NE OK ST LEN LW.
  destruct (@hit_structuref d y k s following ps ws Es NE OK LEN w al x lw LW) as [(r & Er & _ & ->)|(j & r & g & G & fa & la & Er & _ & Hg & _ & _ & ->)].
  - assert (In r (sl_runs s)) by eauto using nth_error_In. rewrite Forall_forall in OK, ST. pose proof (OK _ H) as O. pose proof (ST _ H) as T.
    pose proof O as (O1 & O2 & _). pose proof (stops_start O T) as T1. destruct T as [_ T2].
    eexists _, r. split; [reflexivity|]. split; [exact H|].
    rewrite cp_opposite_position by (destruct (sr_rtl r); lia). destruct (sr_rtl r); split; auto; lia.
  - assert (In r (sl_runs s)) by eauto using nth_error_In. rewrite Forall_forall in OK, ST. pose proof (OK _ H) as O. pose proof (ST _ H) as T.
    pose proof O as (O1 & O2 & _). pose proof (stops_start O T) as T1. pose proof T as [_ T2].
    destruct (Nat.eqb_spec g 0) as [->|Hg0].
    + eexists _, r. split; [reflexivity|]. split; [exact H|].
      rewrite make_cursor_position by (destruct (sr_rtl r); lia). destruct (sr_rtl r); split; auto; lia.
    + cbv zeta. set (m := logical_before r g). assert (Hm : (m < run_len r)%nat) by (unfold m, logical_before; destruct (sr_rtl r); lia).
      pose proof (@run_ok_range r m O) as R1. pose proof (@run_ok_range r (S m) O) as R2. fold (char_after r m) in R2.
      assert (Hle : nth m (logical_chars r) (sr_end r) <= char_after r m) by (apply run_ok_sorted; [exact O|lia]).
      destruct (Z.eqb_spec (nth m (logical_chars r) (sr_end r)) (char_after r m)) as [Heq|Hne].
      * eexists _, r. split; [reflexivity|]. split; [exact H|]. rewrite make_cursor_position by lia. split; [apply stops_chars; exact T|lia].
      * match goal with |- context [cluster_walk_f _ ?fu ?v ?c ?n ?a ?b ?f ?l ?xx ?c ?p] =>
          destruct (@walk_legal_f B following W v c n a b f l xx ltac:(lia) ltac:(lia) (@stops_chars B r (S m) T) fu c p) as (sel & o & -> & Bs & Hs) end;
          [apply stops_chars; exact T|apply stops_chars; exact T|lia|lia|].
        eexists _, r. split; [reflexivity|]. split; [exact H|]. rewrite make_cursor_position by lia. split; [exact Bs|lia].
Qed.

Lemma hit_ends_f following d y k s ps ws w al x lw : (forall p, 0 <= p < 2 ^ 31 -> following p = -1 \/ p < following p < 2 ^ 31) ->
  nth_error d k = Some s -> sl_runs s <> [] -> Forall run_ok (sl_runs s) -> length ps = length (lo_pos (layout_of d y)) -> vget ws k = Ok lw ->
  exists c, find_closest_f following (layout_of d y) ps ws w al k x = Ok c.
Proof.
  intros F Es NE OK LEN LW.
  destruct (@hit_structuref d y k s following ps ws Es NE OK LEN w al x lw LW) as [(r & Er & _ & ->)|(j & r & g & G & fa & la & Er & _ & Hg & _ & _ & ->)];
    [eauto|].
  pose proof (nth_error_In _ _ Er) as H. rewrite Forall_forall in OK. pose proof (OK _ H) as O. pose proof O as (O1 & O2 & _).
  destruct (Nat.eqb_spec g 0) as [->|Hg0]; [eauto|]. cbv zeta. set (m := logical_before r g).
  assert (Hm : (m < run_len r)%nat) by (unfold m, logical_before; destruct (sr_rtl r); lia).
  pose proof (@run_ok_range r m O) as R1. pose proof (@run_ok_range r (S m) O) as R2. fold (char_after r m) in R2.
  assert (Hle : nth m (logical_chars r) (sr_end r) <= char_after r m) by (apply run_ok_sorted; [exact O|lia]).
  destruct (Z.eqb_spec (nth m (logical_chars r) (sr_end r)) (char_after r m)) as [Heq|Hne]; [eauto|].
  apply walk_ends_f; [exact F|lia|lia|lia|lia].
Qed.

(** * Distances *)

Definition slack : R := bpow radix2 (-22).
Lemma slack_pos : (0 < slack)%R. Proof. apply bpow_gt_0. Qed.
Definition nearly (u v : R) : Prop := (u <= (1 + slack) * v)%R.
Lemma nearly_le u v : (0 <= v)%R -> (u <= v)%R -> nearly u v.
Proof. intros P L. unfold nearly. pose proof slack_pos. nra. Qed.
Lemma nearly_trans u v t : nearly u v -> (v <= t)%R -> nearly u t.
Proof. intros N L. unfold nearly in *. pose proof slack_pos. nra. Qed.

Lemma rr_diff_rel a b : generic_format radix2 fexp32 a -> generic_format radix2 fexp32 b ->
  exists e, (Rabs e <= bpow radix2 (-24))%R /\ rr (a - b) = ((a - b) * (1 + e))%R.
Proof.
  intros A C. destruct (@FLT_plus_error_N_ex radix2 (-149) 24 _ (fun z => negb (Z.even z)) a (- b)) as (e & He & E); [exact A|apply generic_format_opp; exact C|].
  exists e. split.
  - eapply Rle_trans; [exact He|]. unfold u_ro. change (bpow radix2 (-24)) with (/ 16777216)%R. set (u := bpow radix2 (_ + 1)).
    assert (U : u = (/ 8388608)%R) by reflexivity. rewrite U. lra.
  - exact E.
Qed.
Lemma chosen_lt a b c d0 : (rr (a - b) < rr (c - d0))%R -> (a - b < c - d0)%R.
Proof. intros H. destruct (Rlt_le_dec (a - b) (c - d0)) as [L|L]; [exact L|]. apply rr_le in L. lra. Qed.
Lemma chosen_ge a b c d0 : generic_format radix2 fexp32 a -> generic_format radix2 fexp32 b -> generic_format radix2 fexp32 c -> generic_format radix2 fexp32 d0 ->
  (0 <= a - b)%R -> (0 <= c - d0)%R -> (rr (c - d0) <= rr (a - b))%R -> nearly (c - d0) (a - b).
Proof.
  intros A C D E P Q H. destruct (rr_diff_rel A C) as (e & He & E1). destruct (rr_diff_rel D E) as (f & Hf & E2). rewrite E1, E2 in H.
  change (bpow radix2 (-24)) with (/ 16777216)%R in *. unfold nearly, slack. change (bpow radix2 (-22)) with (/ 4194304)%R.
  apply Rabs_le_inv in He. apply Rabs_le_inv in Hf.
  assert (H1 : ((c - d0) * (1 - / 16777216) <= (a - b) * (1 + / 16777216))%R).
  { apply Rle_trans with ((c - d0) * (1 + f))%R; [apply Rmult_le_compat_l; lra|]. eapply Rle_trans; [exact H|]. apply Rmult_le_compat_l; lra. }
  lra.
Qed.
Lemma fin_unique x a b : fin x a -> fin x b -> a = b.
Proof. intros (_ & _ & <-) (_ & _ & <-). reflexivity. Qed.
Lemma share_0 n : share 0 n = 0%R.
Proof. unfold share. rewrite rr_0. unfold Rdiv. rewrite Rmult_0_l. apply rr_0. Qed.
Lemma mid_0 a b : rr a = a -> mid a b 0 = a.
Proof. intros H. unfold mid. rewrite Rmult_0_r, rr_0, Rplus_0_r. exact H. Qed.
Lemma flt_true x y a b : fin x a -> fin y b -> f32_lt x y = true -> (a < b)%R.
Proof. intros X Y. apply (fin_lt _ _ _ _ X Y). Qed.
Lemma flt_false x y a b : fin x a -> fin y b -> f32_lt x y = false -> (b <= a)%R.
Proof. intros X Y H. destruct (Rle_lt_dec b a) as [L|L]; [exact L|]. apply (fin_lt _ _ _ _ X Y) in L. congruence. Qed.
Lemma fle_false x y a b : fin x a -> fin y b -> f32_le x y = false -> (b < a)%R.
Proof. intros X Y H. destruct (Rle_lt_dec a b) as [L|L]; [|exact L]. apply (fin_le _ _ _ _ X Y) in L. congruence. Qed.

Section WalkR.
Variables (B : Z -> Prop) (following : Z -> Z).
Hypothesis W : walks B following.
Variables (r : vrun) (c n : Z) (a b : f32) (fa la : bool) (x : f32) (za zb : Z) (rx : R).
Hypothesis Hc : 0 <= c < n.
Hypothesis Hn : n < 2 ^ 31.
Hypothesis Bn : B n.
Hypothesis (HA : 0 <= za <= 2 ^ 24) (HB : 0 <= zb <= 2 ^ 24).
Let ra := (IZR za / 64)%R.
Let rb := (IZR zb / 64)%R.
Hypothesis (FA : fin a ra) (FB : fin b rb) (FX : fin x rx).
Definition sv (ra rb : R) (c n q : Z) : R := mid ra rb (share (q - c) (n - c)).

Lemma stop_fin q : c <= q <= n -> fin (stop_pos c n a b q) (sv ra rb c n q).
Proof.
  intros H. unfold stop_pos. rewrite !wrap_small by lia. set (p := q - c). set (t := n - c).
  pose proof (val_bound _ HA) as BA. pose proof (val_bound _ HB) as BB. fold ra in BA. fold rb in BB.
  pose proof (share_range p t ltac:(lia) ltac:(lia)) as S.
  assert (B19 : (bpow radix2 18 + bpow radix2 18 <= bpow radix2 100)%R).
  { apply Rle_trans with (bpow radix2 19); [change (bpow radix2 18) with 262144%R; change (bpow radix2 19) with 524288%R; lra|apply bpow_le; lia]. }
  pose proof (bpow_gt_0 radix2 18) as G. unfold sv, mid. fold p t.
  assert (D : (Rabs (rb - ra) <= bpow radix2 18)%R) by (apply Rabs_le; lra).
  assert (P0 : (Rabs ((rb - ra) * share p t) <= bpow radix2 18)%R).
  { rewrite Rabs_mult. rewrite (Rabs_pos_eq (share p t)) by lra. pose proof (Rabs_pos (rb - ra)). nra. }
  assert (P1 : (Rabs (rr ((rb - ra) * share p t)) <= bpow radix2 18)%R) by (apply rr_bound; [lia|exact P0]).
  apply fin_add; [exact FA| |].
  - rewrite Rmult_comm. apply fin_mul.
    + apply fin_share; lia.
    + assert (E : rr (rb - ra) = (rb - ra)%R) by (apply rr_diff; assumption). rewrite <- E. apply fin_sub; [exact FB|exact FA|]. lra.
    + rewrite Rmult_comm. lra.
  - eapply Rle_trans; [apply Rabs_triang|]. rewrite (Rabs_pos_eq ra) by lra. lra.
Qed.
Lemma sv_range q : c <= q <= n -> (0 <= sv ra rb c n q <= bpow radix2 18)%R.
Proof.
  intros H. pose proof (val_bound _ HA) as BA. pose proof (val_bound _ HB) as BB. fold ra in BA. fold rb in BB.
  pose proof (share_range (q - c) (n - c) ltac:(lia) ltac:(lia)) as S. unfold sv. destruct (Rle_dec ra rb) as [L|L].
  - pose proof (mid_up za zb HA HB _ S L). fold ra rb in H0. lra.
  - pose proof (mid_down za zb HA HB _ S ltac:(fold ra rb; lra)). fold ra rb in H0. lra.
Qed.
Lemma sv_end : sv ra rb c n n = rb.
Proof. unfold sv. rewrite share_same by lia. apply mid_one; [apply fmt64; lia|apply rr_diff; assumption]. Qed.
Lemma sv_start : sv ra rb c n c = ra.
Proof. unfold sv. rewrite Z.sub_diag, share_0. apply mid_0. apply fmt64. lia. Qed.

Lemma walk_nearest_f fuel : forall cur pos, B cur -> c <= cur < n -> (Z.to_nat (n - cur) <= fuel)%nat ->
  fin pos (sv ra rb c n cur) -> (if ru_rtl r then rb < rx <= sv ra rb c n cur else sv ra rb c n cur < rx <= rb)%R ->
  exists sel o, cluster_walk_f following fuel r c n a b fa la x cur pos = Ok (make_cursor sel o) /\ B sel /\ c <= sel <= n /\
    forall q, B q -> c <= q <= n -> nearly (Rabs (rx - sv ra rb c n sel)) (Rabs (rx - sv ra rb c n q)).
Proof.
  induction fuel as [|fuel IH]; intros cur pos Bcur Hr Hf Fpos Hx; [lia|].
  destruct (walk_next W Hc Hn Bn Bcur Hr) as (Hnx & Bnx & Gap & Ew). cbn [cluster_walk_f]. rewrite Ew.
  set (nx := following cur) in *. pose proof (@stop_fin nx ltac:(lia)) as Fn. set (npos := stop_pos c n a b nx) in *.
  pose proof (sv_range (q := cur) ltac:(lia)) as Rc. pose proof (sv_range (q := nx) ltac:(lia)) as Rn.
  assert (AB : if ru_rtl r then (rb < ra)%R else (ra < rb)%R).
  { pose proof (share_range (cur - c) (n - c) ltac:(lia) ltac:(lia)) as S. unfold sv in Hx.
    destruct (ru_rtl r).
    - destruct (Rlt_le_dec rb ra) as [L|L]; [exact L|]. pose proof (mid_up za zb HA HB _ S L) as M. fold ra rb in M. lra.
    - destruct (Rlt_le_dec ra rb) as [L|L]; [exact L|]. pose proof (mid_down za zb HA HB _ S L) as M. fold ra rb in M. lra. }
  assert (Mono : forall u v, u <= v -> (if ru_rtl r then sv ra rb c n v <= sv ra rb c n u else sv ra rb c n u <= sv ra rb c n v)%R).
  { intros u v Huv. pose proof (share_mono (u - c) (v - c) (n - c) ltac:(lia) ltac:(lia)) as Sm. unfold sv.
    destruct (ru_rtl r); [apply (mid_mono_down za zb)|apply (mid_mono_up za zb)]; try exact Sm; fold ra rb; lra. }
  assert (Big : (bpow radix2 18 <= bpow radix2 100)%R) by (apply bpow_le; lia).
  pose proof (fin_format _ _ FX) as Gx. pose proof (fin_format _ _ Fpos) as Gc. pose proof (fin_format _ _ Fn) as Gn.
  assert (Pick : forall sel, (nearly (Rabs (rx - sv ra rb c n sel)) (Rabs (rx - sv ra rb c n cur)) /\
      nearly (Rabs (rx - sv ra rb c n sel)) (Rabs (rx - sv ra rb c n nx))) ->
    (if ru_rtl r then sv ra rb c n nx <= rx <= sv ra rb c n cur else sv ra rb c n cur <= rx <= sv ra rb c n nx)%R ->
    forall q, B q -> c <= q <= n -> nearly (Rabs (rx - sv ra rb c n sel)) (Rabs (rx - sv ra rb c n q))).
  { intros sel [N1 N2] In q Bq Hq. assert (Hside : q <= cur \/ nx <= q)
      by (destruct (Z.leb_spec q cur); [auto|]; destruct (Z.leb_spec nx q); [auto|]; exfalso; apply (Gap q ltac:(lia) Bq)).
    destruct Hside as [Hs|Hs]; pose proof (Mono _ _ Hs) as M; [apply (nearly_trans N1)|apply (nearly_trans N2)];
      destruct (ru_rtl r); unfold Rabs; repeat destruct (Rcase_abs _); lra. }
  destruct (ru_rtl r) eqn:Hd; cbn [andb negb]; destruct Hx as [X1 X2].
  - destruct (f32_lt npos x) eqn:T1; cbn [andb].
    + assert (T2 : f32_le x pos = true) by (apply (fin_le _ _ _ _ FX Fpos); exact X2). rewrite T2.
      apply (flt_true Fn FX) in T1. eexists _, _. split; [reflexivity|].
      assert (S1 : fin (f32_sub x npos) (rr (rx - sv ra rb c n nx))) by (apply fin_sub; [exact FX|exact Fn|apply Rabs_le; lra]).
      assert (S2 : fin (f32_sub pos x) (rr (sv ra rb c n cur - rx))) by (apply fin_sub; [exact Fpos|exact FX|apply Rabs_le; lra]).
      destruct (f32_lt (f32_sub x npos) (f32_sub pos x)) eqn:T3; (split; [assumption|]; split; [lia|]); apply Pick; try lra.
      * apply (flt_true S1 S2), chosen_lt in T3. split; apply nearly_le; try apply Rabs_pos; unfold Rabs; repeat destruct (Rcase_abs _); lra.
      * apply (flt_false S1 S2) in T3. apply chosen_ge in T3; try assumption; try lra. split; [apply nearly_le; [apply Rabs_pos|lra]|].
        rewrite Rabs_minus_sym, Rabs_pos_eq by lra. rewrite Rabs_pos_eq by lra. exact T3.
    + apply (flt_false Fn FX) in T1. destruct (Z.leb_spec n nx).
      { exfalso. assert (En : nx = n) by lia. rewrite En, sv_end in T1. lra. }
      apply IH; auto; try lia.
  - destruct (f32_le x npos) eqn:T1; cbn [andb].
    + assert (T2 : f32_lt pos x = true) by (apply (fin_lt _ _ _ _ Fpos FX); exact X1). rewrite T2. cbn [andb]. apply (fin_le _ _ _ _ FX Fn) in T1.
      eexists _, _. split; [reflexivity|].
      assert (S1 : fin (f32_sub npos x) (rr (sv ra rb c n nx - rx))) by (apply fin_sub; [exact Fn|exact FX|apply Rabs_le; lra]).
      assert (S2 : fin (f32_sub x pos) (rr (rx - sv ra rb c n cur))) by (apply fin_sub; [exact FX|exact Fpos|apply Rabs_le; lra]).
      destruct (f32_lt (f32_sub npos x) (f32_sub x pos)) eqn:T3; (split; [assumption|]; split; [lia|]); apply Pick; try lra.
      * apply (flt_true S1 S2), chosen_lt in T3. split; apply nearly_le; try apply Rabs_pos; unfold Rabs; repeat destruct (Rcase_abs _); lra.
      * apply (flt_false S1 S2) in T3. apply chosen_ge in T3; try assumption; try lra. split; [apply nearly_le; [apply Rabs_pos|lra]|].
        rewrite Rabs_pos_eq by lra. rewrite Rabs_minus_sym, Rabs_pos_eq by lra. exact T3.
    + rewrite andb_false_r. apply (fle_false FX Fn) in T1.
      destruct (Z.leb_spec n nx).
      { exfalso. assert (En : nx = n) by lia. rewrite En, sv_end in T1. lra. }
      apply IH; auto; try lia.
Qed.
End WalkR.

(** * The nearest caret *)

Lemma caret_sv r F m p g f : run_ok r -> (forall k, (k <= run_len r)%nat -> position (lf r F k) (nth k (logical_xs r) 0%Q)) ->
  increasing (logical_chars r) -> (m < run_len r)%nat ->
  nth m (logical_chars r) (sr_end r) <= p <= char_after r m -> caret_f r F p g f ->
  fin f (sv (X r m) (X r (S m)) (nth m (logical_chars r) (sr_end r)) (char_after r m) p).
Proof.
  intros OK LF I Hm Hp C. unfold sv. destruct (Z.eq_dec p (nth m (logical_chars r) (sr_end r))) as [->|Hne].
  - rewrite Z.sub_diag, share_0. destruct (X_is r F LF m ltac:(lia)) as (z & Bz & E & Fz).
    rewrite mid_0 by (rewrite E; apply fmt64; lia). rewrite E.
    rewrite (@caret_f_boundary r F _ g f m OK LF C ltac:(lia) eq_refl); [exact Fz|]. intros j Hj. apply chars_strict; auto; lia.
  - assert (g = S m).
    { destruct C as (Hg & Lo & Hi & _). destruct (lt_eq_lt_dec g (S m)) as [[H|H]|H]; [|exact H|].
      - specialize (Hi m ltac:(lia)). lia.
      - specialize (Lo (S m) H). unfold char_after in Hp. lia. }
    subst g. exact (caret_value r F OK LF _ _ _ C).
Qed.

Lemma F2_length A C (P : A -> C -> Prop) u v : Forall2 P u v -> length u = length v.
Proof. induction 1; cbn; congruence. Qed.
Section Nearest.
Variables (B : Z -> Prop) (following : Z -> Z) (d : sdoc) (y : Q) (k : nat) (s : sline) (ps ws : list f32) (w lw : f32) (al : xalign) (x : f32) (XX : R).
Hypothesis W : walks B following.
Hypothesis Es : nth_error d k = Some s.
Hypothesis NE : sl_runs s <> [].
Hypothesis OK : Forall run_ok (sl_runs s).
Hypothesis ST : Forall (begins_at_stops B) (sl_runs s).
Hypothesis ONE : Forall (fun r => increasing (logical_chars r)) (sl_runs s).
Hypothesis MX : Forall (fun r => qnondecreasing (run_xs r)) (sl_runs s).
Hypothesis ADJ : adjacent (sl_runs s).
Let l := layout_of d y.
Let R := run_first d k.
Hypothesis PS : positions ps (lo_pos l).
Hypothesis LW : vget ws k = Ok lw.
Let xx := f32_sub x (line_start w lw al).
Hypothesis FX : fin xx XX.

Definition caretf (j : nat) (p : Z) (f : f32) : Prop :=
  exists r, nth_error (sl_runs s) j = Some r /\ sr_start r <= p <= sr_end r /\ offset_in_run l ps (R + j) p = Ok f.

Lemma same_length : length ps = length (lo_pos l).
Proof. exact (F2_length PS). Qed.
Lemma pf_fin j r i : nth_error (sl_runs s) j = Some r -> (i <= run_len r)%nat -> fin (pf d ps (R + j) i) (Q2R (nth i (run_xs r) 0%Q)).
Proof.
  intros Er Hi. destruct (@splitR d k s Es j r Er) as (pre & post & Ed & L). fold R in L. rewrite (@pf_at d ps pre r post _ Ed L).
  destruct (position_fin _ _ (posf_is d y pre r post ps Ed PS i Hi)) as (z & _ & E & F). rewrite E. exact F.
Qed.
Lemma pf_lf j r i : nth_error (sl_runs s) j = Some r -> (i <= run_len r)%nat -> position (lf r (pf d ps (R + j)) i) (nth i (logical_xs r) 0%Q).
Proof.
  intros Er Hi. destruct (@splitR d k s Es j r Er) as (pre & post & Ed & L). fold R in L. rewrite (@pf_at d ps pre r post _ Ed L).
  exact (lf_is d y pre r post ps Ed PS i Hi).
Qed.
Lemma caretf_ex j r p : nth_error (sl_runs s) j = Some r -> sr_start r <= p <= sr_end r ->
  exists f g, caretf j p f /\ caret_f r (pf d ps (R + j)) p g f.
Proof.
  intros Er Hp. destruct (@splitR d k s Es j r Er) as (pre & post & Ed & L). fold R in L. rewrite (@pf_at d ps pre r post _ Ed L).
  rewrite Forall_forall in OK. destruct (in_run_f d y pre r post ps Ed (OK _ (nth_error_In _ _ Er)) PS p Hp) as (g & f & E & C).
  exists f, g. split; [|exact C]. exists r. split; [exact Er|]. split; [exact Hp|]. fold l in E. rewrite L in E. exact E.
Qed.
Lemma caretf_inv j p f : caretf j p f -> exists r g, nth_error (sl_runs s) j = Some r /\ sr_start r <= p <= sr_end r /\ caret_f r (pf d ps (R + j)) p g f.
Proof.
  intros (r & Er & Hp & E). destruct (caretf_ex _ Er Hp) as (f' & g & (r' & _ & _ & E') & C).
  rewrite E in E'. inversion E'; subst f'. exists r, g. auto.
Qed.
Lemma caretf_bounds j p f : caretf j p f -> exists r V, nth_error (sl_runs s) j = Some r /\ fin f V /\ (Q2R (run_first_x r) <= V <= Q2R (sr_end_x r))%R.
Proof.
  intros C. apply caretf_inv in C as (r & g & Er & Hp & C). pose proof (nth_error_In _ _ Er) as Hin. rewrite Forall_forall in OK, MX.
  exists r, (cv r p g). split; [exact Er|]. assert (LF : forall i, (i <= run_len r)%nat -> position (lf r (pf d ps (R + j)) i) (nth i (logical_xs r) 0%Q)) by (intros i Hi; exact (pf_lf _ Er Hi)).
  split; [exact (caret_value r _ (OK _ Hin) LF _ _ _ C)|exact (cv_bounds r _ LF (MX _ Hin) _ _ _ C)].
Qed.
Lemma end_fin j r f k0 : nth_error (sl_runs s) j = Some r -> f = lf r (pf d ps (R + j)) k0 -> (k0 <= run_len r)%nat -> fin f (X r k0).
Proof. intros Er -> H. apply (X_fin r); [intros i Hi; exact (pf_lf _ Er Hi)|exact H]. Qed.

Lemma right_fin j r p f : nth_error (sl_runs s) j = Some r -> caretf j p f -> p = (if sr_rtl r then sr_start r else sr_end r) -> fin f (Q2R (sr_end_x r)).
Proof.
  intros Er C Hp. apply caretf_inv in C as (r' & g & Er' & Hr & C). rewrite Er in Er'. inversion Er'; subst r'. clear Er'.
  pose proof (nth_error_In _ _ Er) as Hin. rewrite Forall_forall in OK. pose proof (OK _ Hin) as O.
  assert (LF : forall i, (i <= run_len r)%nat -> position (lf r (pf d ps (R + j)) i) (nth i (logical_xs r) 0%Q)) by (intros i Hi; exact (pf_lf _ Er Hi)).
  pose proof (logical_first_last r) as FL. destruct (sr_rtl r); destruct FL as [F1 F2]; subst p.
  - rewrite <- F1. apply (@end_fin j r f 0 Er); [|lia]. apply (caret_f_boundary r _ _ g f 0 O LF C); [lia|apply run_ok_first; exact O|lia].
  - rewrite <- F2. apply (@end_fin j r f (run_len r) Er); [|lia]. apply (caret_f_boundary r _ _ g f (run_len r) O LF C); [lia| |].
    + apply nth_overflow. rewrite length_logical_chars. lia.
    + intros i Hi. apply run_ok_chars; auto.
Qed.
Lemma left_fin j r p f : nth_error (sl_runs s) j = Some r -> caretf j p f -> p = (if sr_rtl r then sr_end r else sr_start r) -> fin f (Q2R (run_first_x r)).
Proof.
  intros Er C Hp. apply caretf_inv in C as (r' & g & Er' & Hr & C). rewrite Er in Er'. inversion Er'; subst r'. clear Er'.
  pose proof (nth_error_In _ _ Er) as Hin. rewrite Forall_forall in OK. pose proof (OK _ Hin) as O.
  assert (LF : forall i, (i <= run_len r)%nat -> position (lf r (pf d ps (R + j)) i) (nth i (logical_xs r) 0%Q)) by (intros i Hi; exact (pf_lf _ Er Hi)).
  pose proof (logical_first_last r) as FL. destruct (sr_rtl r); destruct FL as [F1 F2]; subst p.
  - rewrite <- F2. apply (@end_fin j r f (run_len r) Er); [|lia]. apply (caret_f_boundary r _ _ g f (run_len r) O LF C); [lia| |].
    + apply nth_overflow. rewrite length_logical_chars. lia.
    + intros i Hi. apply run_ok_chars; auto.
  - rewrite <- F1. apply (@end_fin j r f 0 Er); [|lia]. apply (caret_f_boundary r _ _ g f 0 O LF C); [lia|apply run_ok_first; exact O|lia].
Qed.

Lemma run_xs_last r : nth (run_len r) (run_xs r) 0%Q = sr_end_x r.
Proof. unfold run_xs. rewrite app_nth2 by (rewrite map_length; unfold run_len; lia). rewrite map_length. unfold run_len. rewrite Nat.sub_diag. reflexivity. Qed.
Lemma rightf_fin j r : nth_error (sl_runs s) j = Some r -> rightf d k s ps xx (R + j) = true <-> (Q2R (sr_end_x r) < XX)%R.
Proof.
  intros Er. unfold rightf. fold R. replace (R + j - R)%nat with j by lia. rewrite (nth_error_nth _ _ _ Er).
  pose proof (pf_fin _ Er (le_n _)) as F. rewrite run_xs_last in F. exact (fin_lt _ _ _ _ F FX).
Qed.
Lemma order i j a b : nth_error (sl_runs s) i = Some a -> nth_error (sl_runs s) j = Some b -> (i < j)%nat -> (Q2R (sr_end_x a) <= Q2R (run_first_x b))%R.
Proof. intros Ea Eb H. apply Qle_Rle. exact (@adjacent_order (sl_runs s) i j a b ADJ MX Ea Eb H). Qed.
Lemma ends_order r : In r (sl_runs s) -> (Q2R (run_first_x r) <= Q2R (sr_end_x r))%R.
Proof. intros H. apply Qle_Rle, run_xs_ends. rewrite Forall_forall in MX. auto. Qed.
Lemma rightf_mono i j : (i <= j < length (sl_runs s))%nat -> rightf d k s ps xx (R + j) = true -> rightf d k s ps xx (R + i) = true.
Proof.
  intros H. destruct (Nat.eq_dec i j) as [->|Hne]; [auto|].
  destruct (nth_error (sl_runs s) i) as [a|] eqn:Ea; [|apply nth_error_None in Ea; lia].
  destruct (nth_error (sl_runs s) j) as [b|] eqn:Eb; [|apply nth_error_None in Eb; lia].
  rewrite (rightf_fin _ Ea), (rightf_fin _ Eb). pose proof (order Ea Eb ltac:(lia)). pose proof (@ends_order _ (nth_error_In _ _ Eb)). intros. lra.
Qed.
Lemma notright j r : nth_error (sl_runs s) j = Some r -> rightf d k s ps xx (R + j) = false -> (XX <= Q2R (sr_end_x r))%R.
Proof. intros Er H. destruct (Rle_lt_dec XX (Q2R (sr_end_x r))) as [L|L]; [exact L|]. apply (rightf_fin _ Er) in L. congruence. Qed.

Lemma hit_nearest_f : exists c j f V, 
  find_closest_f following l ps ws w al k x = Ok c /\ B (cp_get_position c) /\ caretf j (cp_get_position c) f /\ fin f V /\
  forall i p f', B p -> caretf i p f' -> exists V', fin f' V' /\ nearly (Rabs (XX - V)) (Rabs (XX - V')).
Proof.
  pose proof (@hit_structuref d y k s following ps ws Es NE OK same_length w al x lw LW) as C. cbv zeta in C. fold l xx R in C.
  pose proof OK as OK'. pose proof ST as ST'. pose proof ONE as ONE'. pose proof MX as MX'. rewrite Forall_forall in OK', ST', ONE', MX'.
  destruct C as [(r & Er & RF & E)|(j & r & g & G & fa & la & Er & RF & Hg & GF & _ & E)].
  - pose proof (nth_error_In _ _ Er) as Hin. pose proof (OK' _ Hin) as O. pose proof (ST' _ Hin) as T.
    pose proof O as (O1 & O2 & _). pose proof (stops_start O T) as T1. pose proof T as [_ T2].
    set (p := if sr_rtl r then sr_start r else sr_end r) in *.
    assert (Hp : sr_start r <= p <= sr_end r) by (unfold p; destruct (sr_rtl r); lia).
    destruct (caretf_ex _ Er Hp) as (f & g & CX & _). eexists _, _, f, _. split; [exact E|].
    rewrite cp_opposite_position by lia. split; [unfold p; destruct (sr_rtl r); auto|]. split; [exact CX|].
    split; [exact (right_fin Er CX eq_refl)|].
    intros i q f' Bq CY. apply caretf_bounds in CY as (t & V' & Et & FV & Bd). exists V'. split; [exact FV|].
    destruct RF as [RF _]; [intros i0 j0 H0; apply rightf_mono; exact H0|].
    assert (HN : (0 < length (sl_runs s))%nat) by (destruct (sl_runs s); [congruence|cbn [length]; lia]).
    specialize (RF (R + (length (sl_runs s) - 1))%nat ltac:(fold R; lia)). rewrite (rightf_fin _ Er) in RF.
    assert (Yle : (V' <= Q2R (sr_end_x r))%R).
    { destruct (Nat.eq_dec i (length (sl_runs s) - 1)) as [->|Hne]; [rewrite Er in Et; inversion Et; subst; lra|].
      assert (i < length (sl_runs s))%nat by (apply nth_error_Some; congruence).
      pose proof (@order i (length (sl_runs s) - 1) t r Et Er ltac:(lia)). pose proof (@ends_order _ Hin). lra. }
    apply nearly_le; [apply Rabs_pos|]. unfold Rabs; repeat destruct (Rcase_abs _); lra.
  - pose proof (nth_error_In _ _ Er) as Hin. pose proof (OK' _ Hin) as O. pose proof (ST' _ Hin) as T.
    pose proof O as (O1 & O2 & _). pose proof (stops_start O T) as T1. pose proof T as [_ T2].
    pose proof (MX' _ Hin) as Mr. pose proof (ONE' _ Hin) as Ir. pose proof (@ends_order _ Hin) as Er1.
    assert (HjN : (j < length (sl_runs s))%nat) by (apply nth_error_Some; congruence).
    destruct RF as [RF1 RF2]; [intros i0 j0 H0; apply rightf_mono; exact H0|]. fold R in RF1, RF2.
    specialize (RF2 (R + j)%nat ltac:(lia)). apply (notright _ Er) in RF2.
    set (F := pf d ps (R + j)) in *.
    assert (PF : forall i, (i <= run_len r)%nat -> fin (F i) (Q2R (nth i (run_xs r) 0%Q))) by (intros i Hi; exact (pf_fin _ Er Hi)).
    assert (LF : forall i, (i <= run_len r)%nat -> position (lf r F i) (nth i (logical_xs r) 0%Q)) by (intros i Hi; exact (pf_lf _ Er Hi)).
    destruct GF as [GF1 GF2].
    { intros i i' Hii L. apply (fin_lt _ _ _ _ (PF i' ltac:(lia)) FX) in L. apply (fin_lt _ _ _ _ (PF i ltac:(lia)) FX).
      eapply Rle_lt_trans; [|exact L]. apply Qle_Rle, qnondecreasing_nth; [exact Mr|]. rewrite length_run_xs. lia. }
    assert (Left : forall i p f', (i < j)%nat -> caretf i p f' -> exists V', fin f' V' /\ (V' <= Q2R (run_first_x r))%R).
    { intros i p f' Hi CY. apply caretf_bounds in CY as (t & V' & Et & FV & Bd). exists V'. split; [exact FV|].
      pose proof (order Et Er Hi). lra. }
    assert (Right : forall i p f', (j < i)%nat -> caretf i p f' -> exists V', fin f' V' /\ (Q2R (sr_end_x r) <= V')%R).
    { intros i p f' Hi CY. apply caretf_bounds in CY as (t & V' & Et & FV & Bd). exists V'. split; [exact FV|].
      pose proof (order Er Et Hi). lra. }
    destruct (Nat.eqb_spec g 0) as [->|Hg0].
    + set (p := if sr_rtl r then sr_end r else sr_start r) in *.
      assert (Hp : sr_start r <= p <= sr_end r) by (unfold p; destruct (sr_rtl r); lia).
      destruct (caretf_ex _ Er Hp) as (f & g & CX & _). eexists _, _, f, _. split; [exact E|].
      rewrite make_cursor_position by lia. split; [unfold p; destruct (sr_rtl r); auto|]. split; [exact CX|].
      split; [exact (left_fin Er CX eq_refl)|].
      assert (XF : (XX <= Q2R (run_first_x r))%R).
      { destruct (Nat.eq_dec (run_len r) 0) as [Hz|Hz].
        - assert (Z0 : run_xs r = [sr_end_x r]) by (unfold run_xs; destruct (sr_glyphs r) eqn:Eg; [reflexivity|unfold run_len in Hz; rewrite Eg in Hz; discriminate]).
          unfold run_first_x. rewrite Z0. cbn [hd]. exact RF2.
        - specialize (GF2 0%nat ltac:(lia)). apply (flt_false (PF 0%nat ltac:(lia)) FX) in GF2. unfold run_first_x. destruct (run_xs r); exact GF2. }
      assert (J0 : j = 0%nat).
      { destruct j as [|j]; [reflexivity|]. exfalso.
        destruct (nth_error (sl_runs s) j) as [t|] eqn:Et; [|apply nth_error_None in Et; lia].
        specialize (RF1 (R + j)%nat ltac:(lia)). rewrite (rightf_fin _ Et) in RF1.
        pose proof (@adjacent_end _ _ _ _ ADJ Et Er) as A. apply Qeq_eqR in A. lra. }
      subst j. intros i q f' Bq CY.
      assert (YG : exists V', fin f' V' /\ (Q2R (run_first_x r) <= V')%R).
      { destruct (Nat.eq_dec i 0) as [->|Hne].
        - apply caretf_bounds in CY as (t & V' & Et & FV & Bd). rewrite Er in Et. inversion Et; subst t. exists V'. split; [exact FV|lra].
        - destruct (Right i q f' ltac:(lia) CY) as (V' & FV & L). exists V'. split; [exact FV|lra]. }
      destruct YG as (V' & FV & YG). exists V'. split; [exact FV|].
      apply nearly_le; [apply Rabs_pos|]. unfold Rabs; repeat destruct (Rcase_abs _); lra.
    + cbv zeta in E. set (m := logical_before r g) in *.
      assert (Hm : (m < run_len r)%nat) by (unfold m, logical_before; destruct (sr_rtl r); lia).
      set (c := nth m (logical_chars r) (sr_end r)) in *. set (e := char_after r m) in *.
      assert (Hce : c < e) by (apply chars_strict; auto; lia).
      assert (Hcr : sr_start r <= c <= sr_end r) by apply run_ok_range, O.
      assert (Her : sr_start r <= e <= sr_end r) by apply run_ok_range, O.
      destruct (Z.eqb_spec c e) as [|_]; [lia|].
      destruct (X_is r F LF m ltac:(lia)) as (za & BA & EA & FA). destruct (X_is r F LF (S m) ltac:(lia)) as (zb & BB & EB & FB).
      set (a := X r m) in *. set (b := X r (S m)) in *.
      (* where the click lies *)
      assert (LO : (Q2R (nth (g - 1) (run_xs r) 0%Q) < XX)%R) by (apply (flt_true (PF (g - 1)%nat ltac:(lia)) FX), GF1; lia).
      assert (HI : (XX <= Q2R (nth g (run_xs r) 0%Q))%R).
      { destruct (Nat.eq_dec g (run_len r)) as [Hgl|Hgl]; [|apply (flt_false (PF g ltac:(lia)) FX), GF2; lia].
        rewrite Hgl, run_xs_last. exact RF2. }
      assert (AB : (if sr_rtl r then b < XX <= a else a < XX <= b)%R).
      { unfold a, b, X, m, logical_before. destruct (sr_rtl r) eqn:Hd.
        - rewrite (@rev_xs_nth [] r g Hd) in HI by lia. rewrite (@rev_xs_nth [] r (g - 1) Hd) in LO by lia.
          replace (run_len r - (g - 1))%nat with (S (run_len r - g)) in LO by lia. auto.
        - assert (LX : logical_xs r = run_xs r) by (unfold logical_xs; rewrite Hd; reflexivity). rewrite LX.
          replace (S (g - 1)) with g by lia. auto. }
      assert (La : sv a b c e c = a) by (rewrite EA, EB; apply sv_start; assumption).
      assert (Lb : sv a b c e e = b) by (rewrite EA, EB; apply sv_end; lia).
      assert (Fa : fin (lf r F m) a) by (rewrite EA; exact FA). 
      destruct (@walk_nearest_f B following W (vrun_of G r) c e (lf r F m) (lf r F (S m)) fa la xx za zb XX ltac:(lia) ltac:(lia) (@stops_chars B r (S m) T)
        BA BB FA FB FX (S (Z.to_nat (e - c))) c (lf r F m)) as (sel & o & Ew & Bs & Hs & Near);
        [apply stops_chars; exact T|lia|lia|rewrite <- EA, <- EB, La; exact Fa|rewrite <- EA, <- EB, La; exact AB|].
      rewrite <- EA, <- EB in Near.
      rewrite Ew in E. assert (Hsr : sr_start r <= sel <= sr_end r) by lia.
      destruct (caretf_ex _ Er Hsr) as (f & h & CX & CA). exists (make_cursor sel o), j, f, (sv a b c e sel).
      split; [exact E|]. rewrite make_cursor_position by lia. split; [exact Bs|]. split; [exact CX|].
      split; [exact (caret_sv O LF Ir Hm Hs CA)|].
      pose proof (Near c (@stops_chars B r m T) ltac:(lia)) as NA. pose proof (Near e (@stops_chars B r (S m) T) ltac:(lia)) as NB.
      rewrite La in NA. rewrite Lb in NB.
      assert (Sides : (if sr_rtl r then Q2R (run_first_x r) <= b /\ a <= Q2R (sr_end_x r) else Q2R (run_first_x r) <= a /\ b <= Q2R (sr_end_x r))%R).
      { pose proof (logical_first_last r) as FL. pose proof (@logical_xs_mono r 0 m Mr ltac:(lia)) as M1.
        pose proof (@logical_xs_mono r (S m) (run_len r) Mr ltac:(lia)) as M2. unfold a, b, X.
        unfold reads in M1, M2. destruct (sr_rtl r); destruct FL as [F1 F2]; rewrite F1 in M1; rewrite F2 in M2; split; apply Qle_Rle; assumption. }
      intros i q f' Bq CY. destruct (lt_eq_lt_dec i j) as [[Hij|Heq]|Hij]; [|subst i|].
      * destruct (Left i q f' Hij CY) as (V' & FV & HY). exists V'. split; [exact FV|]. destruct (sr_rtl r).
        -- apply (nearly_trans NB). unfold Rabs; repeat destruct (Rcase_abs _); lra.
        -- apply (nearly_trans NA). unfold Rabs; repeat destruct (Rcase_abs _); lra.
      * apply caretf_inv in CY as (t & h' & Et & Ht & CAt). rewrite Er in Et. inversion Et; subst t. fold F in CAt.
        pose proof (caret_value r F O LF _ _ _ CAt) as FV.
        destruct (caretf_ex _ Er Hcr) as (fc & gc & _ & CAc). destruct (caretf_ex _ Er Her) as (fe & ge & _ & CAe). fold F in CAc, CAe.
        pose proof (@caret_sv r F m c gc fc O LF Ir Hm ltac:(fold c e; lia) CAc) as Ec. fold a b c e in Ec. rewrite La in Ec.
        pose proof (@caret_sv r F m e ge fe O LF Ir Hm ltac:(fold c e; lia) CAe) as Ee. fold a b c e in Ee. rewrite Lb in Ee.
        pose proof (fin_unique Ec (caret_value r F O LF _ _ _ CAc)) as Uc. pose proof (fin_unique Ee (caret_value r F O LF _ _ _ CAe)) as Ue.
        exists (cv r q h'). split; [exact FV|].
        destruct (Z.ltb_spec q c) as [Hqc|Hqc]; [|destruct (Z.ltb_spec e q) as [Hqe|Hqe]].
        -- pose proof (cv_mono r F LF Mr q c h' gc f' fc CAt CAc ltac:(lia)) as M1. unfold readsR in M1. rewrite <- Uc in M1.
           apply (nearly_trans NA). destruct (sr_rtl r); unfold Rabs; repeat destruct (Rcase_abs _); lra.
        -- pose proof (cv_mono r F LF Mr e q ge h' fe f' CAe CAt ltac:(lia)) as M1. unfold readsR in M1. rewrite <- Ue in M1.
           apply (nearly_trans NB). destruct (sr_rtl r); unfold Rabs; repeat destruct (Rcase_abs _); lra.
        -- pose proof (caret_sv O LF Ir Hm (conj Hqc Hqe) CAt) as EY. fold a b c e in EY. rewrite (fin_unique FV EY). apply Near; [exact Bq|lia].
      * destruct (Right i q f' Hij CY) as (V' & FV & HY). exists V'. split; [exact FV|]. destruct (sr_rtl r).
        -- apply (nearly_trans NA). unfold Rabs; repeat destruct (Rcase_abs _); lra.
        -- apply (nearly_trans NB). unfold Rabs; repeat destruct (Rcase_abs _); lra.
Qed.
End Nearest.
