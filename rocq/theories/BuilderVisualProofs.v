(** Visual runs of a line: the model follows the specification. *)
From Coq Require Import Permutation.
From Verif Require Import Base BaseFacts BinarySearchModel BinarySearchProofs LayoutModel LayoutSpec LayoutProofs BuilderModel BuilderSpec.
Open Scope Z_scope.
Set Implicit Arguments.

Lemma last_map_snoc {A B} (f : A -> B) l x d : last (map f (l ++ [x])) d = f x.
Proof. rewrite map_app. apply last_last. Qed.

(** ** Sorted characters *)
Lemma nondecreasing_cons a l : nondecreasing (a :: l) -> Forall (fun b => a <= b) l /\ nondecreasing l.
Proof.
  revert a. induction l as [|b l IH]; intros a H; [split; constructor|].
  cbn in H. destruct H as [H1 H2]. split; [|exact H2]. constructor; [exact H1|].
  destruct (IH b H2) as [F _]. eapply Forall_impl; [|exact F]. cbn. lia.
Qed.

Lemma count_below_cons c g gs : count_below c (g :: gs) = ((if (lg_char g <? c)%Z then 1 else 0) + count_below c gs)%nat.
Proof. unfold count_below. cbn [filter]. destruct (lg_char g <? c); reflexivity. Qed.
Lemma count_below_le c gs : (count_below c gs <= length gs)%nat.
Proof. unfold count_below. induction gs; cbn [filter]; [cbn; lia|]. destruct (_ <? c); cbn [length] in *; lia. Qed.
Lemma count_below_mono a b gs : a <= b -> (count_below a gs <= count_below b gs)%nat.
Proof.
  intros H. induction gs as [|g gs IH]; [cbn; lia|]. rewrite !count_below_cons.
  destruct (lg_char g <? a) eqn:E1, (lg_char g <? b) eqn:E2; lia.
Qed.
Lemma count_below_none c gs : Forall (fun g => c <= lg_char g) gs -> count_below c gs = 0%nat.
Proof.
  induction 1 as [|g gs H _ IH]; [reflexivity|]. rewrite count_below_cons, IH.
  rewrite (proj2 (Z.ltb_ge _ _)) by lia. reflexivity.
Qed.
Lemma count_below_all c gs : Forall (fun g => lg_char g < c) gs -> count_below c gs = length gs.
Proof.
  induction 1 as [|g gs H _ IH]; [reflexivity|]. rewrite count_below_cons, IH.
  rewrite (proj2 (Z.ltb_lt _ _)) by lia. reflexivity.
Qed.

Lemma char_below gs : nondecreasing (map lg_char gs) -> forall c i x,
  vget (map lg_char gs) i = Ok x -> (x <? c) = (i <? count_below c gs)%nat.
Proof.
  induction gs as [|g gs IH]; intros N c i x H.
  - destruct i; discriminate.
  - cbn [map] in N. destruct (nondecreasing_cons _ _ N) as [F N']. rewrite count_below_cons.
    destruct i as [|i].
    + cbn in H. injection H as <-. destruct (lg_char g <? c) eqn:E; [rewrite (proj2 (Nat.ltb_lt _ _)); [reflexivity|lia]|].
      rewrite count_below_none; [reflexivity|].
      rewrite Forall_map in F. eapply Forall_impl; [|exact F]. cbn. lia.
    + cbn [map] in H. change (vget (lg_char g :: map lg_char gs) (S i)) with (vget (map lg_char gs) i) in H.
      rewrite (IH N' c i x H). destruct (lg_char g <? c) eqn:E; [lia|].
      rewrite count_below_none; [reflexivity|].
      rewrite Forall_map in F. eapply Forall_impl; [|exact F]. cbn. lia.
Qed.

Lemma filter_below gs c : nondecreasing (map lg_char gs) -> filter (fun g => lg_char g <? c) gs = firstn (count_below c gs) gs.
Proof.
  induction gs as [|g gs IH]; intros N; [reflexivity|].
  cbn [map] in N. destruct (nondecreasing_cons _ _ N) as [F N']. rewrite count_below_cons. cbn [filter].
  destruct (lg_char g <? c) eqn:E.
  - cbn [Nat.add firstn]. rewrite IH by assumption. reflexivity.
  - rewrite Forall_map in F.
    assert (Z0 : count_below c gs = 0%nat) by (apply count_below_none; eapply Forall_impl; [|exact F]; cbn; lia).
    rewrite IH by assumption. rewrite Z0. reflexivity.
Qed.
Lemma filter_from gs c : nondecreasing (map lg_char gs) -> filter (fun g => c <=? lg_char g) gs = skipn (count_below c gs) gs.
Proof.
  induction gs as [|g gs IH]; intros N; [reflexivity|].
  cbn [map] in N. destruct (nondecreasing_cons _ _ N) as [F N']. rewrite count_below_cons. cbn [filter].
  destruct (lg_char g <? c) eqn:E.
  - replace (c <=? lg_char g) with false by lia. cbn [Nat.add skipn]. apply IH; assumption.
  - replace (c <=? lg_char g) with true by lia. rewrite Forall_map in F.
    assert (Z0 : count_below c gs = 0%nat) by (apply count_below_none; eapply Forall_impl; [|exact F]; cbn; lia).
    rewrite IH by assumption. rewrite Z0. reflexivity.
Qed.
Lemma filter_filter {A} (f g : A -> bool) l : filter f (filter g l) = filter (fun x => f x && g x) l.
Proof.
  induction l as [|a l IH]; [reflexivity|]. cbn [filter]. destruct (g a) eqn:E; cbn [filter].
  - rewrite andb_true_r. rewrite IH. reflexivity.
  - rewrite andb_false_r. exact IH.
Qed.
Lemma nondecreasing_firstn n l : nondecreasing l -> nondecreasing (firstn n l).
Proof.
  revert n. induction l as [|a l IH]; intros n H; [destruct n; exact I|].
  destruct n as [|n]; [exact I|]. destruct (nondecreasing_cons _ _ H) as [F N]. cbn [firstn].
  specialize (IH n N). destruct l as [|b l]; [destruct n; exact I|].
  destruct n as [|n]; [exact I|]. cbn [firstn] in *. split; [inversion F; assumption|exact IH].
Qed.

Lemma glyphs_in_slice p a b : nondecreasing (map lg_char (pa_glyphs p)) -> a <= b ->
  glyphs_in p a b = skipn (count_below a (pa_glyphs p)) (firstn (count_below b (pa_glyphs p)) (pa_glyphs p)).
Proof.
  intros N H. unfold glyphs_in.
  rewrite <- (filter_filter (fun g => a <=? lg_char g) (fun g => lg_char g <? b)).
  rewrite filter_below by assumption. rewrite filter_from by (rewrite <- firstn_map; apply nondecreasing_firstn; assumption).
  f_equal. rewrite <- filter_below by assumption. unfold count_below. rewrite filter_filter. f_equal.
  apply filter_ext. intros g. lia.
Qed.

Lemma seq_nth {A} (l : list A) k : Forall2 (fun i g => nth_error l i = Some g) (seq k (length l - k)) (skipn k l).
Proof.
  revert k. induction l as [|a l IH]; intros k.
  - rewrite skipn_nil. cbn. constructor.
  - destruct k as [|k].
    + cbn [length skipn]. rewrite Nat.sub_0_r. cbn [seq]. constructor; [reflexivity|].
      specialize (IH 0%nat). rewrite Nat.sub_0_r in IH. cbn [skipn] in IH.
      rewrite <- seq_shift. clear -IH. revert IH. generalize (seq 0 (length l)). intros s H.
      remember (skipn 0 l) as l' eqn:E. cbn in E. subst l'. 
      revert H. generalize l at 2 4. intros l2 H. induction H; cbn [map]; constructor; auto.
    + cbn [length skipn]. change (S (length l) - S k)%nat with (length l - k)%nat.
      rewrite <- seq_shift. specialize (IH k). induction IH; cbn [map]; constructor; auto.
Qed.

Lemma nth_error_firstn {A} (l : list A) : forall n i x, nth_error (firstn n l) i = Some x -> nth_error l i = Some x.
Proof.
  induction l as [|a l IH]; intros n i x H; [rewrite firstn_nil in H; destruct i; discriminate|].
  destruct n as [|n]; [destruct i; discriminate|]. destruct i; cbn in *; eauto.
Qed.

Lemma glyphs_in_seq p a b : nondecreasing (map lg_char (pa_glyphs p)) -> a <= b ->
  Forall2 (fun i g => nth_error (pa_glyphs p) i = Some g)
    (seq (count_below a (pa_glyphs p)) (count_below b (pa_glyphs p) - count_below a (pa_glyphs p))) (glyphs_in p a b).
Proof.
  intros N H. rewrite glyphs_in_slice by assumption.
  pose proof (seq_nth (firstn (count_below b (pa_glyphs p)) (pa_glyphs p)) (count_below a (pa_glyphs p))) as S.
  rewrite firstn_length_le in S by apply count_below_le.
  induction S as [|i g idx gs E S IH]; constructor; [|exact IH]. eapply nth_error_firstn; exact E.
Qed.

Lemma Forall2_rev {A B} (R : A -> B -> Prop) l1 l2 : Forall2 R l1 l2 -> Forall2 R (rev l1) (rev l2).
Proof.
  induction 1; [constructor|]. cbn [rev]. apply Forall2_app; [assumption|]. constructor; [assumption|constructor].
Qed.

(** ** One run *)
Section Visual.
Variable info : ssfont -> font_info.
Variable vertical : bool.
Variable code : ssfont -> Z.

Lemma append_pos_placed l w sec x y : x = fixed (if vertical then sec else w) -> y = fixed (if vertical then w else sec) ->
  append_pos vertical l w sec = append_glyph_position l x y.
Proof. intros -> ->. unfold append_pos. destruct vertical; reflexivity. Qed.

Lemma emit_of p cur : forall idx gs l w, Forall2 (fun i g => nth_error (pa_glyphs p) i = Some g) idx gs ->
  exists l', emit_glyphs vertical (shaped_of p cur) l idx w = Ok (l', w + total gs) /\
    lsteps l (flat_map glyph_ops (placed vertical w gs)) = Ok l'.
Proof.
  intros idx gs l w F. revert l w. induction F as [|i g idx gs E F IH]; intros l w.
  - exists l. cbn [emit_glyphs placed flat_map lsteps]. change (total []) with 0. rewrite Z.add_0_r. split; reflexivity.
  - cbn [emit_glyphs shaped_of sh_glyphs sh_chars sh_sec sh_width].
    assert (V : forall {B} (f : lglyph -> B), vget (map f (pa_glyphs p)) i = Ok (f g)).
    { intros B f. unfold vget. rewrite nth_error_map, E. reflexivity. }
    rewrite !V. cbn [obind]. rewrite vget_app1.
    2:{ rewrite map_length. apply nth_error_Some. congruence. }
    rewrite V. cbn [obind]. cbn [placed flat_map]. 
    set (l1 := append_pos _ _ _ _). destruct (IH l1 (w + lg_width g)) as (l' & E1 & E2).
    exists l'. split.
    + rewrite E1. change (total (g :: gs)) with (lg_width g + total gs). rewrite Z.add_assoc. reflexivity.
    + rewrite lsteps_app. cbn [glyph_ops lsteps lstep obind sg_id sg_char sg_x sg_y].
      unfold l1 in E2. erewrite append_pos_placed in E2 by reflexivity. exact E2.
Qed.

Section Para.
Variable p : para.
Variable ps pe : Z.
Hypothesis OK : para_ok ps pe p.
Let gs := pa_glyphs p.
Let sorted : nondecreasing (map lg_char gs) := proj1 (proj2 OK).

Lemma search_glyphs first count c d : (first <= count_below c gs <= first + count)%nat -> (first + count <= length gs)%nat ->
  (forall x, d x = (x <? c)) ->
  binary_search first count (fun i => omap d (vget (map lg_char gs) i)) = Ok (count_below c gs).
Proof.
  intros H1 H2 D.
  destruct (@binary_search_partition first count (fun i => (i <? count_below c gs)%nat)) with
    (cond := fun i => omap d (vget (map lg_char gs) i)) as (r & E & R & A & B).
  - intros i j Hi Hij Hj J. lia.
  - intros i Hi. assert (L : (i < length (map lg_char gs))%nat) by (rewrite map_length; lia).
    apply vget_lt in L. destruct L as (x & L & _). rewrite L. cbn. rewrite D. f_equal. apply char_below; assumption.
  - rewrite E. f_equal. destruct (Nat.lt_trichotomy r (count_below c gs)) as [L|[L|L]]; [|exact L|].
    + specialize (B r ltac:(lia)). lia.
    + specialize (A (count_below c gs) ltac:(lia)). lia.
Qed.

(** The start of the font piece after [pre]. *)
Definition start_after (pre : list (ssfont * Z)) : Z := last (map snd pre) ps.

Lemma first_glyph_of pre post cur : pa_runs p = pre ++ post ->
  run_first_glyph (shaped_of p cur) (length pre) = Ok (count_below (start_after pre) gs).
Proof.
  intros E. unfold run_first_glyph, start_after. destruct pre as [|x pre] using rev_ind.
  - cbn. f_equal. symmetry. apply count_below_none. pose proof OK as (_ & _ & F & _). eapply Forall_impl; [|exact F]. cbn. lia.
  - clear IHpre. rewrite app_length. cbn [length]. rewrite Nat.add_1_r. cbn [shaped_of sh_runs].
    rewrite E, <- app_assoc, map_app. cbn [app map].
    replace (length pre) with (length (map (lrun_of p) pre)) by apply map_length. rewrite vget_mid. unfold omap. cbn [obind lrun_of lr_gend].
    rewrite map_app. cbn [map]. rewrite last_last. reflexivity.
Qed.

Lemma increasing_cons a l : increasing (a :: l) -> Forall (fun b => a < b) l /\ increasing l.
Proof.
  revert a. induction l as [|b l IH]; intros a H; [split; constructor|].
  cbn in H. destruct H as [H1 H2]. split; [|exact H2]. constructor; [exact H1|].
  destruct (IH b H2) as [F _]. eapply Forall_impl; [|exact F]. cbn. lia.
Qed.
Lemma increasing_app l1 l2 : increasing (l1 ++ l2) -> increasing l1 /\ increasing l2 /\ forall a b, In a l1 -> In b l2 -> a < b.
Proof.
  induction l1 as [|a l1 IH]; intros H; [repeat split; auto; intros ? ? []|].
  cbn [app] in H. destruct (increasing_cons _ _ H) as [F I]. destruct (IH I) as (I1 & I2 & I3). split; [|split; [exact I2|]].
  - destruct l1 as [|b l1]; [exact Logic.I|]. cbn [app] in *. inversion F; subst. split; [assumption|exact I1].
  - intros x y [<-|X] Y; [|eauto]. rewrite Forall_forall in F. apply F. apply in_app_iff. auto.
Qed.

(** Piece boundaries around a font piece. *)
Lemma piece_bounds pre f e post : pa_runs p = pre ++ (f, e) :: post ->
  ps <= start_after pre /\ start_after pre < e <= pe /\ Forall (fun x => e < snd x) post.
Proof.
  intros E. pose proof OK as (_ & _ & _ & I & L). rewrite E, map_app in I, L. cbn [map snd] in I, L.
  change (ps :: map snd pre ++ e :: map snd post) with ((ps :: map snd pre) ++ e :: map snd post) in I.
  destruct (increasing_app _ _ I) as (I1 & I2 & I3). destruct (increasing_cons _ _ I2) as [F _].
  assert (S : In (start_after pre) (ps :: map snd pre)).
  { unfold start_after. destruct pre as [|x pre] using rev_ind; [left; reflexivity|]. right. rewrite last_map_snoc.
    apply in_map, in_app_iff. right. left. reflexivity. }
  split; [|split; [split|]].
  - destruct S as [<-|S]; [lia|]. destruct (increasing_cons _ _ I1) as [G _]. rewrite Forall_forall in G. specialize (G _ S). cbn in G; lia.
  - apply I3; [exact S|left; reflexivity].
  - rewrite (@last_app_ne Z _ _ ps ps) in L by discriminate. destruct post as [|x post] using rev_ind; [cbn in L; lia|].
    clear IHpost. rewrite map_app in L, F. cbn [map] in L, F. change (e :: map snd post ++ [snd x]) with ((e :: map snd post) ++ [snd x]) in L.
    rewrite last_last in L. apply Forall_app in F. destruct F as [_ F]. inversion F; subst. lia.
  - rewrite Forall_map in F. exact F.
Qed.

Lemma append_of pre f e post cur k cs ce reversed n rs : pa_runs p = pre ++ (f, e) :: post ->
  start_after pre <= cs -> cs <= ce -> ce < e ->
  length (lo_runs (wk_lay k)) = (n + length rs)%nat -> highest n rs (wk_high k) (wk_high_end k) -> INT_MIN < cs ->
  let v := (f, cs, ce + 1, reversed) in
  let r := visual_run code vertical p (wk_w k) v in
  exists k', append_visual_run vertical code (shaped_of p cur) k (length pre) cs ce reversed = Ok k' /\
    lsteps (wk_lay k) (run_ops r) = Ok (wk_lay k') /\ wk_w k' = wk_w k + total (piece_glyphs p v) /\
    length (lo_runs (wk_lay k')) = (n + length (rs ++ [r]))%nat /\
    highest n (rs ++ [r]) (wk_high k') (wk_high_end k').
Proof.
  intros E H1 H2 H3 LN HI HM v r. pose proof (piece_bounds _ _ _ _ E) as (B1 & B2 & B3).
  unfold append_visual_run. rewrite (first_glyph_of pre _ cur E). cbn [obind].
  assert (R : vget (sh_runs (shaped_of p cur)) (length pre) = Ok (lrun_of p (f, e))).
  { cbn [shaped_of sh_runs]. rewrite E, map_app. cbn [map].
    replace (length pre) with (length (map (lrun_of p) pre)) by apply map_length. apply vget_mid. }
  rewrite R. cbn [obind lrun_of lr_gend lr_font lr_end fst snd]. fold gs.
  pose proof (count_below_mono gs H1) as M1. pose proof (@count_below_mono cs (ce + 1) gs ltac:(lia)) as M2.
  pose proof (@count_below_mono (ce + 1) e gs ltac:(lia)) as M3. pose proof (count_below_le e gs) as M4.
  cbn [sh_chars shaped_of]. fold gs.
  destruct (if wk_high_end k <? ce then _ else _) as [high hend] eqn:EH.
  rewrite (@search_glyphs _ _ cs); [|lia|lia|reflexivity]. cbn [obind].
  rewrite (@search_glyphs _ _ (ce + 1)); [|lia|lia|intros; lia]. cbn [obind].
  set (idx := seq _ _).
  assert (F : Forall2 (fun i g => nth_error (pa_glyphs p) i = Some g) (if reversed then rev idx else idx) (piece_glyphs p v)).
  { unfold piece_glyphs, v, vp_start, vp_end, vp_rtl. cbn [fst snd].
    pose proof (@glyphs_in_seq p cs (ce + 1) sorted ltac:(lia)) as S. destruct reversed; [apply Forall2_rev|]; exact S. }
  destruct (@emit_of p cur _ _ (wk_lay k) (wk_w k) F) as (l' & E1 & E2).
  rewrite E1. cbn [obind].
  assert (V : vget (sh_sec (shaped_of p cur)) (count_below (ce + 1) gs) = Ok (sec_at p (ce + 1))).
  { cbn [shaped_of sh_sec]. unfold vget, sec_at. rewrite (nth_error_nth' _ 0); [reflexivity|].
    rewrite app_length, map_length. fold gs. cbn [length]. pose proof (count_below_le (ce + 1) gs). lia. }
  cbn [sh_sec shaped_of] in V. cbn [sh_sec shaped_of]. fold gs in V. fold gs. rewrite V. cbn [obind].
  eexists. split; [reflexivity|]. cbn [wk_lay wk_w wk_high wk_high_end].
  assert (ST : lsteps (wk_lay k) (run_ops r) =
    Ok (append_run (append_pos vertical l' (wk_w k + total (piece_glyphs p v)) (sec_at p (ce + 1))) (code f) cs (ce + 1) reversed)).
  { unfold run_ops, r, visual_run. cbn [sr_glyphs sr_font sr_start sr_end sr_rtl sr_end_x sr_end_y].
    rewrite lsteps_app, E2. cbn [obind lsteps lstep]. erewrite append_pos_placed by reflexivity. reflexivity. }
  split; [exact ST|]. split; [reflexivity|]. split.
  - rewrite run_steps in ST. apply (f_equal (fun o => match o with Ok l => length (lo_runs l) | _ => 0%nat end)) in ST.
    cbn [lo_runs] in ST. rewrite <- ST, !app_length, length_runs_of, LN. cbn [length]. lia.
  - assert (RE : sr_end r = ce + 1) by reflexivity.
    destruct (wk_high_end k <? ce) eqn:HC; injection EH as <- <-.
    + unfold highest. destruct (rs ++ [r]) as [|q l] eqn:EQ; [destruct rs; discriminate|]. rewrite <- EQ.
      exists r. rewrite LN. replace (n + length rs - n)%nat with (length rs) by lia.
      rewrite nth_error_app2, Nat.sub_diag by lia. split; [reflexivity|]. split; [lia|]. split; [lia|].
      apply Forall_app. split; [|constructor; [lia|constructor]].
      destruct rs as [|q' rs']; [constructor|]. destruct HI as (r0 & _ & _ & HE & HF).
      eapply Forall_impl; [|exact HF]. cbn. lia.
    + destruct rs as [|q' rs'].
      * destruct HI as [_ HI]. lia.
      * destruct HI as (r0 & N0 & L0 & HE & HF). cbn [app]. exists r0.
        change (q' :: rs' ++ [r]) with ((q' :: rs') ++ [r]).
        split; [rewrite nth_error_app1; [exact N0|apply nth_error_Some; congruence]|]. split; [exact L0|]. split; [exact HE|].
        apply Forall_app. split; [exact HF|]. constructor; [lia|constructor].
Qed.

(** ** One bidi run *)

(** The walk over some pieces: what it must leave. *)
Definition walked (n : nat) (rs : list srun) (k : walk) (vs : list vpiece) (k' : walk) : Prop :=
  let new := visual_runs code vertical p (wk_w k) vs in
  lsteps (wk_lay k) (flat_map run_ops new) = Ok (wk_lay k') /\
  wk_w k' = wk_w k + total (flat_map (piece_glyphs p) vs) /\
  length (lo_runs (wk_lay k')) = (n + length (rs ++ new))%nat /\
  highest n (rs ++ new) (wk_high k') (wk_high_end k').
Definition ready (n : nat) (rs : list srun) (k : walk) : Prop :=
  length (lo_runs (wk_lay k)) = (n + length rs)%nat /\ highest n rs (wk_high k) (wk_high_end k).

Lemma total_app a b : total (a ++ b) = total a + total b.
Proof. unfold total. induction a; cbn [app fold_right]; lia. Qed.

Lemma walked_ready n rs k vs k' : walked n rs k vs k' -> ready n (rs ++ visual_runs code vertical p (wk_w k) vs) k'.
Proof. intros (_ & _ & H1 & H2). split; assumption. Qed.
Lemma visual_runs_app w a b : visual_runs code vertical p w (a ++ b) =
  visual_runs code vertical p w a ++ visual_runs code vertical p (w + total (flat_map (piece_glyphs p) a)) b.
Proof.
  revert w. induction a as [|v a IH]; intros w; cbn [app visual_runs flat_map].
  - f_equal. unfold total. cbn. lia.
  - rewrite IH, total_app. do 3 f_equal. lia.
Qed.
Lemma walked_app n rs k vs1 k1 vs2 k2 : walked n rs k vs1 k1 ->
  walked n (rs ++ visual_runs code vertical p (wk_w k) vs1) k1 vs2 k2 -> walked n rs k (vs1 ++ vs2) k2.
Proof.
  intros (A1 & A2 & A3 & A4) (B1 & B2 & B3 & B4). unfold walked. rewrite visual_runs_app. rewrite A2 in *.
  split; [|split; [|split]].
  - rewrite flat_map_app, lsteps_app, A1. exact B1.
  - rewrite flat_map_app, total_app. lia.
  - rewrite app_assoc. exact B3.
  - rewrite app_assoc. exact B4.
Qed.

Lemma append_walked pre f e post cur k cs ce reversed n rs : pa_runs p = pre ++ (f, e) :: post ->
  start_after pre <= cs -> cs <= ce -> ce < e -> ready n rs k -> INT_MIN < cs ->
  exists k', append_visual_run vertical code (shaped_of p cur) k (length pre) cs ce reversed = Ok k' /\
    walked n rs k [(f, cs, ce + 1, reversed)] k'.
Proof.
  intros E H1 H2 H3 [R1 R2] HM. destruct (@append_of pre f e post cur k cs ce reversed n rs E H1 H2 H3 R1 R2 HM) as (k' & A & B & C & D & F).
  exists k'. split; [exact A|]. unfold walked. cbn [visual_runs flat_map]. rewrite !app_nil_r. auto.
Qed.

Definition grow_all (m : Q * Q) (vs : list vpiece) : Q * Q := fold_left (fun m v => grow m (info (vp_font v))) vs m.
Lemma grow_all_parts vs : forall a d, grow_all (a, d) vs = (fold_left higher (map (fun v => fo_ascent (info (vp_font v))) vs) a, fold_left lower (map (fun v => fo_descent (info (vp_font v))) vs) d).
Proof.
  induction vs as [|v vs IH]; intros a d; [reflexivity|]. unfold grow_all in *. cbn [fold_left map]. unfold grow at 2. cbn [fst snd]. rewrite IH. unfold qltb. f_equal; f_equal; [unfold higher|unfold lower]; destruct (Qle_bool _ _); reflexivity.
Qed.
Lemma grow_metrics vs : grow_all (0%Q, 0%Q) vs = line_metrics info vs.
Proof. apply grow_all_parts. Qed.

Lemma vget_lrun pre x post cur : pa_runs p = pre ++ x :: post -> vget (sh_runs (shaped_of p cur)) (length pre) = Ok (lrun_of p x).
Proof.
  intros E. cbn [shaped_of sh_runs]. rewrite E, map_app. cbn [map].
  replace (length pre) with (length (map (lrun_of p) pre)) by apply map_length. apply vget_mid.
Qed.

Lemma start_after_snoc pre f e : start_after (pre ++ [(f, e)]) = e.
Proof. unfold start_after. rewrite last_map_snoc. reflexivity. Qed.

Lemma walk_ltr_of cur re : re < pe -> forall post pre f e fuel k m c n rs, pa_runs p = pre ++ (f, e) :: post ->
  (length post < fuel)%nat -> start_after pre <= c < e -> c <= re -> ready n rs k -> INT_MIN < c ->
  let vs := map (fun x => (x, false)) (pieces ((f, e) :: post) c (re + 1)) in
  exists k', walk_ltr info vertical code fuel (shaped_of p cur) k m (length pre) c re = Ok (k', grow_all m vs) /\ walked n rs k vs k'.
Proof.
  intros RE. induction post as [|[f2 e2] post IH]; intros pre f e fuel k m c n rs E FU HC HR RD HM vs;
    (destruct fuel as [|fuel]; [lia|]); pose proof (piece_bounds _ _ _ _ E) as (B1 & B2 & B3); cbn [walk_ltr];
    rewrite (@vget_lrun pre (f, e) _ cur E); cbn [obind lrun_of lr_font lr_end fst snd];
    unfold vs; cbn [pieces]; rewrite (proj2 (Z.leb_gt e c)) by lia.
  - assert (e = pe).
    { pose proof OK as (_ & _ & _ & _ & L). rewrite E, map_app in L. cbn [map snd] in L. rewrite last_last in L. exact L. }
    rewrite (proj2 (Z.ltb_lt re e)) by lia. rewrite (proj2 (Z.leb_le (re + 1) e)) by lia.
    destruct (@append_walked pre f e [] cur k c re false n rs E) as (k' & A & W); [lia..|exact RD|lia|].
    rewrite A. cbn [obind map]. exists k'. split; [reflexivity|exact W].
  - destruct (re <? e) eqn:C.
    + rewrite (proj2 (Z.leb_le (re + 1) e)) by lia.
      destruct (@append_walked pre f e _ cur k c re false n rs E) as (k' & A & W); [lia..|exact RD|lia|].
      rewrite A. cbn [obind map]. exists k'. split; [reflexivity|exact W].
    + rewrite (proj2 (Z.leb_gt (re + 1) e)) by lia.
      destruct (@append_walked pre f e _ cur k c (e - 1) false n rs E) as (k1 & A & W); [lia..|exact RD|lia|].
      rewrite A. cbn [obind map]. replace (e - 1 + 1) with e in W by lia.
      assert (E' : pa_runs p = (pre ++ [(f, e)]) ++ (f2, e2) :: post) by (rewrite <- app_assoc; exact E).
      pose proof (piece_bounds _ _ _ _ E') as (_ & B2' & _). rewrite start_after_snoc in B2'.
      replace (length pre + 1)%nat with (length (pre ++ [(f, e)])) by (rewrite app_length; reflexivity).
      destruct (IH (pre ++ [(f, e)]) f2 e2 fuel k1 (grow m (info f)) e n (rs ++ visual_runs code vertical p (wk_w k) [(f, c, e, false)]) E') as (k' & A' & W').
      * cbn [length] in FU. lia.
      * rewrite start_after_snoc. lia.
      * lia.
      * exact (walked_ready W).
      * lia.
      * exists k'. rewrite A'. split; [reflexivity|]. exact (walked_app W W').
Qed.

(** Cutting a range at the end of a prefix of the font pieces. *)
Lemma pieces_snoc f e a b : forall pre, increasing (map snd pre ++ [e]) -> a < b -> b <= e ->
  (forall x, In x pre -> snd x <= a) \/ (exists y pre', pre = pre' ++ [y] /\ a < snd y < b) ->
  pieces (pre ++ [(f, e)]) a b =
    if last (map snd pre) a <=? a then [(f, a, b)] else pieces pre a (last (map snd pre) a) ++ [(f, last (map snd pre) a, b)].
Proof.
  intros pre I AB BE H.
  assert (S1 : forall pre, (forall x, In x pre -> snd x <= a) -> pieces (pre ++ [(f, e)]) a b = [(f, a, b)]).
  { intros q Q. induction q as [|[f1 e1] q IH]; cbn [app pieces].
    - rewrite (proj2 (Z.leb_gt e a)) by lia. rewrite (proj2 (Z.leb_le b e)) by lia. reflexivity.
    - rewrite (proj2 (Z.leb_le e1 a)) by exact (Q (f1, e1) (or_introl eq_refl)). apply IH. intros x X. apply Q. right. exact X. }
  destruct H as [H|(y & pre' & -> & H)].
  - rewrite S1 by exact H. replace (last (map snd pre) a <=? a) with true; [reflexivity|]. symmetry. apply Z.leb_le.
    destruct pre as [|x pre] using rev_ind; [cbn; lia|]. rewrite last_map_snoc. apply H. apply in_app_iff. right. left. reflexivity.
  - rewrite last_map_snoc. rewrite (proj2 (Z.leb_gt (snd y) a)) by lia. destruct y as [f1 e1]. cbn [snd] in *.
    rewrite map_app in I. cbn [map snd] in I.
    revert a AB H S1. induction pre' as [|[f0 e0] pre' IH]; intros a AB H S1; cbn [app pieces].
    + rewrite (proj2 (Z.leb_gt e1 a)) by lia. rewrite (proj2 (Z.leb_gt b e1)) by lia. rewrite (proj2 (Z.leb_le e1 e1)) by lia.
      rewrite (proj2 (Z.leb_gt e e1)) by lia. rewrite (proj2 (Z.leb_le b e)) by lia. reflexivity.
    + cbn [map app snd] in I. rewrite <- app_assoc in I. destruct (increasing_cons _ _ I) as [F I']. rewrite app_assoc in I'.
      assert (e0 < e1) by (rewrite Forall_forall in F; apply F; apply in_app_iff; right; left; reflexivity).
      destruct (e0 <=? a) eqn:C.
      * apply IH; assumption.
      * rewrite (proj2 (Z.leb_gt b e0)) by lia. rewrite (proj2 (Z.leb_gt e1 e0)) by lia. cbn [app]. f_equal.
        apply IH; try assumption; try lia. intros q Q. clear -H H0 BE Q C. assert (e0 < b) by lia. induction q as [|[f2 e2] q IH]; cbn [app pieces].
        -- rewrite (proj2 (Z.leb_gt e e0)) by lia. rewrite (proj2 (Z.leb_le b e)) by lia. reflexivity.
        -- rewrite (proj2 (Z.leb_le e2 e0)) by exact (Q (f2, e2) (or_introl eq_refl)). apply IH. intros x X. apply Q. right. exact X.
Qed.

Lemma walk_rtl_of cur rs0 : ps <= rs0 -> 0 <= ps -> forall pre f e post fuel k m c n rs, pa_runs p = pre ++ (f, e) :: post ->
  (length pre < fuel)%nat -> start_after pre <= c < e -> rs0 <= c -> ready n rs k ->
  let vs := map (fun x => (x, true)) (rev (pieces (pre ++ [(f, e)]) rs0 (c + 1))) in
  exists k', walk_rtl info vertical code fuel (shaped_of p cur) k m (length pre) c rs0 = Ok (k', grow_all m vs) /\ walked n rs k vs k'.
Proof.
  intros RS P0. induction pre as [|[f0 e0] pre IH] using rev_ind; intros f e post fuel k m c n rs E FU HC HR RD vs;
    (destruct fuel as [|fuel]; [lia|]); pose proof (piece_bounds _ _ _ _ E) as (B1 & B2 & B3); cbn [walk_rtl].
  - cbn [length]. change (vget (sh_runs (shaped_of p cur)) 0) with (vget (sh_runs (shaped_of p cur)) (length (@nil (ssfont * Z)))).
    rewrite (@vget_lrun [] (f, e) post cur E). cbn [obind lrun_of lr_font lr_end fst snd].
    rewrite (proj2 (Z.leb_le 0 rs0)) by lia.
    assert (VS : vs = [(f, rs0, c + 1, true)]).
    { unfold vs. cbn [app pieces]. rewrite (proj2 (Z.leb_gt e rs0)) by lia. rewrite (proj2 (Z.leb_le (c + 1) e)) by lia. reflexivity. }
    destruct (@append_walked [] f e post cur k rs0 c true n rs E) as (k' & A & W); [change (start_after []) with ps; lia|lia|lia|exact RD|unfold INT_MIN; lia|].
    cbn [length] in A. rewrite A. cbn [obind]. exists k'. rewrite VS. split; [reflexivity|exact W].
  - rewrite start_after_snoc in *.
    assert (E' : pa_runs p = pre ++ (f0, e0) :: (f, e) :: post) by (rewrite E, <- app_assoc; reflexivity).
    rewrite app_length, Nat.add_1_r in *. cbn [length].
    rewrite (@vget_lrun pre (f0, e0) _ cur E'). unfold omap at 1. cbn [obind lrun_of lr_end fst snd].
    pose proof (@vget_lrun (pre ++ [(f0, e0)]) (f, e) post cur E) as VR. rewrite app_length, Nat.add_1_r in VR.
    rewrite VR. cbn [obind lrun_of lr_font lr_end fst snd].
    assert (I : increasing (map snd (pre ++ [(f0, e0)]) ++ [e])).
    { pose proof OK as (_ & _ & _ & I & _). rewrite E, map_app in I. cbn [map snd] in I.
      change (ps :: map snd (pre ++ [(f0, e0)]) ++ e :: map snd post) with ((ps :: map snd (pre ++ [(f0, e0)])) ++ [e] ++ map snd post) in I.
      rewrite app_assoc in I. apply increasing_app in I. destruct I as [I _]. cbn [app] in I. apply increasing_cons in I. tauto. }
    assert (AP : forall x, In x (pre ++ [(f0, e0)]) -> snd x <= e0).
    { intros x X. apply in_app_iff in X. destruct X as [X|[<-|[]]]; [|cbn; lia].
      rewrite map_app, <- app_assoc in I. apply increasing_app in I. destruct I as (_ & _ & I).
      specialize (I (snd x) e0). cbn [map snd] in I. assert (snd x < e0); [|lia]. apply I; [apply in_map; exact X|left; reflexivity]. }
    destruct (e0 <=? rs0) eqn:C.
    + assert (VS : vs = [(f, rs0, c + 1, true)]).
      { unfold vs. rewrite (@pieces_snoc f e rs0 (c + 1) (pre ++ [(f0, e0)]) I); [|lia|lia|left; intros x X; specialize (AP x X); lia].
        rewrite last_map_snoc. cbn [snd]. rewrite C. reflexivity. }
      destruct (@append_walked (pre ++ [(f0, e0)]) f e post cur k rs0 c true n rs E) as (k' & A & W);
        [rewrite start_after_snoc; lia|lia|lia|exact RD|unfold INT_MIN; lia|].
      rewrite app_length, Nat.add_1_r in A. rewrite A. cbn [obind]. exists k'. rewrite VS. split; [reflexivity|exact W].
    + assert (VS : vs = (f, e0, c + 1, true) :: map (fun x => (x, true)) (rev (pieces (pre ++ [(f0, e0)]) rs0 e0))).
      { unfold vs. rewrite (@pieces_snoc f e rs0 (c + 1) (pre ++ [(f0, e0)]) I); [|lia|lia|right; exists (f0, e0), pre; split; [reflexivity|cbn [snd]; lia]].
        rewrite last_map_snoc. cbn [snd]. rewrite C. rewrite rev_app_distr. reflexivity. }
      destruct (@append_walked (pre ++ [(f0, e0)]) f e post cur k e0 c true n rs E) as (k1 & A & W);
        [rewrite start_after_snoc; lia|lia|lia|exact RD|unfold INT_MIN; lia|].
      rewrite app_length, Nat.add_1_r in A. rewrite A. cbn [obind].
      pose proof (piece_bounds _ _ _ _ E') as (_ & B2' & _).
      destruct (IH f0 e0 _ fuel k1 (grow m (info f)) (e0 - 1) n (rs ++ visual_runs code vertical p (wk_w k) [(f, e0, c + 1, true)]) E') as (k' & A' & W').
      * lia.
      * lia.
      * lia.
      * exact (walked_ready W).
      * exists k'. rewrite A'. replace (e0 - 1 + 1) with e0 in W' by lia. replace (e0 - 1 + 1) with e0 by lia. rewrite VS.
        split; [reflexivity|]. exact (walked_app W W').
Qed.

Lemma split_at x : ps <= x < pe -> exists pre f e post, pa_runs p = pre ++ (f, e) :: post /\ start_after pre <= x < e /\
  forall y, In y pre -> snd y <= x.
Proof.
  intros H. pose proof OK as (_ & _ & _ & I & L).
  assert (G : forall (rs : list (ssfont * Z)) q, increasing (q :: map snd rs) -> q <= x -> x < last (map snd rs) q ->
    exists pre f e post, rs = pre ++ (f, e) :: post /\ last (map snd pre) q <= x < e /\ forall y, In y pre -> snd y <= x).
  { induction rs as [|[f e] rs IH]; intros q I' Q LL; [cbn in LL; lia|]. cbn [map snd] in *.
    destruct (Z.ltb_spec x e) as [C|C].
    - exists [], f, e, rs. cbn. split; [reflexivity|]. split; [lia|]. intros y [].
    - destruct (increasing_cons _ _ I') as [_ I2]. destruct (IH e I2 C) as (pre & f' & e' & post & -> & B & C').
      + destruct rs as [|z rs] using rev_ind; [cbn in LL; lia|]. rewrite last_map_snoc.
        change (e :: map snd (rs ++ [z])) with (map snd (((f, e) :: rs) ++ [z])) in LL. rewrite last_map_snoc in LL. exact LL.
      + exists ((f, e) :: pre), f', e', post. split; [reflexivity|]. split.
        * destruct pre as [|z pre] using rev_ind; [cbn in *; lia|]. rewrite last_map_snoc in B.
          change ((f, e) :: pre ++ [z]) with (((f, e) :: pre) ++ [z]). rewrite last_map_snoc. exact B.
        * intros y [<-|Y]; [exact C|apply C'; exact Y]. }
  destruct (G (pa_runs p) ps I) as (pre & f & e & post & E & B & C); [lia|lia|].
  exists pre, f, e, post. auto.
Qed.

Lemma search_runs pre f e post cur x : pa_runs p = pre ++ (f, e) :: post -> (forall y, In y pre -> snd y <= x) -> x < e ->
  binary_search 0 (length (sh_runs (shaped_of p cur))) (fun i => omap (fun r => lr_end r <=? x) (vget (sh_runs (shaped_of p cur)) i)) = Ok (length pre).
Proof.
  intros E A B. pose proof (piece_bounds _ _ _ _ E) as (_ & _ & F).
  assert (V : forall i, (i < length (pa_runs p))%nat -> omap (fun r => lr_end r <=? x) (vget (sh_runs (shaped_of p cur)) i) = Ok (i <? length pre)%nat).
  { intros i Hi. cbn [shaped_of sh_runs]. unfold vget. rewrite nth_error_map.
    destruct (nth_error (pa_runs p) i) as [y|] eqn:Y; [|apply nth_error_None in Y; lia]. cbn [option_map omap obind]. f_equal.
    cbn [lrun_of lr_end]. rewrite E in Y. destruct (Nat.ltb_spec i (length pre)) as [C|C].
    - rewrite nth_error_app1 in Y by exact C. apply nth_error_In in Y. specialize (A y Y). lia.
    - rewrite nth_error_app2 in Y by exact C. apply nth_error_In in Y. destruct Y as [<-|Y]; [cbn [snd]; lia|].
      rewrite Forall_forall in F. specialize (F y Y). cbn in F. lia. }
  assert (LN : length (sh_runs (shaped_of p cur)) = length (pa_runs p)) by (cbn [shaped_of sh_runs]; apply map_length).
  assert (LP : (length pre < length (pa_runs p))%nat) by (rewrite E, app_length; cbn [length]; lia).
  rewrite LN.
  destruct (@binary_search_partition 0 (length (pa_runs p)) (fun i => (i <? length pre)%nat)) with
    (cond := fun i => omap (fun r => lr_end r <=? x) (vget (sh_runs (shaped_of p cur)) i)) as (r & ER & R & P1 & P2).
  - intros i j Hi Hij Hj J. lia.
  - intros i Hi. apply V. lia.
  - rewrite ER. f_equal. destruct (Nat.lt_trichotomy r (length pre)) as [L|[L|L]]; [|exact L|].
    + specialize (P2 r ltac:(lia)). lia.
    + specialize (P1 (length pre) ltac:(lia)). lia.
Qed.

Lemma pieces_skip a b post : forall pre, (forall y, In y pre -> snd y <= a) -> pieces (pre ++ post) a b = pieces post a b.
Proof.
  induction pre as [|[f e] pre IH]; intros H; [reflexivity|]. cbn [app pieces].
  rewrite (proj2 (Z.leb_le e a)) by exact (H (f, e) (or_introl eq_refl)). apply IH. intros y Y. apply H. right. exact Y.
Qed.
Lemma pieces_stop f e post b : b <= e -> forall pre a, a < b -> pieces (pre ++ (f, e) :: post) a b = pieces (pre ++ [(f, e)]) a b.
Proof.
  intros BE. induction pre as [|[f0 e0] pre IH]; intros a AB; cbn [app pieces].
  - rewrite (proj2 (Z.leb_gt e a)) by lia. rewrite (proj2 (Z.leb_le b e)) by lia. reflexivity.
  - destruct (e0 <=? a); [apply IH; exact AB|]. destruct (b <=? e0) eqn:C; [reflexivity|]. f_equal. apply IH. lia.
Qed.

Lemma walked_nil n rs k : ready n rs k -> walked n rs k [] k.
Proof.
  intros [A B]. unfold walked. cbn [visual_runs flat_map lsteps]. rewrite app_nil_r. split; [reflexivity|].
  split; [change (total []) with 0; lia|]. auto.
Qed.

Lemma walk_bidi_of cur : forall bs k m n rs, Forall (fun b => ps <= fst (fst b) /\ 0 < snd (fst b) /\ fst (fst b) + snd (fst b) <= pe) bs ->
  ready n rs k ->
  exists k', walk_bidi info vertical code (shaped_of p cur) k m bs = Ok (k', grow_all m (line_pieces p bs)) /\
    walked n rs k (line_pieces p bs) k'.
Proof.
  induction bs as [|[[s len] level] bs IH]; intros k m n rs F RD.
  - exists k. split; [reflexivity|apply walked_nil; exact RD].
  - inversion F as [|b' bs' (H1 & H2 & H3) F']; subst. cbn [fst snd] in *. cbn [walk_bidi line_pieces flat_map].
    assert (P0 : 0 <= ps) by (pose proof OK as (P0 & _); exact P0).
    assert (X : exists k1, (if Z.odd level
       then do run <- binary_search 0 (length (sh_runs (shaped_of p cur))) (fun i => omap (fun r => lr_end r <=? s + len - 1) (vget (sh_runs (shaped_of p cur)) i));
            walk_rtl info vertical code (S (length (sh_runs (shaped_of p cur)))) (shaped_of p cur) k m run (s + len - 1) s
       else do run <- binary_search 0 (length (sh_runs (shaped_of p cur))) (fun i => omap (fun r => lr_end r <=? s) (vget (sh_runs (shaped_of p cur)) i));
            walk_ltr info vertical code (S (length (sh_runs (shaped_of p cur)))) (shaped_of p cur) k m run s (s + len - 1))
       = Ok (k1, grow_all m (bidi_pieces p (s, len, level))) /\ walked n rs k (bidi_pieces p (s, len, level)) k1).
    { assert (LN : length (sh_runs (shaped_of p cur)) = length (pa_runs p)) by (cbn [shaped_of sh_runs]; apply map_length).
      unfold bidi_pieces. destruct (Z.odd level).
      - destruct (@split_at (s + len - 1)) as (pre & f & e & post & E & B & C); [lia|].
        rewrite (@search_runs pre f e post cur (s + len - 1) E C) by lia. cbn [obind].
        destruct (@walk_rtl_of cur s ltac:(lia) P0 pre f e post (S (length (sh_runs (shaped_of p cur)))) k m (s + len - 1) n rs E) as (k1 & A & W);
          [rewrite LN, E, app_length; lia|lia|lia|exact RD|].
        exists k1. rewrite E. rewrite pieces_stop by lia. replace (s + len - 1 + 1) with (s + len) in A, W by lia. split; [exact A|exact W].
      - destruct (@split_at s) as (pre & f & e & post & E & B & C); [lia|].
        rewrite (@search_runs pre f e post cur s E C) by lia. cbn [obind].
        destruct (@walk_ltr_of cur (s + len - 1) ltac:(lia) post pre f e (S (length (sh_runs (shaped_of p cur)))) k m s n rs E) as (k1 & A & W);
          [rewrite LN, E, app_length; cbn [length]; lia|lia|lia|exact RD|unfold INT_MIN; lia|].
        exists k1. rewrite E. rewrite pieces_skip by exact C. replace (s + len - 1 + 1) with (s + len) in A, W by lia. split; [exact A|exact W]. }
    destruct X as (k1 & A & W). rewrite A. cbn [obind].
    destruct (IH k1 (grow_all m (bidi_pieces p (s, len, level))) n _ F' (walked_ready W)) as (k' & A' & W').
    exists k'. rewrite A'. split.
    + do 2 f_equal. unfold grow_all. rewrite fold_left_app. reflexivity.
    + exact (walked_app W W').
Qed.

(** ** The line *)
Lemma pieces_nonempty a b : ps <= a -> a < b -> b <= pe -> pieces (pa_runs p) a b <> [].
Proof.
  intros H1 H2 H3. destruct (@split_at a) as (pre & f & e & post & E & B & C); [lia|]. rewrite E, pieces_skip by exact C.
  cbn [pieces]. rewrite (proj2 (Z.leb_gt e a)) by lia. destruct (b <=? e); discriminate.
Qed.

Lemma consecutive_bounds : forall bs a b, consecutive a b bs -> a <= b /\
  Forall (fun r => a <= fst (fst r) /\ 0 < snd (fst r) /\ fst (fst r) + snd (fst r) <= b) bs.
Proof.
  induction bs as [|[[s n] lv] bs IH]; intros a b H; cbn in H.
  - subst. split; [lia|constructor].
  - destruct H as (-> & H1 & H2). destruct (IH _ _ H2) as [H3 F]. split; [lia|]. constructor; [cbn; lia|].
    eapply Forall_impl; [|exact F]. cbn. intros. lia.
Qed.
Lemma bidi_bounds bs a b : bidi_partition a b bs -> a <= b /\
  Forall (fun r => a <= fst (fst r) /\ 0 < snd (fst r) /\ fst (fst r) + snd (fst r) <= b) bs.
Proof.
  intros (bs' & P & C). destruct (consecutive_bounds _ _ _ C) as [H F]. split; [exact H|].
  eapply Permutation_Forall; [exact P|exact F].
Qed.

Lemma visual_runs_nonempty w vs : vs <> [] -> visual_runs code vertical p w vs <> [].
Proof. destruct vs; [contradiction|]. discriminate. Qed.

Lemma line_steps_any d s y : sl_runs s <> [] -> lsteps (layout_of d y) (line_ops s) = Ok (layout_of (d ++ [plain_line s]) y).
Proof.
  intros H. unfold line_ops. rewrite lsteps_app, runs_steps. cbn [obind lsteps lstep].
  unfold append_line. cbn [lo_runs lo_lines lo_glyphs lo_chars lo_pos lo_start_y layout_of].
  rewrite map_length. change (length (doc_glyphs d)) with (count_glyphs (doc_runs d)).
  set (old := doc_runs d).
  replace (runs_of 0 old ++ runs_of (count_glyphs old) (map (set_offset 0) (sl_runs s)))
    with (runs_of 0 (old ++ map (set_offset 0) (sl_runs s)))
    by (rewrite runs_of_app; f_equal; f_equal; lia).
  destruct (exists_last H) as (rs & r & E). rewrite E, map_app. cbn [map].
  rewrite !app_assoc. rewrite vback_runs_of. cbn [obind ru_glyph_end].
  rewrite length_runs_of. cbn [Nat.add].
  replace (flat_map run_pos old ++ flat_map run_pos (rs ++ [r]))
    with (flat_map run_pos ((old ++ map (set_offset 0) rs) ++ [set_offset 0 r])).
  2:{ rewrite <- app_assoc. rewrite (flat_map_app _ old). f_equal.
      change [set_offset 0 r] with (map (set_offset 0) [r]). rewrite <- map_app. apply flat_map_pos_offset. }
  rewrite vget_last_pos. cbn [obind].
  unfold doc_lines. rewrite next_descent_of.
  assert (R : doc_runs (d ++ [plain_line s]) = (old ++ map (set_offset 0) rs) ++ [set_offset 0 r]).
  { unfold old. rewrite doc_runs_app. unfold doc_runs at 2. cbn [flat_map plain_line sl_runs].
    rewrite app_nil_r, E, map_app. cbn [map]. rewrite app_assoc. reflexivity. }
  assert (G : flat_map sr_glyphs ((old ++ map (set_offset 0) rs) ++ [set_offset 0 r])
              = flat_map sr_glyphs old ++ flat_map sr_glyphs (rs ++ [r])).
  { rewrite !flat_map_app, flat_map_set_offset, <- app_assoc. reflexivity. }
  unfold layout_of, doc_glyphs, doc_lines. rewrite R. do 2 f_equal.
  - rewrite lines_of_app. cbn [lines_of plain_line sl_runs sl_height sl_ascent].
    f_equal. do 2 f_equal.
    + fold old. rewrite !app_length, !map_length. try rewrite E. rewrite ?app_length. cbn [length]. lia.
    + unfold line_width. cbn [plain_line sl_runs]. rewrite E, map_app. cbn [map]. rewrite map_app. cbn [map].
      rewrite last_last. reflexivity.
  - rewrite <- map_app, G. reflexivity.
  - rewrite <- map_app, G. reflexivity.
Qed.

Lemma visual_runs_plain : forall vs w, map (set_offset 0) (visual_runs code vertical p w vs) = visual_runs code vertical p w vs.
Proof. induction vs as [|v vs IH]; intros w; cbn [visual_runs map]; [reflexivity|]. rewrite IH. reflexivity. Qed.
Lemma line_of_plain bs : plain_line (line_of code info vertical p bs) = line_of code info vertical p bs.
Proof. unfold plain_line, line_of. cbn [sl_runs sl_height sl_ascent]. rewrite visual_runs_plain. reflexivity. Qed.

Lemma line_of_nonempty bs a b : bidi_partition a b bs -> ps <= a -> a < b -> b <= pe -> sl_runs (line_of code info vertical p bs) <> [].
Proof.
  intros BP H1 H2 H3. destruct (bidi_bounds BP) as [_ FB].
  apply visual_runs_nonempty. destruct bs as [|[[s0 n0] lv] bs'].
  { destruct BP as (b' & P & C). apply Permutation_sym in P. apply Permutation_nil in P. subst. cbn in C. lia. }
  inversion FB as [|? ? (A1 & A2 & A3) _]; subst. cbn [fst snd] in *. cbn [line_pieces flat_map bidi_pieces].
  pose proof (@pieces_nonempty s0 (s0 + n0) ltac:(lia) ltac:(lia) ltac:(lia)) as PN.
  destruct (pieces (pa_runs p) s0 (s0 + n0)) as [|x l0] eqn:EP; [contradiction|].
  destruct (Z.odd lv); [|discriminate]. cbn [rev]. rewrite map_app. intros Q. apply app_eq_nil in Q. destruct Q as [Q _]. apply app_eq_nil in Q. destruct Q as [_ Q]. discriminate.
Qed.

Lemma compute_line_of (line_runs : Z -> Z -> Z -> list (Z * Z * Z)) cur pn d0 dp y ls le high hend :
  ps <= ls -> ls < le -> le <= pe -> bidi_partition ls le (line_runs pn ls (le - ls)) ->
  highest (length (doc_runs d0)) (doc_runs dp) high hend ->
  let s := line_of code info vertical p (line_runs pn ls (le - ls)) in
  exists high' hend', compute_line_visual_runs info vertical line_runs code (shaped_of p cur) pn (layout_of (d0 ++ dp) y) ls le high hend =
      Ok (layout_of (d0 ++ dp ++ [s]) y, high', hend') /\
    highest (length (doc_runs d0)) (doc_runs (dp ++ [s])) high' hend'.
Proof.
  intros H1 H2 H3 BP HI s. pose proof (line_of_nonempty BP H1 H2 H3) as NE. fold s in NE.
  set (bs := line_runs pn ls (le - ls)) in *. destruct (bidi_bounds BP) as [_ FB].
  unfold compute_line_visual_runs. fold bs.
  destruct (@walk_bidi_of cur bs {| wk_lay := layout_of (d0 ++ dp) y; wk_w := 0; wk_high := high; wk_high_end := hend |} (0%Q, 0%Q)
    (length (doc_runs d0)) (doc_runs dp)) as (k' & A & W).
  { eapply Forall_impl; [|exact FB]. cbn. intros. lia. }
  { split; [|exact HI]. cbn [wk_lay layout_of lo_runs]. rewrite length_runs_of, doc_runs_app, app_length. reflexivity. }
  rewrite A. cbn [obind]. destruct W as (W1 & W2 & W3 & W4). cbn [wk_lay wk_w] in *.
  change (visual_runs code vertical p 0 (line_pieces p bs)) with (sl_runs s) in *.
  rewrite grow_metrics.
  pose proof (@line_steps_any (d0 ++ dp) s y NE) as LS. unfold line_ops in LS. rewrite lsteps_app, W1 in LS. cbn [obind lsteps lstep] in LS.
  change (fst (line_metrics info (line_pieces p bs)) - snd (line_metrics info (line_pieces p bs)))%Q with (sl_height s).
  change (fst (line_metrics info (line_pieces p bs))) with (sl_ascent s).
  destruct (append_line (wk_lay k') (sl_height s) (sl_ascent s)) as [l'| |]; try discriminate LS. cbn [obind] in *. injection LS as LS.
  exists (wk_high k'), (wk_high_end k'). split.
  - rewrite LS. assert (PL : plain_line s = s) by apply line_of_plain. rewrite PL, <- app_assoc. reflexivity.
  - rewrite doc_runs_app. replace (doc_runs [s]) with (sl_runs s) by (unfold doc_runs; cbn [flat_map]; symmetry; apply app_nil_r). exact W4.
Qed.
End Para.
End Visual.
