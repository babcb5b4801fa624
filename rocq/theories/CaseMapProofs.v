From Verif Require Import Base BaseFacts BuilderModel LayoutSpec CaseMapModel CaseMapSpec.
Open Scope Z_scope.

Lemma size_app a b : size (a ++ b) = size a + size b.
Proof. unfold size. rewrite app_length. lia. Qed.
Lemma size_pos l : 0 <= size l.
Proof. unfold size. lia. Qed.

Lemma same_total ps : Forall same_size ps -> size (upper_text ps) = size (source ps).
Proof.
  induction 1 as [|p ps P _ IH]; [reflexivity|].
  unfold upper_text, source in *; cbn [map concat]. rewrite !size_app, IH.
  unfold same_size in P. unfold size at 1 3. rewrite P. reflexivity.
Qed.

Lemma app_cases {A} (a b c d : list A) : a ++ b = c ++ d ->
  (exists e, c = a ++ e /\ b = e ++ d) \/ (exists e, a = c ++ e /\ d = e ++ b).
Proof.
  revert c. induction a as [|x a IH]; intros c H; cbn in *.
  - left. exists c. auto.
  - destruct c as [|y c]; cbn in *.
    + right. exists (x :: a). auto.
    + inversion H; subst. destruct (IH _ H2) as [[e [-> ->]]|[e [-> ->]]]; [left|right]; exists e; auto.
Qed.

Lemma unchanged_same qs : Forall (fun q => pc_upper q = pc_source q) qs -> Forall same_size qs.
Proof. apply Forall_impl. intros q E. unfold same_size. rewrite E. reflexivity. Qed.

(** The span found begins at the same index in both texts. *)
Lemma find_same ps es (E : edits_of ps es) : forall p1 p2 c s,
  ps = p1 ++ p2 -> Forall same_size p1 -> 0 <= c < size (upper_text p1) ->
  exists x, find_source es (s + c) s s = Some (x, x).
Proof.
  induction E as [|p ps es E IH|qs ps es Q E IH]; intros p1 p2 c s Eq S C.
  - destruct p1; [|discriminate]. cbn in C. unfold size in C; cbn in C. lia.
  - destruct p1 as [|q p1]; cbn in Eq.
    { unfold size in C; cbn in C; lia. }
    inversion Eq; subst; clear Eq. inversion S; subst. cbn [find_source ed_old ed_new].
    unfold upper_text in C; cbn [map concat] in C. rewrite size_app in C. fold (upper_text p1) in C.
    assert (L : size (pc_upper q) = size (pc_source q)) by (unfold size; rewrite H1; reflexivity).
    destruct (Z.ltb_spec (s + c) (s + size (pc_source q))); [eexists; reflexivity|].
    replace (s + c) with ((s + size (pc_source q)) + (c - size (pc_source q))) by lia.
    rewrite L. eapply IH; [reflexivity|assumption|lia].
  - cbn [find_source ed_old ed_new].
    destruct (Z.ltb_spec (s + c) (s + size (source qs))); [eexists; reflexivity|].
    pose proof (same_total qs (unchanged_same qs Q)) as T.
    symmetry in Eq. destruct (app_cases _ _ _ _ Eq) as [[e [E1 E2]]|[e [E1 E2]]].
    + subst qs. rewrite <- T in H. unfold upper_text in *. rewrite map_app, concat_app, size_app in H.
      pose proof (size_pos (concat (map pc_upper e))). lia.
    + subst p1 ps. apply Forall_app in S. destruct S as [S1 S2].
      unfold upper_text in C. rewrite map_app, concat_app, size_app in C. fold (upper_text qs) (upper_text e) in C.
      replace (s + c) with ((s + size (source qs)) + (c - size (source qs))) by lia.
      eapply IH; [reflexivity|assumption|lia].
Qed.

Lemma back_up_to text start o : is_trail o = false -> forall n k,
  (k <= n)%nat -> zget text (start + Z.of_nat k) = Ok o ->
  (forall j, (k < j <= n)%nat -> exists b, zget text (start + Z.of_nat j) = Ok b /\ is_trail b = true) ->
  back_up text start n = Ok (Z.of_nat k).
Proof.
  intros OT n. induction n as [|n IH]; intros k K Zk T; cbn [back_up].
  - assert (k = 0%nat) by lia. subst. rewrite Zk. cbn [obind]. rewrite OT. reflexivity.
  - destruct (Nat.eq_dec k (S n)) as [->|D].
    + rewrite Zk. cbn [obind]. rewrite OT. reflexivity.
    + destruct (T (S n)) as [b [Zb Tb]]; [lia|]. rewrite Zb. cbn [obind]. rewrite Tb.
      apply IH; [lia|assumption|]. intros j J. apply T. lia.
Qed.

Lemma zget_at {A} (l : list A) i x : nth_error l i = Some x -> zget l (Z.of_nat i) = Ok x.
Proof.
  intros H. unfold zget, vget. destruct (Z.ltb_spec (Z.of_nat i) 0); [lia|].
  rewrite Nat2Z.id, H. reflexivity.
Qed.

(** The character that holds byte [c], when the sizes agree so far. *)
Lemma origin_at : forall p1 p2 c, Forall same_size p1 -> 0 <= c < size (upper_text p1) ->
  Forall (fun p => character (pc_source p)) p1 ->
  exists k, origin (p1 ++ p2) c = Some (Z.of_nat k) /\ (k <= Z.to_nat c)%nat /\
    (exists o, nth_error (source p1) k = Some o /\ is_trail o = false) /\
    (forall j, (k < j <= Z.to_nat c)%nat -> exists b, nth_error (source p1) j = Some b /\ is_trail b = true).
Proof.
  induction p1 as [|p p1 IH]; intros p2 c S C CH.
  { unfold size in C; cbn in C; lia. }
  inversion S; subst. inversion CH; subst.
  unfold upper_text in C; cbn [map concat] in C. rewrite size_app in C. fold (upper_text p1) in C.
  assert (L : size (pc_upper p) = size (pc_source p)) by (unfold size; rewrite H1; reflexivity).
  cbn [app origin]. unfold source; cbn [map concat]. fold (source p1).
  destruct (Z.ltb_spec c (size (pc_upper p))).
  - exists 0%nat. split; [reflexivity|]. split; [lia|].
    destruct H3 as [b [t [E [B T]]]]. rewrite E in *. cbn [app]. split; [exists b; split; [reflexivity|unfold is_trail, continues in *; lia]|].
    intros j J. unfold size in *. cbn [length] in *.
    rewrite L in H. destruct j as [|j]; [lia|]. cbn [nth_error].
    assert (Lj : (j < length t)%nat) by lia.
    rewrite nth_error_app1 by exact Lj.
    destruct (nth_error t j) as [x|] eqn:N; [|apply nth_error_None in N; lia].
    exists x. split; [reflexivity|]. rewrite Forall_forall in T. specialize (T x (nth_error_In _ _ N)). unfold is_trail, continues in *. lia.
  - destruct (IH p2 (c - size (pc_upper p)) H2) as [k [O1 [K [O2 T]]]]; [lia|assumption|].
    set (n := length (pc_source p)). exists (n + k)%nat.
    rewrite O1. cbn [option_map]. split; [f_equal; unfold size, n; lia|].
    assert (Sn : size (pc_upper p) = Z.of_nat n) by (rewrite L; reflexivity).
    split; [lia|]. split.
    + destruct O2 as [o [N B]]. exists o. split; [|assumption].
      rewrite nth_error_app2 by (fold n; lia). replace (n + k - length (pc_source p))%nat with k by (fold n; lia). assumption.
    + intros j J. destruct (T (j - n)%nat) as [b [N B]]; [lia|].
      exists b. split; [|assumption]. rewrite nth_error_app2 by (fold n; lia). fold n. assumption.
Qed.

Lemma small_wrap c : 0 <= c < 2 ^ 31 -> wrap32 c = c /\ to_int32 c = c.
Proof.
  intros C. unfold to_int32, wrap32. rewrite Z.mod_small by lia.
  destruct (Z.ltb_spec c (2 ^ 31)); lia.
Qed.

Lemma remap_kept p1 p2 es before after c :
  Forall (fun p => character (pc_source p)) p1 -> Forall same_size p1 -> edits_of (p1 ++ p2) es ->
  0 <= c < size (upper_text p1) -> size (upper_text p1) < 2 ^ 31 ->
  exists o, origin (p1 ++ p2) c = Some o /\
    remap_char_index (before ++ source (p1 ++ p2) ++ after) (size before) es c = Ok o.
Proof.
  intros CH S E C B.
  destruct (origin_at p1 p2 c S C CH) as [k [O1 [K [[o [N1 N2]] T]]]].
  exists (Z.of_nat k). split; [assumption|].
  unfold remap_char_index, find_source_index.
  destruct (small_wrap c) as [W1 W2]; [lia|]. rewrite W2.
  destruct (Z.ltb_spec c 0); [lia|].
  destruct (find_same _ _ E p1 p2 c 0 eq_refl S C) as [x X]. replace (0 + c) with c in X by lia. rewrite X.
  replace (wrap32 (x + wrap32 (c - x))) with c.
  2: { unfold wrap32. rewrite Zplus_mod_idemp_r. replace (x + (c - x)) with c by lia. symmetry. apply W1. }
  assert (AT : forall j b, nth_error (source p1) j = Some b -> zget (before ++ source (p1 ++ p2) ++ after) (size before + Z.of_nat j) = Ok b).
  { intros j b N. unfold size. rewrite <- Nat2Z.inj_add. apply zget_at.
    rewrite nth_error_app2 by lia. replace (length before + j - length before)%nat with j by lia.
    unfold source. rewrite map_app, concat_app, <- app_assoc. fold (source p1).
    rewrite nth_error_app1; [assumption|]. apply nth_error_Some. congruence. }
  eapply back_up_to; [exact N2|exact K|apply AT; exact N1|].
  intros j J. destruct (T j J) as [b [Nb Tb]]. exists b. split; [apply AT; assumption|assumption].
Qed.

Lemma origin_range : forall ps c o, Forall (fun p => character (pc_source p)) ps -> 0 <= c -> origin ps c = Some o -> 0 <= o < size (source ps).
Proof.
  induction ps as [|p ps IH]; intros c o CH C O1; [discriminate|]. inversion CH; subst. cbn [origin] in O1.
  unfold source; cbn [map concat]. rewrite size_app. fold (source ps).
  destruct (Z.ltb_spec c (size (pc_upper p))).
  - inversion O1; subst. destruct H1 as [b [t [E _]]]. rewrite E. unfold size. cbn [length]. pose proof (size_pos (source ps)). unfold size in *. lia.
  - destruct (origin ps (c - size (pc_upper p))) as [x|] eqn:X; [|discriminate]. cbn in O1. inversion O1; subst.
    apply IH in X; [|assumption|pose proof (size_pos (pc_upper p)); lia].
    pose proof (size_pos (pc_source p)). lia.
Qed.
Lemma origin_mono : forall ps a b x y, Forall (fun p => character (pc_source p)) ps -> 0 <= a <= b ->
  origin ps a = Some x -> origin ps b = Some y -> x <= y.
Proof.
  induction ps as [|p ps IH]; intros a b x y CH AB OA OB; [discriminate|]. inversion CH; subst. cbn [origin] in OA, OB.
  destruct (Z.ltb_spec a (size (pc_upper p))); destruct (Z.ltb_spec b (size (pc_upper p))); try lia.
  - inversion OA; inversion OB; subst. lia.
  - inversion OA; subst. destruct (origin ps (b - size (pc_upper p))) as [v|] eqn:V; [|discriminate].
    cbn in OB. inversion OB; subst. apply origin_range in V; [|assumption|pose proof (size_pos (pc_upper p)); lia].
    pose proof (size_pos (pc_source p)). lia.
  - destruct (origin ps (a - size (pc_upper p))) as [u|] eqn:U; [|discriminate].
    destruct (origin ps (b - size (pc_upper p))) as [v|] eqn:V; [|discriminate].
    cbn in OA, OB. inversion OA; inversion OB; subst.
    assert (u <= v); [|lia]. eapply IH; [assumption| |exact U|exact V]. lia.
Qed.

Lemma remap_all ps es before after :
  Forall (fun p => character (pc_source p)) ps -> Forall same_size ps -> edits_of ps es -> size (source ps) < 2 ^ 31 ->
  forall gs, Forall (fun g => 0 <= hb_cluster g < size (upper_text ps)) gs ->
  exists hs, remap_char_indices (before ++ source ps ++ after) (size before) es gs = Ok hs /\ Forall2 (moved ps) gs hs.
Proof.
  intros CH S E B gs. induction 1 as [|g gs G _ [hs [IH1 IH2]]].
  - exists []. split; [reflexivity|constructor].
  - destruct (remap_kept ps [] es before after (hb_cluster g)) as [o [O1 R]]; rewrite ?app_nil_r in *; try assumption.
    { rewrite same_total by assumption. assumption. }
    cbn [remap_char_indices]. rewrite R. cbn [obind]. rewrite IH1. cbn [obind].
    eexists. split; [reflexivity|]. constructor; [|assumption]. unfold moved; cbn. auto 10.
Qed.

Lemma moved_mono ps : Forall (fun p => character (pc_source p)) ps -> forall gs hs, Forall2 (moved ps) gs hs ->
  Forall (fun g => 0 <= hb_cluster g) gs -> nondecreasing (map hb_cluster gs) -> nondecreasing (map hb_cluster hs).
Proof.
  intros CH gs hs F. induction F as [|g h gs hs M F IH]; intros P N; [exact I|].
  inversion P; subst. destruct F as [|g' h' gs hs M' F]; [exact I|].
  cbn [map nondecreasing] in *. destruct N as [N1 N2]. split.
  - destruct M as [M _], M' as [M' _]. eapply origin_mono; [exact CH| |exact M|exact M']. lia.
  - apply IH; assumption.
Qed.

Lemma Forall2_rev' {A B} (R : A -> B -> Prop) l l' : Forall2 R l l' -> Forall2 R (rev l) (rev l').
Proof. induction 1; cbn; [constructor|]. apply Forall2_app; auto. Qed.
Lemma moved_range ps : Forall (fun p => character (pc_source p)) ps -> forall gs hs, Forall2 (moved ps) gs hs ->
  Forall (fun g => 0 <= hb_cluster g) gs -> Forall (fun h => 0 <= hb_cluster h < size (source ps)) hs.
Proof.
  intros CH gs hs F. induction F as [|g h gs hs M F IH]; intros P; [constructor|]. inversion P; subst.
  constructor; [|auto]. destruct M as [M _]. eapply origin_range; [exact CH| |exact M]. assumption.
Qed.

Lemma back_up_out text start n : Z.of_nat (length text) <= start + Z.of_nat n -> back_up text start n = UB.
Proof.
  intros H. destruct n; cbn [back_up]; (replace (zget text (start + Z.of_nat _)) with (@UB Z); [reflexivity|]);
    unfold zget, vget; destruct (Z.ltb_spec (start + Z.of_nat 0) 0); try reflexivity;
    try (destruct (Z.ltb_spec (start + Z.of_nat (S n)) 0); try reflexivity);
    try (rewrite (proj2 (nth_error_None _ _)) by lia; reflexivity).
Qed.
