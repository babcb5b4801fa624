From Verif Require Import Base BaseFacts BinarySearchModel BinarySearchProofs ValueRunsModel ValueRunsSpec.
Set Implicit Arguments.
Open Scope Z_scope.

(** ** Tables *)

Definition represents {T} (rv : runs_view T) (t : table T) : Prop :=
  rv_count rv = length t /\
  (forall i, rv_limit rv i = vget (map fst t) i) /\
  (forall i, rv_value rv i = vget (map snd t) i).

Lemma sorted_nth {T} (t : table T) : sorted t ->
  forall i j a b, (i <= j)%nat ->
  nth_error (map fst t) i = Some a -> nth_error (map fst t) j = Some b -> a <= b.
Proof.
  unfold sorted. generalize (map fst t). clear t. intros l H.
  induction H as [|x l Hs IH Hf]; intros i j a b Hij Ha Hb.
  - destruct i; discriminate.
  - destruct i as [|i], j as [|j]; cbn in *; try lia.
    + assert (a = b) by congruence. lia.
    + injection Ha as <-. rewrite Forall_forall in Hf. apply Hf. eapply nth_error_In; eauto.
    + eapply IH with (i := i) (j := j); eauto. lia.
Qed.

Lemma sorted_tl {T} p (t : table T) : sorted (p :: t) -> sorted t.
Proof. unfold sorted. cbn. intros H. inversion H; auto. Qed.

Lemma sorted_hd {T} p (t : table T) : sorted (p :: t) -> forall q, In q t -> fst p <= fst q.
Proof.
  unfold sorted. cbn. intros H q Hq. inversion H as [|? ? ? Hf]; subst.
  rewrite Forall_forall in Hf. apply Hf. now apply in_map.
Qed.

Lemma strictly_sorted_sorted {T} (t : table T) : strictly_sorted t -> sorted t.
Proof.
  unfold strictly_sorted, sorted. generalize (map fst t). intros l H.
  induction H as [|x l Hs IH Hf]; constructor; auto.
  eapply Forall_impl; [|exact Hf]. cbn. intros; lia.
Qed.

Lemma runs_before_le {T} (t : table T) i : (runs_before t i <= length t)%nat.
Proof. induction t as [|[l v] t IH]; cbn; auto. destruct (l <=? i); lia. Qed.

Lemma runs_before_lt_iff {T} (t : table T) i : sorted t ->
  forall k l, nth_error (map fst t) k = Some l -> ((k < runs_before t i)%nat <-> l <= i).
Proof.
  intros Hs. induction t as [|[l0 v] t IH]; intros k l Hk.
  - destruct k; discriminate.
  - cbn [runs_before]. destruct (Z.leb_spec l0 i) as [Hle|Hgt].
    + destruct k as [|k]; cbn in Hk.
      * injection Hk as <-. split; intros; lia.
      * rewrite <- (IH (sorted_tl Hs) k l Hk). split; lia.
    + split; [lia|]. intros Hl.
      assert (l0 <= l).
      { eapply (@sorted_nth _ ((l0, v) :: t) Hs 0%nat k); eauto; try lia. }
      lia.
Qed.

Lemma lookup_runs_before {T} (t : table T) i :
  lookup t i = nth_error (map snd t) (runs_before t i).
Proof.
  induction t as [|[l v] t IH]; cbn; auto.
  destruct (Z.ltb_spec i l), (Z.leb_spec l i); try lia; cbn; auto.
Qed.

Lemma lookup_None_iff {T} (t : table T) i : sorted t ->
  (lookup t i = None <-> forall l, In l (map fst t) -> l <= i).
Proof.
  intros Hs. induction t as [|[l v] t IH]; cbn.
  - split; auto. intros _ l [].
  - destruct (Z.ltb_spec i l) as [H|H].
    + split; [discriminate|]. intros Hall. specialize (Hall l (or_introl eq_refl)). lia.
    + rewrite (IH (sorted_tl Hs)). split; intros Hall l' Hl'.
      * destruct Hl' as [<-|Hl']; auto.
      * apply Hall. auto.
Qed.

Lemma last_cons_ne {A} (x d : A) l : l <> [] -> last (x :: l) d = last l d.
Proof. destruct l; [congruence|reflexivity]. Qed.

Lemma sorted_final {T} (t : table T) d : sorted t -> forall l, In l (map fst t) -> l <= final_limit t d.
Proof.
  unfold sorted, final_limit. generalize (map fst t). clear t. intros l H.
  induction H as [|x l Hs IH Hf]; intros y Hy; [destruct Hy|].
  destruct l as [|z l]; cbn in Hy.
  - destruct Hy as [<-|[]]. cbn. lia.
  - rewrite last_cons_ne by discriminate. destruct Hy as [<-|Hy].
    + rewrite Forall_forall in Hf.
      assert (x <= z) by (apply Hf; now left).
      assert (z <= last (z :: l) d) by (apply IH; now left). lia.
    + now apply IH.
Qed.

Lemma final_limit_In {T} (t : table T) d : t <> [] -> In (final_limit t d) (map fst t).
Proof.
  intros H. unfold final_limit. assert (map fst t <> []) by (destruct t; [congruence|discriminate]).
  destruct (exists_last H0) as [l [x ->]]. rewrite last_last. apply in_app_iff. right. now left.
Qed.

Lemma lookup_some_iff {T} (t : table T) d i : sorted t -> t <> [] ->
  (i < final_limit t d <-> exists v, lookup t i = Some v).
Proof.
  intros Hs Hne. split; intros H.
  - destruct (lookup t i) as [v|] eqn:E; eauto.
    rewrite lookup_None_iff in E by auto. specialize (E _ (final_limit_In d Hne)). lia.
  - destruct H as [v Hv]. destruct (Z.lt_ge_cases i (final_limit t d)); auto.
    assert (lookup t i = None) by (apply lookup_None_iff; auto; intros l Hl;
      pose proof (sorted_final d Hs l Hl); lia). congruence.
Qed.

Lemma lookup_lt_final {T} (t : table T) d i : t <> [] -> i < final_limit t d -> exists v, lookup t i = Some v.
Proof.
  induction t as [|[l v] t IH]; intros Hne Hi; [congruence|]. cbn.
  destruct (Z.ltb_spec i l); eauto.
  destruct t as [|p t]; [unfold final_limit in Hi; cbn in Hi; lia|].
  apply IH; [discriminate|exact Hi].
Qed.

(** ** Representation *)

Lemma build_app {T} (t : table T) r :
  fold_left (fun r p => vr_add r (fst p) (snd p)) t r =
  {| vr_values := vr_values r ++ map snd t; vr_limits := vr_limits r ++ map fst t |}.
Proof.
  revert r. induction t as [|[l v] t IH]; intros [vs ls]; cbn.
  - now rewrite !app_nil_r.
  - rewrite IH. cbn. now rewrite <- !app_assoc.
Qed.

Lemma build_eq {T} (t : table T) :
  build t = {| vr_values := map snd t; vr_limits := map fst t |}.
Proof. unfold build. now rewrite build_app. Qed.

Lemma view_build {T} (t : table T) : represents (vr_view (build t)) t.
Proof.
  rewrite build_eq. repeat split; cbn; auto. now rewrite map_length.
Qed.

Lemma build_bool_app (t : table bool) r :
  fold_left (fun r p => br_add r (fst p) (snd p)) t r =
  r ++ map (fun p => br_encode (snd p) (fst p)) t.
Proof.
  revert r. induction t as [|[l v] t IH]; intros r; cbn.
  - now rewrite app_nil_r.
  - rewrite IH. unfold br_add. cbn. now rewrite <- app_assoc.
Qed.

Lemma wrap32_small z : 0 <= z < 2 ^ 32 -> wrap32 z = z.
Proof. intros H. unfold wrap32. apply Z.mod_small. lia. Qed.

Lemma encode_sum b l : 0 <= l < 2 ^ 31 -> br_encode b l = (if b then 2 ^ 31 else 0) + l.
Proof.
  intros H. unfold br_encode. rewrite wrap32_small by lia.
  rewrite Z.shiftl_mul_pow2 by lia. destruct b.
  - rewrite Z.mul_1_l. rewrite <- Z.lxor_lor, <- Z.add_nocarry_lxor; auto;
    apply Z.bits_inj'; intros n Hn; rewrite Z.land_spec, Z.bits_0.
    + destruct (Z.eq_dec n 31) as [->|Hne].
      * rewrite (Z.bits_above_log2 l 31); [apply andb_false_r|lia|].
        destruct (Z.eq_dec l 0) as [->|]; [cbn; lia|]. apply Z.log2_lt_pow2; lia.
      * rewrite Z.pow2_bits_false; auto.
    + destruct (Z.eq_dec n 31) as [->|Hne].
      * rewrite (Z.bits_above_log2 l 31); [apply andb_false_r|lia|].
        destruct (Z.eq_dec l 0) as [->|]; [cbn; lia|]. apply Z.log2_lt_pow2; lia.
      * rewrite Z.pow2_bits_false; auto.
  - cbn [Z.mul]. now rewrite Z.lor_0_l.
Qed.

Lemma word_value_encode b l : 0 <= l < 2 ^ 31 -> br_word_value (br_encode b l) = b.
Proof.
  intros H. unfold br_word_value. rewrite encode_sum by auto.
  rewrite Z.shiftr_div_pow2 by lia. destruct b.
  - replace ((2 ^ 31 + l) / 2 ^ 31) with 1; [reflexivity|].
    apply Z.div_unique with (r := l); lia.
  - rewrite Z.add_0_l, Z.div_small by lia. reflexivity.
Qed.

Lemma word_limit_encode b l : 0 <= l < 2 ^ 31 -> br_word_limit (br_encode b l) = l.
Proof.
  intros H. unfold br_word_limit, mask_value. rewrite encode_sum by auto.
  replace (2 ^ 31 - 1) with (Z.ones 31) by reflexivity.
  rewrite Z.land_ones by lia.
  replace (((if b then 2 ^ 31 else 0) + l) mod 2 ^ 31) with l.
  - unfold to_int32. rewrite wrap32_small by lia.
    destruct (Z.ltb_spec l (2 ^ 31)); lia.
  - destruct b.
    + apply Z.mod_unique with (q := 1); lia.
    + rewrite Z.add_0_l. rewrite Z.mod_small; lia.
Qed.

Definition limits_31 {T} (t : table T) : Prop := Forall (fun p : Z * T => 0 <= fst p < 2 ^ 31) t.

Lemma view_build_bool (t : table bool) : limits_31 t -> represents (br_view (build_bool t)) t.
Proof.
  intros H. unfold build_bool. rewrite build_bool_app. cbn [app].
  split; [cbn; now rewrite map_length|]. cbn [br_view rv_limit rv_value].
  unfold limits_31 in H. split; intros i.
  - revert i. induction H as [|[l v] t Hl Ht IH]; intros [|i]; try reflexivity.
    + cbn. now rewrite word_limit_encode.
    + apply (IH i).
  - revert i. induction H as [|[l v] t Hl Ht IH]; intros [|i]; try reflexivity.
    + cbn. now rewrite word_value_encode.
    + apply (IH i).
Qed.

(** ** Lookup *)

Lemma run_search_as_binary_search {T} (rv : runs_view T) index fuel : forall first count,
  run_search_loop rv fuel first count index =
  binary_search_loop fuel (fun i => omap (fun l => l <=? index) (rv_limit rv i)) first count.
Proof.
  induction fuel as [|fuel IH]; intros first count; cbn [run_search_loop binary_search_loop]; auto.
  destruct (0 <? count)%nat; auto.
  destruct (rv_limit rv (first + count / 2)) as [l| |]; cbn; auto.
  destruct (l <=? index); auto.
Qed.

Lemma search_represents {T} (rv : runs_view T) (t : table T) index :
  represents rv t -> sorted t -> get_run_containing_index rv index = Ok (runs_before t index).
Proof.
  intros (Hc & Hl & Hv) Hs. unfold get_run_containing_index.
  rewrite run_search_as_binary_search, Hc.
  set (p := fun i => (i <? runs_before t index)%nat).
  destruct (@binary_search_partition 0 (length t) p) with
    (cond := fun i => omap (fun l => l <=? index) (rv_limit rv i)) as (r & Hr & Hrange & Hlo & Hhi).
  - unfold p. intros i j _ Hij _ Hj. lia.
  - intros i Hi. rewrite Hl.
    destruct (@vget_lt _ (map fst t) i) as (l & Hg & Hn); [rewrite map_length; lia|].
    rewrite Hg. unfold omap. cbn [obind]. f_equal. unfold p.
    pose proof (@runs_before_lt_iff _ t index Hs i l Hn). destruct (Z.leb_spec l index), (Nat.ltb_spec i (runs_before t index)); auto; lia.
  - unfold binary_search in Hr. rewrite Hr. f_equal. unfold p in *.
    pose proof (runs_before_le t index).
    destruct (Nat.lt_trichotomy r (runs_before t index)) as [Hlt|[Heq|Hgt]]; auto.
    + specialize (Hhi r). lia.
    + specialize (Hlo (runs_before t index)). lia.
Qed.

Lemma get_value_represents {T} (rv : runs_view T) (t : table T) index :
  represents rv t -> sorted t ->
  get_value rv index = match lookup t index with Some v => Ok v | None => UB end.
Proof.
  intros Hr Hs. unfold get_value. rewrite (search_represents index Hr Hs). cbn.
  destruct Hr as (_ & _ & Hv). rewrite Hv. unfold vget. now rewrite lookup_runs_before.
Qed.

(** ** Ranges *)

Lemma nth_error_skipn {A} (l : list A) n k : nth_error (skipn n l) k = nth_error l (n + k).
Proof. revert n. induction l as [|x l IH]; intros [|n]; cbn; auto. now destruct k. Qed.

Lemma skip_runs_represents {T} (rv : runs_view T) (t : table T) offset :
  represents rv t -> forall fuel i,
  (length t <= i + fuel)%nat -> (i <= length t)%nat ->
  skip_runs rv fuel i offset = Ok (i + runs_before (skipn i t) offset)%nat.
Proof.
  intros (Hc & Hl & Hv). induction fuel as [|fuel IH]; intros i Hf Hi; cbn [skip_runs]; rewrite Hc.
  - assert (i = length t) by lia. subst. rewrite Nat.ltb_irrefl, skipn_all. cbn. f_equal. lia.
  - destruct (Nat.ltb_spec i (length t)) as [Hlt|Hge].
    + rewrite Hl. destruct (nth_error t i) as [[l v]|] eqn:E; [|apply nth_error_None in E; lia].
      unfold vget. rewrite (map_nth_error fst _ _ E). cbn [obind fst].
      assert (Hsk : skipn i t = (l, v) :: skipn (S i) t).
      { clear -E. revert i E. induction t as [|p t IH]; intros [|i] E; cbn in E; try discriminate.
        - injection E as ->. reflexivity.
        - cbn [skipn]. rewrite (IH i E). reflexivity. }
      rewrite Hsk. cbn [runs_before].
      destruct (l <=? offset).
      * rewrite IH by lia. f_equal. replace (i + 1)%nat with (S i) by lia. lia.
      * f_equal. lia.
    + assert (i = length t) by lia. subst. rewrite skipn_all. cbn. f_equal. lia.
Qed.

(** The calls made by [for_each_run_in_range] from run [i] on, as a list function. *)
Fixpoint clip {T} (t : table T) (offset len : Z) : table T :=
  match t with
  | [] => []
  | (l, v) :: t' =>
      if l - offset <? len then (l - offset, v) :: clip t' offset len else [(len, v)]
  end.

Lemma emit_runs_represents {T} (rv : runs_view T) (t : table T) offset len :
  represents rv t -> forall fuel i,
  (length t <= i + fuel)%nat -> (i <= length t)%nat ->
  emit_runs rv fuel i offset len = Ok (clip (skipn i t) offset len).
Proof.
  intros (Hc & Hl & Hv). induction fuel as [|fuel IH]; intros i Hf Hi; cbn [emit_runs]; rewrite Hc.
  - assert (i = length t) by lia. subst. now rewrite Nat.ltb_irrefl, skipn_all.
  - destruct (Nat.ltb_spec i (length t)) as [Hlt|Hge].
    + rewrite Hl, Hv. destruct (nth_error t i) as [[l v]|] eqn:E; [|apply nth_error_None in E; lia].
      unfold vget. rewrite (map_nth_error fst _ _ E), (map_nth_error snd _ _ E). cbn [obind fst snd].
      assert (Hsk : skipn i t = (l, v) :: skipn (S i) t).
      { clear -E. revert i E. induction t as [|p t IH]; intros [|i] E; cbn in E; try discriminate.
        - injection E as ->. reflexivity.
        - cbn [skipn]. rewrite (IH i E). reflexivity. }
      rewrite Hsk. cbn [clip].
      destruct (l - offset <? len); auto.
      rewrite IH by lia. cbn. now replace (i + 1)%nat with (S i) by lia.
    + assert (i = length t) by lia. subst. now rewrite skipn_all.
Qed.

Lemma for_each_represents {T} (rv : runs_view T) (t : table T) offset len :
  represents rv t ->
  for_each_run_in_range rv offset len = Ok (clip (skipn (runs_before t offset) t) offset len).
Proof.
  intros Hr. unfold for_each_run_in_range.
  destruct Hr as (Hc & Hrest). assert (Hr : represents rv t) by (split; auto).
  rewrite Hc. rewrite (skip_runs_represents offset Hr) by lia. cbn [skipn obind plus].
  rewrite (emit_runs_represents offset len Hr); auto; try lia.
  apply runs_before_le.
Qed.

Lemma sorted_skipn {T} (t : table T) n : sorted t -> sorted (skipn n t).
Proof.
  revert n. induction t as [|p t IH]; intros [|n] H; cbn; auto. apply IH. eapply sorted_tl; eauto.
Qed.

Lemma skip_gt {T} (t : table T) offset : sorted t ->
  forall p, In p (skipn (runs_before t offset) t) -> offset < fst p.
Proof.
  intros Hs. induction t as [|[l v] t IH]; cbn; [intros p []|].
  destruct (Z.leb_spec l offset) as [H|H]; cbn [skipn].
  - apply IH. eapply sorted_tl; eauto.
  - intros p [<-|Hp]; [exact H|]. pose proof (sorted_hd Hs p Hp). cbn in *. lia.
Qed.

Lemma lookup_skip {T} (t : table T) offset i : offset <= i ->
  lookup (skipn (runs_before t offset) t) i = lookup t i.
Proof.
  intros H. induction t as [|[l v] t IH]; cbn; auto.
  destruct (Z.leb_spec l offset) as [Hl|Hl]; cbn [skipn].
  - rewrite IH. destruct (Z.ltb_spec i l); [lia|reflexivity].
  - reflexivity.
Qed.

Lemma lookup_clip {T} (t : table T) offset len j : j < len ->
  lookup (clip t offset len) j = lookup t (offset + j).
Proof.
  intros Hj. induction t as [|[l v] t IH]; cbn; auto.
  destruct (Z.ltb_spec (l - offset) len) as [H|H]; cbn.
  - rewrite IH. destruct (Z.ltb_spec j (l - offset)), (Z.ltb_spec (offset + j) l); auto; lia.
  - destruct (Z.ltb_spec j len), (Z.ltb_spec (offset + j) l); auto; lia.
Qed.

Lemma clip_limits {T} (t : table T) offset len :
  forall l, In l (map fst (clip t offset len)) ->
  (exists p, In p t /\ l = Z.min (fst p - offset) len).
Proof.
  induction t as [|[l v] t IH]; cbn; [intros ? []|].
  destruct (Z.ltb_spec (l - offset) len) as [H|H]; cbn.
  - intros x [<-|Hx].
    + exists (l, v). cbn. split; [auto|lia].
    + destruct (IH x Hx) as (p & Hp & ->). exists p. auto.
  - intros x [<-|[]]. exists (l, v). cbn. split; [auto|lia].
Qed.

Lemma clip_sorted {T} (t : table T) offset len : sorted t -> sorted (clip t offset len).
Proof.
  induction t as [|[l v] t IH]; intros Hs; cbn; auto.
  destruct (Z.ltb_spec (l - offset) len) as [H|H].
  - constructor; [apply IH; eapply sorted_tl; eauto|].
    rewrite Forall_forall. intros x Hx. destruct (clip_limits _ _ _ _ Hx) as (p & Hp & ->).
    pose proof (sorted_hd Hs p Hp). cbn in *. lia.
  - repeat constructor.
Qed.

Lemma clip_strict {T} (t : table T) offset len :
  strictly_sorted t -> strictly_sorted (clip t offset len).
Proof.
  induction t as [|[l v] t IH]; intros Hs; cbn; auto.
  assert (Hs' : strictly_sorted t) by (unfold strictly_sorted in *; cbn in Hs; inversion Hs; auto).
  destruct (Z.ltb_spec (l - offset) len) as [H|H].
  - constructor; [apply IH; auto|].
    rewrite Forall_forall. intros x Hx. destruct (clip_limits _ _ _ _ Hx) as (p & Hp & ->).
    unfold strictly_sorted in Hs. cbn in Hs. inversion Hs as [|? ? ? Hf]; subst.
    rewrite Forall_forall in Hf. specialize (Hf (fst p) (in_map fst _ _ Hp)). cbn [fst] in *. lia.
  - repeat constructor.
Qed.

Lemma clip_nonempty {T} (t : table T) offset len : t <> [] -> clip t offset len <> [].
Proof. destruct t as [|[l v] t]; [congruence|]. cbn. destruct (_ <? _); discriminate. Qed.

Lemma clip_final {T} (t : table T) offset len d d' : t <> [] -> offset + len <= final_limit t d ->
  final_limit (clip t offset len) d' = len.
Proof.
  unfold final_limit. induction t as [|[l v] t IH]; intros Hne H; [congruence|].
  cbn [clip]. destruct (Z.ltb_spec (l - offset) len) as [Hl|Hl]; [|reflexivity].
  destruct t as [|q t].
  - cbn in H. lia.
  - cbn [map fst]. rewrite last_cons_ne.
    + apply IH; [discriminate|]. cbn [map] in H. rewrite last_cons_ne in H by discriminate. exact H.
    + pose proof (@clip_nonempty _ (q :: t) offset len). destruct (clip (q :: t) offset len); [|discriminate].
      exfalso. apply H0; [discriminate|reflexivity].
Qed.

Lemma skipn_final {T} (t : table T) d n : (n < length t)%nat -> final_limit (skipn n t) d = final_limit t d.
Proof.
  revert n. unfold final_limit. induction t as [|p t IH]; intros [|n] H; cbn [skipn length map] in *; auto; try lia.
  rewrite IH by lia. rewrite last_cons_ne; auto. destruct t; cbn in *; [lia|discriminate].
Qed.

Lemma runs_before_lt_length {T} (t : table T) d i : t <> [] -> i < final_limit t d ->
  (runs_before t i < length t)%nat.
Proof.
  intros Hne Hi. destruct (lookup_lt_final d Hne Hi) as [v Hv].
  rewrite lookup_runs_before in Hv.
  assert (runs_before t i < length (map snd t))%nat by (apply nth_error_Some; congruence).
  now rewrite map_length in H.
Qed.

(** Specification of a sub-range. *)
Definition subset_table {T} (t : table T) (offset len : Z) : table T :=
  clip (skipn (runs_before t offset) t) offset len.

Lemma subset_spec {T} (t : table T) offset len d :
  sorted t -> t <> [] -> 0 < len -> offset + len <= final_limit t d ->
  let s := subset_table t offset len in
  sorted s /\ final_limit s 0 = len /\ (forall p, In p s -> 0 < fst p <= len) /\
  (forall j, 0 <= j < len -> lookup s j = lookup t (offset + j)).
Proof.
  intros Hs Hne Hlen Hfin s.
  pose proof (@runs_before_lt_length _ t d offset Hne ltac:(lia)) as Hlt.
  repeat split.
  - apply clip_sorted. now apply sorted_skipn.
  - unfold s, subset_table. apply clip_final with (d := d).
    + intros E. apply (f_equal (@length _)) in E. rewrite skipn_length in E. cbn in E. lia.
    + rewrite skipn_final; auto.
  - destruct (clip_limits _ _ _ _ (in_map fst _ _ H)) as (q & Hq & ->).
    pose proof (skip_gt _ Hs _ Hq). lia.
  - destruct (clip_limits _ _ _ _ (in_map fst _ _ H)) as (q & Hq & ->). lia.
  - intros j Hj. unfold s, subset_table. rewrite lookup_clip by lia. apply lookup_skip. lia.
Qed.

Lemma vr_subset_eq {T} (t : table T) offset len :
  vr_get_runs_subset (build t) offset len vr_empty = Ok (build (subset_table t offset len)).
Proof.
  unfold vr_get_runs_subset. rewrite (@for_each_represents _ _ t offset len (view_build t)).
  reflexivity.
Qed.

Lemma br_subset_eq (t : table bool) offset len : limits_31 t ->
  br_get_runs_subset (build_bool t) offset len [] = Ok (build_bool (subset_table t offset len)).
Proof.
  intros H. unfold br_get_runs_subset. rewrite (@for_each_represents _ _ t offset len (view_build_bool H)).
  reflexivity.
Qed.

(** ** Iterators *)

Lemma it_advance_loop_represents {T} (rv : runs_view T) (t : table T) :
  represents rv t -> sorted t -> forall fuel idx i,
  (length t < idx + fuel)%nat -> (idx <= runs_before t i)%nat ->
  it_advance_loop fuel rv idx i =
    if (runs_before t i <? length t)%nat then Ok (runs_before t i) else UB.
Proof.
  intros Hr Hs. pose proof Hr as (Hc & Hl & _).
  induction fuel as [|fuel IH]; intros idx i Hf Hi; cbn [it_advance_loop].
  - pose proof (runs_before_le t i). lia.
  - rewrite Hl. pose proof (runs_before_le t i).
    destruct (Nat.lt_ge_cases idx (length t)) as [Hlt|Hge].
    + destruct (@vget_lt _ (map fst t) idx) as (l & Hg & Hn); [rewrite map_length; lia|].
      rewrite Hg. cbn [obind]. pose proof (@runs_before_lt_iff _ t i Hs idx l Hn) as Hiff.
      destruct (Z.leb_spec l i).
      * apply IH; lia.
      * assert (idx = runs_before t i) by lia. subst.
        destruct (Nat.ltb_spec (runs_before t i) (length t)); [reflexivity|lia].
    + assert (vget (map fst t) idx = UB) by (apply vget_ub; rewrite map_length; lia).
      rewrite H0. cbn [obind]. destruct (Nat.ltb_spec (runs_before t i) (length t)); [lia|reflexivity].
Qed.

Lemma runs_before_mono {T} (t : table T) i j : sorted t -> i <= j -> (runs_before t i <= runs_before t j)%nat.
Proof.
  intros Hs Hij. destruct (Nat.le_gt_cases (runs_before t i) (runs_before t j)) as [|H]; auto.
  pose proof (runs_before_le t i).
  destruct (nth_error (map fst t) (runs_before t j)) as [l|] eqn:E;
    [|apply nth_error_None in E; rewrite map_length in E; lia].
  pose proof (@runs_before_lt_iff _ t i Hs _ _ E). pose proof (@runs_before_lt_iff _ t j Hs _ _ E). lia.
Qed.

(** A forward sequence of [advance_to] calls. *)
Fixpoint it_advance_seq {T} (rv : runs_view T) (idx : nat) (is : list Z) : outcome nat :=
  match is with
  | [] => Ok idx
  | i :: is' => do idx' <- it_advance_to rv idx i; it_advance_seq rv idx' is'
  end.

Lemma it_advance_seq_represents {T} (rv : runs_view T) (t : table T) d :
  represents rv t -> sorted t -> t <> [] -> forall is cur idx,
  (idx <= runs_before t cur)%nat ->
  StronglySorted Z.le (cur :: is) ->
  is <> [] ->
  last is 0 < final_limit t d ->
  it_advance_seq rv idx is = Ok (runs_before t (last is 0)).
Proof.
  intros Hr Hs Hne is. induction is as [|i is IH]; intros cur idx Hidx Hsort Hnil Hlast; [congruence|].
  cbn [it_advance_seq]. inversion Hsort as [|? ? Hsort' Hall]; subst.
  assert (cur <= i) by (inversion Hall; auto).
  assert (Hi : i <= last (i :: is) 0).
  { clear -Hsort'. destruct is as [|k is]; [cbn; lia|]. rewrite last_cons_ne by discriminate.
    inversion Hsort' as [|? ? ? Hf]; subst. rewrite Forall_forall in Hf. apply Hf.
    destruct (@exists_last _ (k :: is)) as [l [x ->]]; [discriminate|].
    rewrite last_last. apply in_app_iff. right. now left. }
  assert (Hlt : (runs_before t i < length t)%nat) by (apply runs_before_lt_length with (d := d); auto; lia).
  unfold it_advance_to. rewrite (@it_advance_loop_represents _ rv t Hr Hs).
  - destruct (Nat.ltb_spec (runs_before t i) (length t)); [|lia]. cbn [obind].
    destruct is as [|k is]; [reflexivity|].
    rewrite (IH i); auto; discriminate.
  - destruct Hr as (-> & _). lia.
  - etransitivity; [exact Hidx|]. apply runs_before_mono; auto.
Qed.

(** ** Intersections *)

Section Inter.
Variable V : Type.

Definition pos_ok (p : Z) (m : runs_view V * nat) (t : table V) : Prop :=
  represents (fst m) t /\ sorted t /\
  (forall l, In l (map fst (firstn (snd m) t)) -> l <= p) /\
  (forall l, In l (map fst (skipn (snd m) t)) -> p <= l) /\
  (snd m <= length t)%nat.

Lemma pos_ok_limit p m t : pos_ok p m t -> (snd m < length t)%nat ->
  exists l v, rv_limit (fst m) (snd m) = Ok l /\ rv_value (fst m) (snd m) = Ok v /\
    nth_error t (snd m) = Some (l, v) /\ p <= l /\
    (forall i, p <= i < l -> lookup t i = Some v).
Proof.
  intros (Hr & Hs & Hlo & Hhi & Hle) Hlt. destruct m as [rv k]. cbn [fst snd] in *.
  destruct (nth_error t k) as [[l v]|] eqn:E; [|apply nth_error_None in E; lia].
  exists l, v. destruct Hr as (Hc & Hl & Hv).
  rewrite Hl, Hv. unfold vget. rewrite (map_nth_error fst _ _ E), (map_nth_error snd _ _ E).
  assert (Hsplit : t = firstn k t ++ (l, v) :: skipn (S k) t).
  { rewrite <- (firstn_skipn k t) at 1. f_equal. clear -E. revert k E.
    induction t as [|q t IH]; intros [|k] E; cbn in E; try discriminate.
    - injection E as ->. reflexivity.
    - cbn [skipn]. rewrite (IH k E). reflexivity. }
  repeat split; auto.
  - apply Hhi. apply (in_map fst _ (l, v)). apply nth_error_In with (n := 0%nat).
    rewrite nth_error_skipn. now rewrite Nat.add_0_r.
  - intros i Hi. rewrite Hsplit. clear Hsplit E Hhi Hs Hc Hl Hv.
    induction (firstn k t) as [|[l' v'] t' IH]; cbn.
    + destruct (Z.ltb_spec i l); [reflexivity|lia].
    + assert (l' <= p) by (apply Hlo; now left).
      destruct (Z.ltb_spec i l'); [lia|]. apply IH. intros x Hx. apply Hlo. now right.
Qed.

(** [min] over the current run limits of all tables. *)
Fixpoint cur_limits (ms : list (runs_view V * nat)) : list Z :=
  match ms with
  | [] => []
  | (rv, k) :: ms' => match rv_limit rv k with Ok l => l :: cur_limits ms' | _ => cur_limits ms' end
  end.

Definition in_range (m : runs_view V * nat) (t : table V) : Prop := (snd m < length t)%nat.

Lemma find_min_ok p ms ts : Forall2 (pos_ok p) ms ts -> Forall2 in_range ms ts -> ms <> [] ->
  exists m, find_next_min_limit ms = Ok m /\ p <= m /\
    Forall (fun x => exists l, rv_limit (fst x) (snd x) = Ok l /\ m <= l) ms /\
    Exists (fun x => rv_limit (fst x) (snd x) = Ok m) ms.
Proof.
  intros H Hin. revert H. induction Hin as [|m t ms ts Hm Hms IH]; intros H Hne; [congruence|].
  inversion H as [|? ? ? ? Hp Hps]; subst.
  destruct (pos_ok_limit Hp Hm) as (l & v & Hl & Hv & Hn & Hpl & _).
  destruct m as [rv k]. cbn [fst snd] in *.
  destruct ms as [|m2 ms].
  - cbn. exists l. repeat split; auto. repeat constructor. exists l. cbn. auto using Z.le_refl.
  - cbn [find_next_min_limit]. rewrite Hl. cbn [obind].
    destruct IH as (m & Hm1 & Hm2 & Hm3 & Hm4); auto; [discriminate|].
    cbn [find_next_min_limit] in Hm1. rewrite Hm1. cbn [obind].
    exists (Z.min l m). repeat split; auto; try lia.
    + constructor.
      * exists l. cbn. split; [auto|lia].
      * eapply Forall_impl; [|exact Hm3]. intros x (l' & Hl' & Hle). exists l'. split; [auto|lia].
    + destruct (Z.le_gt_cases l m).
      * rewrite Z.min_l by lia. now constructor.
      * rewrite Z.min_r by lia. now apply Exists_cons_tl.
Qed.

Lemma inter_values_ok p ms ts : Forall2 (pos_ok p) ms ts -> Forall2 in_range ms ts ->
  forall m, Forall (fun x => exists l, rv_limit (fst x) (snd x) = Ok l /\ m <= l) ms ->
  exists vs, intersect_values ms = Ok vs /\
    (forall i, p <= i < m -> Forall2 (fun t v => lookup t i = Some v) ts vs).
Proof.
  intros H Hin. revert H. induction Hin as [|x t ms ts Hm Hms IH]; intros H m Hlim.
  - exists []. split; auto.
  - inversion H as [|? ? ? ? Hp Hps]; subst. inversion Hlim as [|? ? (l' & Hl' & Hle) Hlim']; subst.
    destruct (pos_ok_limit Hp Hm) as (l & v & Hl & Hv & Hn & Hpl & Hlk).
    destruct (IH Hps m Hlim') as (vs & Hvs & Hi). destruct x as [rv k]. cbn [fst snd] in *.
    exists (v :: vs). cbn [intersect_values]. rewrite Hv, Hvs. cbn. split; auto.
    intros i Hi'. constructor; auto. apply Hlk. rewrite Hl in Hl'. injection Hl' as ->. lia.
Qed.

(** Remaining runs. *)
Fixpoint remaining (ms : list (runs_view V * nat)) : nat :=
  match ms with
  | [] => 0%nat
  | (rv, k) :: ms' => (rv_count rv - k + remaining ms')%nat
  end.

Lemma advance_ok p ms ts : Forall2 (pos_ok p) ms ts -> Forall2 in_range ms ts ->
  forall m, Forall (fun x => exists l, rv_limit (fst x) (snd x) = Ok l /\ m <= l) ms ->
  p <= m ->
  exists ms', advance_intersect_indices m ms = Ok ms' /\ Forall2 (pos_ok m) ms' ts /\
    (remaining ms' <= remaining ms)%nat /\
    (Exists (fun x => rv_limit (fst x) (snd x) = Ok m) ms -> (remaining ms' < remaining ms)%nat) /\
    (ms <> [] -> ms' <> []).
Proof.
  intros H Hin. revert H. induction Hin as [|x t ms ts Hm Hms IH]; intros H m Hlim Hpm.
  - exists []. repeat split; auto. intros E. inversion E.
  - inversion H as [|? ? ? ? Hp Hps]; subst. inversion Hlim as [|? ? (l' & Hl' & Hle) Hlim']; subst.
    destruct (pos_ok_limit Hp Hm) as (l & v & Hl & Hv & Hn & Hpl & Hlk).
    destruct (IH Hps m Hlim' Hpm) as (ms' & Hadv & Hok & Hrem & Hlt & _). destruct x as [rv k]. cbn [fst snd] in *.
    rewrite Hl in Hl'. injection Hl' as <-. unfold in_range in Hm. cbn [snd] in Hm.
    destruct Hp as (Hr & Hs & Hlo & Hhi & Hlen). cbn [fst snd] in *.
    cbn [advance_intersect_indices]. rewrite Hl. cbn [obind]. rewrite Hadv. cbn [obind].
    pose proof Hr as (Hc & _).
    assert (Hsk : skipn k t = (l, v) :: skipn (S k) t).
    { clear -Hn. revert k Hn. induction t as [|q t IH]; intros [|k] E; cbn in E; try discriminate.
      - injection E as ->. reflexivity.
      - cbn [skipn]. rewrite (IH k E). reflexivity. }
    assert (Hfk : firstn (S k) t = firstn k t ++ [(l, v)]).
    { clear -Hn. revert k Hn. induction t as [|q t IH]; intros [|k] E; cbn in E; try discriminate.
      - injection E as ->. reflexivity.
      - change (q :: firstn (S k) t = q :: (firstn k t ++ [(l, v)])). f_equal. now apply IH. }
    eexists. split; [reflexivity|]. repeat split.
    + constructor; auto. split; [exact Hr|]. split; [exact Hs|]. cbn [fst snd]. split; [|split].
      * destruct (Z.leb_spec l m).
        -- rewrite Nat.add_1_r, Hfk, map_app. intros y Hy. apply in_app_iff in Hy.
           destruct Hy as [Hy|[<-|[]]]; [|cbn; lia]. specialize (Hlo y Hy). lia.
        -- intros y Hy. specialize (Hlo y Hy). lia.
      * intros y Hy. destruct (Z.leb_spec l m).
        -- assert (l <= y); [|lia].
           assert (Hss : sorted ((l, v) :: skipn (S k) t)) by (rewrite <- Hsk; now apply sorted_skipn).
           rewrite Nat.add_1_r in Hy. apply in_map_iff in Hy. destruct Hy as (q & <- & Hq).
           apply (sorted_hd Hss q Hq).
        -- rewrite Hsk in Hy. cbn in Hy. destruct Hy as [<-|Hy]; [lia|].
           assert (Hss : sorted ((l, v) :: skipn (S k) t)) by (rewrite <- Hsk; now apply sorted_skipn).
           apply in_map_iff in Hy. destruct Hy as (q & <- & Hq).
           pose proof (sorted_hd Hss q Hq). cbn in *. lia.
      * destruct (l <=? m); lia.
    + cbn [remaining]. destruct (l <=? m); lia.
    + intros E. cbn [remaining]. inversion E as [? ? E1|? ? E1]; subst; cbn [fst snd] in *.
      * rewrite Hl in E1. injection E1 as ->. rewrite Z.leb_refl. lia.
      * specialize (Hlt E1). destruct (l <=? m); lia.
    + discriminate.
Qed.

Lemma pos_ok_in_range p fin ms ts : Forall2 (pos_ok p) ms ts ->
  Forall (fun t => t <> [] /\ final_limit t 0 = fin) ts -> p < fin -> Forall2 in_range ms ts.
Proof.
  intros H Hfin Hp. induction H as [|m t ms ts Hm Hms IH]; constructor.
  - inversion Hfin as [|? ? (Hne & Hf) _]; subst. destruct Hm as (Hr & Hs & Hlo & Hhi & Hle).
    unfold in_range. destruct (Nat.eq_dec (snd m) (length t)) as [E|]; [|lia].
    rewrite E, firstn_all in Hlo. specialize (Hlo _ (final_limit_In 0 Hne)). lia.
  - apply IH. now inversion Hfin.
Qed.

Lemma intersect_loop_ok fin : forall fuel p ms ts,
  Forall2 (pos_ok p) ms ts -> ms <> [] ->
  Forall (fun t => t <> [] /\ final_limit t 0 = fin) ts ->
  p <= fin -> (remaining ms <= fuel)%nat ->
  exists out, intersect_loop fuel p fin ms = Ok out /\
    sorted out /\ (forall q, In q out -> p <= fst q <= fin) /\ final_limit out p = fin /\
    (forall i, p <= i < fin -> exists vs, lookup out i = Some vs /\
        Forall2 (fun t v => lookup t i = Some v) ts vs).
Proof.
  induction fuel as [|fuel IH]; intros p ms ts H Hne Hfin Hp Hfuel.
  - cbn [intersect_loop]. destruct (Z.ltb_spec p fin) as [Hlt|Hge].
    + exfalso. pose proof (pos_ok_in_range H Hfin Hlt) as Hin.
      inversion Hin as [|m t ms' ts' Hm Hms]; subst; [congruence|].
      inversion H as [|? ? ? ? Hp1 _]; subst. destruct m as [rv k]. cbn in Hfuel.
      destruct Hp1 as ((Hc & _) & _). cbn in Hc. unfold in_range in Hm. cbn in Hm. lia.
    + exists []. assert (p = fin) by lia. subst.
      split; [reflexivity|]. split; [constructor|]. split; [intros q []|]. split; [reflexivity|]. intros; lia.
  - cbn [intersect_loop]. destruct (Z.ltb_spec p fin) as [Hlt|Hge].
    + pose proof (pos_ok_in_range H Hfin Hlt) as Hin.
      destruct (find_min_ok H Hin Hne) as (m & Hm & Hpm & Hall & Hex).
      destruct (inter_values_ok H Hin Hall) as (vs & Hvs & Hlk).
      destruct (advance_ok H Hin Hall Hpm) as (ms' & Hadv & Hok & Hrem & Hremlt & Hne').
      rewrite Hm. cbn [obind]. rewrite Hvs. cbn [obind]. rewrite Hadv. cbn [obind].
      assert (Hmfin : m <= fin).
      { clear -Hall Hin H Hfin Hne. inversion Hin as [|x t ms0 ts0 Hx _]; subst; [congruence|].
        inversion H as [|? ? ? ? Hp1 _]; subst. inversion Hall as [|? ? (l & Hl & Hle) _]; subst.
        inversion Hfin as [|? ? (Hn & Hf) _]; subst.
        destruct (pos_ok_limit Hp1 Hx) as (l' & v & Hl' & _ & Hnth & _ & _).
        rewrite Hl in Hl'. injection Hl' as <-.
        destruct Hp1 as (_ & Hs & _).
        assert (l <= final_limit t 0); [|lia].
        apply sorted_final; auto. eapply (in_map fst t (l, v)). eapply nth_error_In; eauto. }
      destruct (IH m ms' ts Hok (Hne' Hne) Hfin Hmfin) as (out & Hout & Hsort & Hbd & Hfl & Hlook).
      { specialize (Hremlt Hex). lia. }
      rewrite Hout. cbn [obind]. exists ((m, vs) :: out).
      split; [reflexivity|]. split; [|split; [|split]].
      * constructor; auto. rewrite Forall_forall. intros y Hy. apply in_map_iff in Hy.
        destruct Hy as (q & <- & Hq). apply Hbd in Hq. cbn. lia.
      * intros q [<-|Hq]; [cbn; lia|]. apply Hbd in Hq. lia.
      * unfold final_limit in *. destruct out as [|o out]; [exact Hfl|].
        cbn [map] in *. rewrite last_cons_ne by discriminate.
        clear -Hfl. revert Hfl. generalize (map fst out) (fst o). intros l x. revert x.
        induction l as [|y l IH]; intros x; [auto|]. cbn [last]. apply (IH y).
      * intros i Hi. cbn [lookup]. destruct (Z.ltb_spec i m).
        -- exists vs. split; auto. apply Hlk. lia.
        -- apply Hlook. lia.
    + exists []. assert (p = fin) by lia. subst.
      split; [reflexivity|]. split; [constructor|]. split; [intros q []|]. split; [reflexivity|]. intros; lia.
Qed.

(** Strictness: with no zero-length run every emitted limit is new. *)
Definition pos_strict (p : Z) (m : runs_view V * nat) (t : table V) : Prop :=
  strictly_sorted t /\ (forall l, In l (map fst (skipn (snd m) t)) -> p < l).

Lemma strictly_sorted_skipn (t : table V) n : strictly_sorted t -> strictly_sorted (skipn n t).
Proof.
  revert n. unfold strictly_sorted. induction t as [|p t IH]; intros [|n] H; cbn in *; auto.
  apply IH. now inversion H.
Qed.

Lemma advance_strict p m : forall ms ts ms',
  Forall2 (pos_ok p) ms ts -> Forall2 in_range ms ts -> Forall2 (pos_strict p) ms ts ->
  Forall (fun x => exists l, rv_limit (fst x) (snd x) = Ok l /\ m <= l) ms ->
  advance_intersect_indices m ms = Ok ms' -> Forall2 (pos_strict m) ms' ts.
Proof.
  induction ms as [|[rv k] ms IH]; intros ts ms' H Hin Hst Hlim Hadv.
  - inversion H; subst. cbn in Hadv. injection Hadv as <-. constructor.
  - inversion H as [|? t ? ts' Hp Hps]; subst. inversion Hin as [|? ? ? ? Hi Hins]; subst.
    inversion Hst as [|? ? ? ? Hs1 Hss]; subst. inversion Hlim as [|? ? (l' & Hl' & Hle) Hlim']; subst.
    destruct (pos_ok_limit Hp Hi) as (l & v & Hl & Hv & Hn & Hpl & Hlk). cbn [fst snd] in *.
    rewrite Hl in Hl'. injection Hl' as <-.
    cbn [advance_intersect_indices] in Hadv. rewrite Hl in Hadv. cbn [obind] in Hadv.
    destruct (advance_intersect_indices m ms) as [ms''| |] eqn:E; cbn in Hadv; try discriminate.
    injection Hadv as <-. constructor; [|eapply IH; eauto].
    destruct Hs1 as (Hstrict & Hgt). cbn [fst snd] in *. split; auto. cbn [snd].
    assert (Hsk : skipn k t = (l, v) :: skipn (S k) t).
    { clear -Hn. revert k Hn. induction t as [|q t IH]; intros [|k] E; cbn in E; try discriminate.
      - injection E as ->. reflexivity.
      - cbn [skipn]. rewrite (IH k E). reflexivity. }
    pose proof (@strictly_sorted_skipn t k Hstrict) as Hss'. rewrite Hsk in Hss'.
    unfold strictly_sorted in Hss'. cbn [map fst] in Hss'. inversion Hss' as [|? ? ? Hf]; subst.
    rewrite Forall_forall in Hf.
    intros y Hy. destruct (Z.leb_spec l m).
    + rewrite Nat.add_1_r in Hy. specialize (Hf y Hy). lia.
    + rewrite Hsk in Hy. cbn in Hy. destruct Hy as [<-|Hy]; [lia|]. specialize (Hf y Hy). lia.
Qed.

Lemma intersect_loop_strict fin : forall fuel p ms ts out,
  Forall2 (pos_ok p) ms ts -> Forall2 (pos_strict p) ms ts -> ms <> [] ->
  Forall (fun t => t <> [] /\ final_limit t 0 = fin) ts ->
  intersect_loop fuel p fin ms = Ok out ->
  strictly_sorted out /\ (forall q, In q out -> p < fst q).
Proof.
  induction fuel as [|fuel IH]; intros p ms ts out H Hst Hne Hfin Hout; cbn [intersect_loop] in Hout.
  - destruct (p <? fin); [discriminate|]. injection Hout as <-. split; [constructor|intros q []].
  - destruct (Z.ltb_spec p fin) as [Hlt|Hge].
    + pose proof (pos_ok_in_range H Hfin Hlt) as Hin.
      destruct (find_min_ok H Hin Hne) as (m & Hm & Hpm & Hall & Hex).
      destruct (inter_values_ok H Hin Hall) as (vs & Hvs & Hlk).
      destruct (advance_ok H Hin Hall Hpm) as (ms' & Hadv & Hok & _ & _ & Hne').
      rewrite Hm in Hout. cbn [obind] in Hout. rewrite Hvs in Hout. cbn [obind] in Hout.
      rewrite Hadv in Hout. cbn [obind] in Hout.
      destruct (intersect_loop fuel m fin ms') as [rest| |] eqn:E; cbn in Hout; try discriminate.
      injection Hout as <-.
      pose proof (advance_strict H Hin Hst Hall Hadv) as Hst'.
      destruct (IH m ms' ts rest Hok Hst' (Hne' Hne) Hfin E) as (Hs1 & Hs2).
      assert (Hgt : p < m).
      { clear -Hex Hst H Hin. revert Hst H Hin. revert ts. induction Hex as [x ms Hx|x ms Hx IH]; intros ts Hst H Hin.
        - inversion Hst as [|? t ? ? (_ & Hg) _]; subst. inversion H as [|? ? ? ? Hp _]; subst.
          inversion Hin as [|? ? ? ? Hi _]; subst.
          destruct (pos_ok_limit Hp Hi) as (l & v & Hl & _ & Hn & _). rewrite Hl in Hx. injection Hx as ->.
          apply Hg. apply (in_map fst _ (m, v)). apply nth_error_In with (n := 0%nat).
          rewrite nth_error_skipn. now rewrite Nat.add_0_r.
        - inversion Hst; subst. inversion H; subst. inversion Hin; subst. eapply IH; eauto. }
      split.
      * constructor; auto. rewrite Forall_forall. intros y Hy. apply in_map_iff in Hy.
        destruct Hy as (q & <- & Hq). apply Hs2 in Hq. cbn. lia.
      * intros q [<-|Hq]; [cbn; lia|]. apply Hs2 in Hq. lia.
    + injection Hout as <-. split; [constructor|intros q []].
Qed.

(** Top level. *)
Lemma max_limit_ok (fin : Z) rvs ts :
  Forall2 (@represents V) rvs ts -> rvs <> [] ->
  Forall (fun t => t <> [] /\ final_limit t 0 = fin) ts -> max_limit rvs = Ok fin.
Proof.
  intros H. induction H as [|rv t rvs ts Hr Hrs IH]; intros Hne Hfin; [congruence|].
  inversion Hfin as [|? ? (Hn & Hf) Hfin']; subst.
  assert (Hl : rv_get_limit rv = Ok (final_limit t 0)).
  { unfold rv_get_limit. destruct Hr as (Hc & Hl & _). rewrite Hc.
    destruct (exists_last Hn) as [t' [x ->]]. rewrite app_length, Nat.add_1_r.
    rewrite Hl, map_app. cbn [map]. rewrite <- (map_length fst t').
    rewrite vget_mid. unfold final_limit. rewrite map_app. cbn [map]. now rewrite last_last. }
  destruct rvs as [|rv2 rvs]; [exact Hl|].
  cbn [max_limit]. rewrite Hl. cbn [obind].
  cbn [max_limit] in IH. rewrite IH; auto; [|discriminate]. cbn. f_equal. lia.
Qed.

Lemma start_pos_ok rv (t : table V) : represents rv t -> sorted t ->
  (forall q, In q t -> 0 <= fst q) -> pos_ok 0 (rv, 0%nat) t.
Proof.
  intros Hr Hs Hnn. split; [exact Hr|]. split; [exact Hs|]. cbn.
  split; [intros l []|]. split; [|lia].
  intros l Hl. apply in_map_iff in Hl. destruct Hl as (q & <- & Hq). auto.
Qed.

Lemma intersections_ok (fin : Z) rvs ts :
  Forall2 (@represents V) rvs ts -> rvs <> [] ->
  Forall (fun t => sorted t /\ (forall q, In q t -> 0 <= fst q) /\ t <> [] /\ final_limit t 0 = fin) ts ->
  exists out, iterate_run_intersections rvs = Ok out /\ sorted out /\
    (forall q, In q out -> 0 <= fst q <= fin) /\ final_limit out 0 = fin /\
    (forall i, 0 <= i < fin -> exists vs, lookup out i = Some vs /\
        Forall2 (fun t v => lookup t i = Some v) ts vs) /\
    (Forall (fun t => strictly_sorted t /\ forall q, In q t -> 0 < fst q) ts -> strictly_sorted out).
Proof.
  intros Hr Hne Hts.
  assert (Hfin : Forall (fun t => t <> [] /\ final_limit t 0 = fin) ts).
  { eapply Forall_impl; [|exact Hts]. cbn. tauto. }
  unfold iterate_run_intersections. rewrite (max_limit_ok Hr Hne Hfin). cbn [obind].
  assert (Hpos : Forall2 (pos_ok 0) (map (fun rv => (rv, 0%nat)) rvs) ts).
  { clear -Hr Hts. revert Hts. induction Hr as [|rv t rvs ts H Hrs IH]; intros Hts; cbn; constructor.
    - inversion Hts as [|? ? (A & B & _) _]; subst. now apply start_pos_ok.
    - apply IH. now inversion Hts. }
  assert (Hfn : 0 <= fin).
  { inversion Hr as [|rv t rvs' ts' Hr1 _]; subst; [congruence|].
    inversion Hts as [|? ? (_ & Hnn & Hn & Hf) _]; subst.
    pose proof (final_limit_In 0 Hn) as Hi. apply in_map_iff in Hi. destruct Hi as (q & Hq & Hqi).
    rewrite <- Hq. auto. }
  assert (Hne' : map (fun rv : runs_view V => (rv, 0%nat)) rvs <> []) by (destruct rvs; [congruence|discriminate]).
  assert (Hrem : (remaining (map (fun rv => (rv, 0%nat)) rvs) =
    fold_right (fun (rv : runs_view V) n => rv_count rv + n)%nat 0%nat rvs)).
  { clear. induction rvs as [|rv rvs IH]; cbn; auto. rewrite IH. lia. }
  destruct (@intersect_loop_ok fin (fold_right (fun (rv : runs_view V) n => rv_count rv + n)%nat 0%nat rvs)
    0 _ ts Hpos Hne' Hfin Hfn) as (out & Hout & Hs & Hb & Hf & Hl); [lia|].
  exists out. repeat split; auto; try (apply Hb; assumption).
  intros Hstrict. eapply intersect_loop_strict in Hout; eauto; [tauto|].
  clear -Hr Hstrict. revert Hstrict. induction Hr as [|rv t rvs ts H Hrs IH]; intros Hts; cbn; constructor.
  - inversion Hts as [|? ? (A & B) _]; subst. split; auto. cbn.
    intros l Hl. apply in_map_iff in Hl. destruct Hl as (q & <- & Hq). auto.
  - apply IH. now inversion Hts.
Qed.
End Inter.

(** ** Statements used by the property file *)

Lemma vr_lookup_ok {T} (t : table T) i : sorted t ->
  get_run_containing_index (vr_view (build t)) i = Ok (runs_before t i) /\
  get_value (vr_view (build t)) i = match lookup t i with Some v => Ok v | None => UB end.
Proof.
  intros Hs. split.
  - apply search_represents; auto. apply view_build.
  - apply get_value_represents; auto. apply view_build.
Qed.

Lemma vr_lookup_below {T} (t : table T) i : sorted t -> t <> [] -> i < final_limit t 0 ->
  exists v, get_value (vr_view (build t)) i = Ok v /\ lookup t i = Some v.
Proof.
  intros Hs Hne Hi. destruct (lookup_lt_final 0 Hne Hi) as [v Hv]. exists v. split; auto.
  destruct (vr_lookup_ok i Hs) as (_ & ->). now rewrite Hv.
Qed.

Lemma vr_lookup_past {T} (t : table T) i : sorted t -> final_limit t i <= i ->
  get_value (vr_view (build t)) i = UB.
Proof.
  intros Hs Hi. destruct (vr_lookup_ok i Hs) as (_ & ->).
  replace (lookup t i) with (@None T); auto. symmetry. apply lookup_None_iff; auto.
  intros l Hl. pose proof (sorted_final i Hs l Hl). lia.
Qed.

Lemma vr_subset_ok {T} (t : table T) offset len :
  sorted t -> t <> [] -> 0 < len -> offset + len <= final_limit t 0 ->
  exists s, vr_get_runs_subset (build t) offset len vr_empty = Ok (build s) /\
    sorted s /\ final_limit s 0 = len /\ (forall p, In p s -> 0 < fst p <= len) /\
    (forall j, 0 <= j < len -> lookup s j = lookup t (offset + j) /\
       exists v, lookup t (offset + j) = Some v /\
         get_value (vr_view (build t)) (offset + j) = Ok v /\
         get_value (vr_view (build s)) j = Ok v).
Proof.
  intros Hs Hne Hlen Hfin. exists (subset_table t offset len). rewrite vr_subset_eq.
  destruct (@subset_spec _ t offset len 0 Hs Hne Hlen Hfin) as (A & B & C & D).
  split; [reflexivity|]. split; [exact A|]. split; [exact B|]. split; [exact C|].
  intros j Hj. split; [apply D; auto|].
  destruct (vr_lookup_below Hs Hne (i := offset + j)) as (v & Hv1 & Hv2); [lia|].
  exists v. split; [auto|]. split; [auto|].
  destruct (vr_lookup_ok j A) as (_ & ->). now rewrite D, Hv2.
Qed.

Lemma bool_runs_ok (t : table bool) : limits_31 t -> sorted t ->
  rv_count (br_view (build_bool t)) = rv_count (vr_view (build t)) /\
  (forall k, rv_limit (br_view (build_bool t)) k = rv_limit (vr_view (build t)) k) /\
  (forall k, rv_value (br_view (build_bool t)) k = rv_value (vr_view (build t)) k) /\
  (forall i, get_value (br_view (build_bool t)) i = get_value (vr_view (build t)) i) /\
  br_get_limit (build_bool t) = vr_get_limit (build t).
Proof.
  intros H Hs. pose proof (view_build_bool H) as (A1 & A2 & A3). pose proof (view_build t) as (B1 & B2 & B3).
  split; [congruence|]. split; [intros k; now rewrite A2, B2|]. split; [intros k; now rewrite A3, B3|].
  split.
  - intros i. rewrite (@get_value_represents _ _ t i (view_build_bool H) Hs).
    now rewrite (@get_value_represents _ _ t i (view_build t) Hs).
  - unfold br_get_limit, vr_get_limit. unfold build_bool. rewrite build_bool_app, build_eq. cbn [app vr_limits].
    destruct t as [|p t'] using rev_ind; [reflexivity|].
    rewrite !map_app. cbn [map]. rewrite !vback_app. cbn. f_equal.
    apply word_limit_encode. unfold limits_31 in H. rewrite Forall_forall in H. apply H.
    apply in_app_iff. right. now left.
Qed.

Lemma it_advance_past {T} (t : table T) i : sorted t -> final_limit t i <= i ->
  it_advance_to (vr_view (build t)) 0 i = UB.
Proof.
  intros Hs Hi. unfold it_advance_to. pose proof (view_build t) as Hr.
  rewrite (@it_advance_loop_represents _ _ t Hr Hs).
  - destruct (Nat.ltb_spec (runs_before t i) (length t)) as [Hlt|]; [|reflexivity]. exfalso.
    destruct (nth_error (map fst t) (runs_before t i)) as [l|] eqn:E;
      [|apply nth_error_None in E; rewrite map_length in E; lia].
    pose proof (@runs_before_lt_iff _ t i Hs _ _ E).
    pose proof (sorted_final i Hs l (nth_error_In _ _ E)). lia.
  - destruct Hr as (-> & _). lia.
  - lia.
Qed.

Lemma it_seq_ok {T} (t : table T) (is : list Z) :
  sorted t -> t <> [] -> is <> [] -> StronglySorted Z.le is -> last is 0 < final_limit t 0 ->
  exists k l v, it_advance_seq (vr_view (build t)) 0 is = Ok k /\
    it_get_limit (vr_view (build t)) k = Ok l /\ it_get_value (vr_view (build t)) k = Ok v /\
    lookup t (last is 0) = Some v /\ last is 0 < l /\
    (forall j, last is 0 <= j < l -> lookup t j = Some v).
Proof.
  intros Hs Hne Hnil Hsort Hlast. pose proof (view_build t) as Hr.
  set (i0 := hd 0 is).
  assert (Hi0 : StronglySorted Z.le (i0 :: is)).
  { constructor; auto. destruct is as [|x is]; [congruence|]. cbn in i0. subst i0.
    inversion Hsort; subst. constructor; [lia|auto]. }
  pose proof (@it_advance_seq_represents _ _ t 0 Hr Hs Hne is i0 0%nat ltac:(lia) Hi0 Hnil Hlast) as He.
  exists (runs_before t (last is 0)).
  pose proof (@runs_before_lt_length _ t 0 _ Hne Hlast) as Hlt.
  destruct (nth_error t (runs_before t (last is 0))) as [[l v]|] eqn:E; [|apply nth_error_None in E; lia].
  exists l, v. split; [exact He|]. destruct Hr as (_ & Hl & Hv).
  unfold it_get_limit, it_get_value. rewrite Hl, Hv. unfold vget.
  rewrite (map_nth_error fst _ _ E), (map_nth_error snd _ _ E). cbn [fst snd].
  assert (Hgt : last is 0 < l).
  { pose proof (@runs_before_lt_iff _ t (last is 0) Hs _ _ (map_nth_error fst _ _ E)). cbn in *. lia. }
  repeat split; auto.
  - rewrite lookup_runs_before. now rewrite (map_nth_error snd _ _ E).
  - intros j Hj. rewrite lookup_runs_before.
    replace (runs_before t j) with (runs_before t (last is 0)).
    + now rewrite (map_nth_error snd _ _ E).
    + apply Nat.le_antisymm; [apply runs_before_mono; auto; lia|].
      destruct (Nat.le_gt_cases (runs_before t j) (runs_before t (last is 0))); auto.
      pose proof (@runs_before_lt_iff _ t j Hs _ _ (map_nth_error fst _ _ E)). cbn in *. lia.
Qed.

Lemma intersections_build {V} (fin : Z) (ts : list (table V)) : ts <> [] ->
  Forall (fun t => sorted t /\ (forall q, In q t -> 0 <= fst q) /\ t <> [] /\ final_limit t 0 = fin) ts ->
  exists out, iterate_run_intersections (map (fun t => vr_view (build t)) ts) = Ok out /\ sorted out /\
    (forall q, In q out -> 0 <= fst q <= fin) /\ final_limit out 0 = fin /\
    (forall i, 0 <= i < fin -> exists vs, lookup out i = Some vs /\
        Forall2 (fun t v => lookup t i = Some v) ts vs) /\
    (Forall (fun t => strictly_sorted t /\ forall q, In q t -> 0 < fst q) ts -> strictly_sorted out).
Proof.
  intros Hne H. apply intersections_ok; auto.
  - clear. induction ts as [|t ts IH]; cbn; constructor; auto using view_build.
  - destruct ts; [congruence|discriminate].
Qed.

Lemma intersections_unequal_ub :
  exists ts : list (table Z), ts <> [] /\ Forall (fun t => sorted t /\ t <> []) ts /\
  iterate_run_intersections (map (fun t => vr_view (build t)) ts) = UB.
Proof.
  exists [[(3, 1)]; [(5, 2)]]. split; [discriminate|]. split; [|reflexivity].
  repeat constructor; discriminate.
Qed.

Lemma maybe_default_ok {T} (d : T) (lim : Z) :
  (forall rv i, mi_advance_to (mi_make (Some rv) d lim) i =
     omap (fun k => {| mi_runs := Some rv; mi_runIndex := Z.of_nat k; mi_default := d |}) (it_advance_to rv 0 i)) /\
  (forall i it, mi_advance_to (mi_make None d lim) i = Ok it ->
     mi_get_value it = Ok d /\ mi_get_limit it = Ok lim) /\
  (forall i, exists it, mi_advance_to (mi_make None d lim) i = Ok it).
Proof.
  split; [|split].
  - intros rv i. reflexivity.
  - intros i it H. cbn in H. injection H as <-. split; reflexivity.
  - intros i. eexists. reflexivity.
Qed.
