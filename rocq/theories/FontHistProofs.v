From Coq Require Import ZifyBool ZifyNat.
From Verif Require Import Base BaseFacts BuilderModel FontModel FontSpec FontProofs.
Open Scope Z_scope.

(** ** First descriptions *)
Lemma firsts_in : forall l n, In n (map fd_name (firsts l)) <-> In n (map fd_name l).
Proof.
  induction l as [|d l IH]; intros n; cbn [firsts map]; [reflexivity|]. cbn [In]. rewrite <- IH. split; intros [H|H]; auto.
  - right. apply in_map_iff in H. destruct H as (x & X & H). apply filter_In in H. apply in_map_iff. exists x. tauto.
  - destruct (name_eqb n (fd_name d)) eqn:E; [left; apply name_eqb_eq in E; auto|]. right. apply in_map_iff in H. destruct H as (x & X & H). apply in_map_iff. exists x. split; [exact X|].
    apply filter_In. split; [exact H|]. rewrite X, E. reflexivity.
Qed.
Lemma firsts_nodup : forall l, NoDup (map fd_name (firsts l)).
Proof.
  induction l as [|d l IH]; cbn [firsts map]; constructor.
  - intros H. apply in_map_iff in H. destruct H as (x & X & H). apply filter_In in H. destruct H as [_ H]. rewrite X, name_eqb_refl in H. discriminate.
  - revert IH. generalize (firsts l). intros m. induction m as [|x m IHm]; cbn; [constructor|]. intros N. inversion N; subst. destruct (negb _); cbn; [constructor; auto|auto].
    intros H. apply H1. apply in_map_iff in H. destruct H as (y & Y & H). apply filter_In in H. apply in_map_iff. exists y. tauto.
Qed.
Lemma filter_snoc {A} (p : A -> bool) l x : filter p (l ++ [x]) = filter p l ++ (if p x then [x] else []).
Proof. rewrite filter_app. reflexivity. Qed.
Lemma firsts_snoc : forall l d, firsts (l ++ [d]) = firsts l ++ (if existsb (fun x => name_eqb (fd_name x) (fd_name d)) l then [] else [d]).
Proof.
  induction l as [|x l IH]; intros d; cbn [firsts app existsb]; [reflexivity|]. rewrite IH.
  destruct (existsb (fun y => name_eqb (fd_name y) (fd_name d)) l); [rewrite app_nil_r, Bool.orb_true_r, app_nil_r; reflexivity|].
  rewrite Bool.orb_false_r, filter_snoc. assert (E : name_eqb (fd_name d) (fd_name x) = name_eqb (fd_name x) (fd_name d)).
  { apply Bool.eq_iff_eq_true. rewrite !name_eqb_eq. split; auto. }
  rewrite E. destruct (name_eqb (fd_name x) (fd_name d)); reflexivity.
Qed.
Lemma in_named l n : existsb (fun x => name_eqb (fd_name x) n) l = true <-> In n (map fd_name l).
Proof.
  rewrite existsb_exists, in_map_iff. split; intros (x & H1 & H2); exists x.
  - apply name_eqb_eq in H2. auto.
  - split; [auto|]. apply name_eqb_eq. auto.
Qed.

Definition index {A} (l : list A) : list (nat * A) := combine (seq 0 (length l)) l.
Lemma combine_app {A B} (a : list A) (b : list B) a' b' : length a = length b -> combine (a ++ a') (b ++ b') = combine a b ++ combine a' b'.
Proof. revert b. induction a as [|x a IH]; intros [|y b] L; try discriminate; cbn; [reflexivity|]. rewrite IH; auto. Qed.
Lemma index_snoc {A} (l : list A) x : index (l ++ [x]) = index l ++ [(length l, x)].
Proof. unfold index. rewrite app_length. cbn [length]. rewrite seq_app. rewrite combine_app by apply seq_length. reflexivity. Qed.
Lemma index_nth {A} (l : list A) : forall k, nth_error (index l) k = match nth_error l k with Some x => Some (k, x) | None => None end.
Proof.
  unfold index. enough (G : forall (l : list A) s k, nth_error (combine (seq s (length l)) l) k = match nth_error l k with Some x => Some ((s + k)%nat, x) | None => @None (nat * A) end).
  { intros k. rewrite G. reflexivity. }
  clear l. induction l as [|x l IH]; intros s k; cbn [length seq combine]; [destruct k; reflexivity|]. destruct k as [|k]; cbn [nth_error].
  - rewrite Nat.add_0_r. reflexivity.
  - rewrite IH. replace (S s + k)%nat with (s + S k)%nat by lia. reflexivity.
Qed.

Section Hist.
Variables (limit : nat) (map_file : nat -> name -> option Z).
Notation register := (register_family limit map_file).
Notation run := (registrations limit map_file).

Definition face_of (p : nat * face_desc) : face_handle := {| fh_handle := u16 (fst p); fh_weight := fd_weight (snd p); fh_style := fd_style (snd p) |}.
Definition face_tables (hist : list face_desc) (r : registry) : Prop :=
  rg_face_names r = map (fun p => (fd_name (snd p), face_of p)) (index (firsts hist)) /\
  rg_faces r = map (fun p => (fd_name (snd p), map_file (fst p) (fd_uri (snd p)))) (index (firsts hist)).
Lemma names_tables hist : map fst (map (fun p => (fd_name (snd p), face_of p)) (index (firsts hist))) = map fd_name (firsts hist).
Proof.
  rewrite map_map. cbn. unfold index. generalize (firsts hist). intros l. generalize 0%nat. induction l as [|x l IH]; intros k; cbn; [reflexivity|]. rewrite IH. reflexivity.
Qed.
Lemma add_face_tables hist r d r' f : face_tables hist r -> get_or_add_face map_file r d = (r', f) -> face_tables (hist ++ [d]) r' /\ rg_family_names r' = rg_family_names r.
Proof.
  intros [T1 T2] E. unfold get_or_add_face in E. unfold face_tables. rewrite firsts_snoc. destruct (lookup (fd_name d) (rg_face_names r)) as [h|] eqn:L.
  - inversion E; subst. assert (X : existsb (fun x => name_eqb (fd_name x) (fd_name d)) hist = true).
    { apply in_named, firsts_in. rewrite <- names_tables, <- T1. apply lookup_in in L. apply (in_map fst) in L. exact L. }
    rewrite X, app_nil_r. auto.
  - inversion E; subst; clear E. cbn [rg_face_names rg_faces rg_family_names]. assert (X : existsb (fun x => name_eqb (fd_name x) (fd_name d)) hist = false).
    { apply Bool.not_true_is_false. intros X. apply in_named, firsts_in in X. rewrite <- names_tables, <- T1 in X. apply lookup_none in L. contradiction. }
    assert (LEN : length (rg_faces r) = length (firsts hist)) by (rewrite T2, map_length; unfold index; rewrite combine_length, seq_length, Nat.min_id; reflexivity).
    rewrite X, index_snoc, !map_app. cbn [map fst snd]. rewrite <- T1, <- T2, LEN. auto.
Qed.
Lemma add_faces_tables : forall fs hist r t dflt r' t' dflt', face_tables hist r -> add_faces map_file r t dflt fs = Ok (r', t', dflt') ->
  face_tables (hist ++ fs) r' /\ rg_family_names r' = rg_family_names r.
Proof.
  induction fs as [|d fs IH]; intros hist r t dflt r' t' dflt' T E; cbn [add_faces] in E.
  - inversion E; subst. rewrite app_nil_r. auto.
  - destruct (get_or_add_face map_file r d) as [r1 f] eqn:E1. destruct (add_face_tables _ _ _ _ _ T E1) as [T1 N1]. apply obind_ok_inv in E. destruct E as (t1 & _ & E).
    destruct (IH _ _ _ _ _ _ _ T1 E) as [T2 N2]. rewrite <- app_assoc in T2. split; [exact T2|congruence].
Qed.
Lemma add_family_names r n r' h : get_or_add_family limit r n = (r', h) -> incl (map fst (rg_family_names r')) (n :: map fst (rg_family_names r)) /\ rg_faces r' = rg_faces r /\ rg_face_names r' = rg_face_names r.
Proof.
  unfold get_or_add_family. destruct (lookup n (rg_family_names r)); intros E; inversion E; subst; cbn; (split; [|auto]).
  - apply incl_tl, incl_refl.
  - rewrite map_app. cbn. intros x X. apply in_app_iff in X. destruct X as [X|[X|[]]]; [right; exact X|left; exact X].
Qed.
Lemma add_families_names : forall ns r r' hs, add_families limit r ns = (r', hs) -> incl (map fst (rg_family_names r')) (ns ++ map fst (rg_family_names r)) /\ rg_faces r' = rg_faces r /\ rg_face_names r' = rg_face_names r.
Proof.
  induction ns as [|n ns IH]; intros r r' hs E; cbn [add_families] in E.
  - inversion E; subst. split; [apply incl_refl|auto].
  - destruct (get_or_add_family limit r n) as [r1 h] eqn:E1. destruct (add_families limit r1 ns) as [r2 hs2] eqn:E2. inversion E; subst; clear E.
    destruct (add_family_names _ _ _ _ E1) as (A & B & C). destruct (IH _ _ _ E2) as (A2 & B2 & C2). split; [|split; congruence].
    intros x X. apply A2 in X. apply in_app_iff in X. destruct X as [X|X]; [right; apply in_app_iff; auto|]. apply A in X. destruct X as [X|X]; [left; exact X|right; apply in_app_iff; auto].
Qed.
Lemma register_tables hist r d r' e : face_tables hist r -> register r d = Ok (r', e) ->
  face_tables (hist ++ faces_in [d] [e]) r' /\ incl (map fst (rg_family_names r')) (fy_name d :: fy_linked d ++ fy_fallback d ++ map fst (rg_family_names r)).
Proof.
  intros T E. unfold register_family in E. destruct (get_or_add_family limit r (fy_name d)) as [r1 h] eqn:E1. destruct (add_family_names _ _ _ _ E1) as (A1 & B1 & C1).
  assert (T1 : face_tables hist r1) by (destruct T as [X Y]; split; congruence).
  assert (I1 : incl (map fst (rg_family_names r1)) (fy_name d :: fy_linked d ++ fy_fallback d ++ map fst (rg_family_names r))).
  { intros x X. apply A1 in X. destruct X as [X|X]; [left; exact X|right; rewrite !in_app_iff; auto]. }
  apply obind_ok_inv in E. destruct E as (f & F & E). destruct (fa_init f).
  { inversion E; subst. cbn. rewrite app_nil_r. auto. }
  destruct (match fy_scripts d with [] => (repeat true limit, true) | _ :: _ => set_scripts (fa_scripts f) (fy_scripts d) end) as [bits fine].
  destruct fine; cbn [negb] in E; [|inversion E; subst; cbn; rewrite app_nil_r; auto].
  destruct (add_families limit (put_fam r1 h _) (fy_linked d)) as [r3 linked] eqn:E3. destruct (add_families limit r3 (fy_fallback d)) as [r4 fallback] eqn:E4.
  destruct (add_families_names _ _ _ _ E3) as (A3 & B3 & C3). destruct (add_families_names _ _ _ _ E4) as (A4 & B4 & C4). cbn [put_fam rg_faces rg_face_names rg_family_names] in *.
  assert (T4 : face_tables hist r4) by (destruct T1 as [X Y]; split; congruence).
  assert (I4 : incl (map fst (rg_family_names r4)) (fy_name d :: fy_linked d ++ fy_fallback d ++ map fst (rg_family_names r))).
  { intros x X. apply A4 in X. apply in_app_iff in X. destruct X as [X|X]; [right; rewrite !in_app_iff; auto|]. apply A3 in X. apply in_app_iff in X. destruct X as [X|X]; [right; rewrite !in_app_iff; auto|]. apply I1. exact X. }
  apply obind_ok_inv in E. destruct E as (f' & F' & E). destruct (fy_faces d) as [fs|] eqn:EF.
  - apply obind_ok_inv in E. destruct E as ([[r5 t] dflt] & E5 & E). inversion E; subst; clear E. destruct (add_faces_tables _ _ _ _ _ _ _ _ T4 E5) as [T5 N5].
    cbn [faces_in]. rewrite EF, app_nil_r. split; [exact T5|]. cbn [put_fam rg_family_names]. rewrite N5. exact I4.
  - inversion E; subst. cbn. rewrite app_nil_r. auto.
Qed.
Lemma faces_in_cons d e ds es : faces_in (d :: ds) (e :: es) = faces_in [d] [e] ++ faces_in ds es.
Proof. destruct e; cbn; rewrite ?app_nil_r; reflexivity. Qed.
Lemma run_tables : forall ds hist r r' es, face_tables hist r -> run r ds = Ok (r', es) ->
  face_tables (hist ++ faces_in ds es) r' /\ incl (map fst (rg_family_names r')) (family_names ds ++ map fst (rg_family_names r)).
Proof.
  induction ds as [|d ds IH]; intros hist r r' es T E; cbn [registrations] in E.
  - inversion E; subst. cbn. rewrite app_nil_r. split; [exact T|apply incl_refl].
  - apply obind_ok_inv in E. destruct E as ([r1 e] & E1 & E). apply obind_ok_inv in E. destruct E as ([r2 es2] & E2 & E). inversion E; subst; clear E.
    destruct (register_tables _ _ _ _ _ T E1) as [T1 I1]. destruct (IH _ _ _ _ T1 E2) as [T2 I2]. rewrite faces_in_cons, app_assoc. split; [exact T2|].
    intros x X. apply I2 in X. cbn [family_names flat_map]. apply in_app_iff in X. destruct X as [X|X].
    + rewrite !in_app_iff. left. right. exact X.
    + apply I1 in X. rewrite !in_app_iff. cbn. rewrite ?in_app_iff. cbn in X. rewrite !in_app_iff in X. tauto.
Qed.
Lemma tables_empty : face_tables [] rg_empty.
Proof. split; reflexivity. Qed.
Lemma incl_distinct (l m : list name) : NoDup l -> incl l m -> Z.of_nat (length l) <= distinct m.
Proof.
  intros N I. unfold distinct. apply inj_le. apply NoDup_incl_length; [exact N|]. intros x X. apply nodup_In. apply I. exact X.
Qed.

(** ** From the empty registry *)
Lemma from_empty ds r es : run rg_empty ds = Ok (r, es) ->
  well limit r /\ face_tables (faces_in ds es) r /\ Z.of_nat (length (rg_families r)) <= distinct (family_names ds) /\ Z.of_nat (length (rg_faces r)) <= distinct (map fd_name (faces_in ds es)).
Proof.
  intros E. destruct (registrations_spec limit map_file ds _ _ _ (well_empty limit) E) as (W & _ & _). destruct (run_tables ds [] rg_empty r es tables_empty E) as [T I]. cbn [app] in T.
  split; [exact W|]. split; [exact T|]. split.
  - assert (L : length (rg_families r) = length (map fst (rg_family_names r))).
    { pose proof (wl_handles _ _ W) as H. unfold numbered in H. apply (f_equal (@length _)) in H. rewrite !map_length, seq_length in H. rewrite map_length. auto. }
    rewrite L. apply incl_distinct; [exact (wl_names _ _ W)|]. cbn in I. rewrite app_nil_r in I. exact I.
  - destruct T as [_ T]. rewrite T, map_length. unfold index. rewrite combine_length, seq_length, Nat.min_id. rewrite <- (map_length fd_name). apply incl_distinct; [apply firsts_nodup|].
    intros x X. apply firsts_in. exact X.
Qed.
Lemma same_handle r n m h : well limit r -> Z.of_nat (length (rg_families r)) <= 65536 -> lookup n (rg_family_names r) = Some h -> lookup m (rg_family_names r) = Some h -> n = m.
Proof.
  intros W C N M. destruct (@lookup_nth _ _ _ _ N) as (i & I). destruct (@lookup_nth _ _ _ _ M) as (j & J).
  destruct (@numbered_nth _ _ (rg_families r) i h (wl_handles _ _ W)) as [LI HI]; [rewrite nth_error_map, I; reflexivity|].
  destruct (@numbered_nth _ _ (rg_families r) j h (wl_handles _ _ W)) as [LJ HJ]; [rewrite nth_error_map, J; reflexivity|].
  rewrite u16_small in HI, HJ by lia. assert (i = j) by lia. subst. congruence.
Qed.

(** An initialised family was registered with success under a name of that handle. *)
Lemma init_source : forall ds r r' es i f, well limit r -> run r ds = Ok (r', es) -> nth_error (rg_families r') i = Some f -> fa_init f = true ->
  (exists f0, nth_error (rg_families r) i = Some f0 /\ fa_init f0 = true) \/
  exists d, succeeded ds es d /\ lookup (fy_name d) (rg_family_names r') = Some (Z.of_nat i).
Proof.
  induction ds as [|d ds IH]; intros r r' es i f W E N I; cbn [registrations] in E.
  - inversion E; subst. left. eauto.
  - apply obind_ok_inv in E. destruct E as ([r1 e] & E1 & E). apply obind_ok_inv in E. destruct E as ([r2 es2] & E2 & E). inversion E; subst; clear E.
    destruct (register_spec _ _ _ _ _ _ W E1) as (W1 & L1 & R1 & _ & NW). destruct (registrations_spec _ _ _ _ _ _ W1 E2) as (W2 & L2 & _).
    destruct (IH _ _ _ _ _ W1 E2 N I) as [(f0 & N0 & I0)|(d0 & (j & S1 & S2) & L0)].
    + destruct (NW i f0 N0 I0) as [O|[O1 O2]]; [left; eauto|]. right. exists d. split; [exists O; subst; auto|]. apply (lt_names _ _ L2). exact O2.
    + right. exists d0. split; [exists (S j); auto|exact L0].
Qed.

Lemma registrations_at ds r es d : run rg_empty ds = Ok (r, es) -> succeeded ds es d ->
  exists r1 r2, well limit r1 /\ well limit r2 /\ register r1 d = Ok (r2, RNone) /\ later r2 r /\ (~ In RThrew es -> clean limit r1).
Proof.
  intros E (i & D & N). destruct (nth_error_split ds i D) as (d1 & d2 & -> & <-). destruct (registrations_app _ _ _ _ _ _ _ E) as (ra & es1 & es2 & E1 & E2 & -> & L1).
  cbn [registrations] in E2. apply obind_ok_inv in E2. destruct E2 as ([rb e] & E3 & E2). apply obind_ok_inv in E2. destruct E2 as ([rc es3] & E4 & E2). inversion E2; subst; clear E2.
  rewrite nth_error_app2 in N by lia. rewrite L1, Nat.sub_diag in N. cbn in N. inversion N; subst.
  destruct (registrations_spec _ _ _ _ _ _ (well_empty limit) E1) as (W1 & _ & C1). destruct (register_spec _ _ _ _ _ _ W1 E3) as (W2 & _ & _ & _). destruct (registrations_spec _ _ _ _ _ _ W2 E4) as (_ & L & _).
  exists ra, rb. split; [exact W1|]. split; [exact W2|]. split; [exact E3|]. split; [exact L|]. intros NI. apply C1; [constructor|]. intros H. apply NI. apply in_app_iff. auto.
Qed.
Lemma kept_fam r r' h f : later r r' -> get_fam r h = Ok f -> fa_init f = true -> get_fam r' h = Ok f.
Proof.
  intros L G I. unfold get_fam in *. apply zget_ok in G. destruct G as [G1 G2]. destruct (lt_fams _ _ L _ _ G2) as (f' & F & EQ). specialize (EQ I). subst. apply nth_zget; assumption.
Qed.
Lemma succeeded_fam ds r es d : run rg_empty ds = Ok (r, es) -> succeeded ds es d ->
  exists f, lookup (fy_name d) (rg_family_names r) = Some (get_family r (fy_name d)) /\ get_fam r (get_family r (fy_name d)) = Ok f /\ fa_init f = true.
Proof.
  intros E S. destruct (registrations_at _ _ _ _ E S) as (r1 & r2 & W1 & W2 & R & L & _). destruct (register_spec _ _ _ _ _ _ W1 R) as (_ & _ & RD & _).
  inversion RD; subst. match goal with H : lookup _ _ = Some h |- _ => apply (lt_names _ _ L) in H; pose proof H as LK end. unfold get_family. rewrite LK. exists f. split; [reflexivity|]. split; [|assumption].
  eapply kept_fam; eauto.
Qed.

(** ** The two loops over the faces *)
Lemma last_cons P d fs x : last_with P fs x -> last_with P (d :: fs) x.
Proof. intros (a & b & -> & H). exists (d :: a), b. auto. Qed.
Lemma slot_fold w s : forall fs (hs : list face_handle) init, length fs = length hs ->
  let res := fold_left (fun o p => if (w =? fd_weight (fst p)) && (s =? fd_style (fst p)) then Ok (snd p) else o) (combine fs hs) init in
  (exists d f, last_with (is_for w s) fs d /\ In (d, f) (combine fs hs) /\ res = Ok f) \/ (Forall (fun d => ~ is_for w s d) fs /\ res = init).
Proof.
  induction fs as [|d fs IH]; intros [|h hs] init L; try discriminate; cbn [combine fold_left fst snd].
  - right. split; [constructor|reflexivity].
  - cbn zeta. set (init' := if (w =? fd_weight d) && (s =? fd_style d) then Ok h else init). destruct (IH hs init' ltac:(cbn in L; lia)) as [(d0 & f0 & A & B & C)|[A B]].
    + left. exists d0, f0. split; [apply last_cons; exact A|]. split; [right; exact B|exact C].
    + cbn zeta in B. rewrite B. unfold init'. destruct ((w =? fd_weight d) && (s =? fd_style d)) eqn:M.
      * left. exists d, h. split; [|split; [left; reflexivity|reflexivity]]. exists [], fs. split; [reflexivity|]. split; [unfold is_for; lia|exact A].
      * right. split; [|reflexivity]. constructor; [unfold is_for; lia|exact A].
Qed.
Lemma default_fold : forall fs (hs : list face_handle) init, length fs = length hs -> Forall (fun f => face_valid f = true) hs ->
  let res := fold_left (fun o p => step_default (snd p) (fst p) o) (combine fs hs) init in
  (exists d f, last_with (is_for REGULAR NORMAL) fs d /\ In (d, f) (combine fs hs) /\ res = f) \/
  (Forall (fun d => ~ is_for REGULAR NORMAL d) fs /\ ((face_valid init = true /\ res = init) \/ (face_valid init = false /\ match combine fs hs with [] => res = init | p :: _ => res = snd p end))).
Proof.
  induction fs as [|d fs IH]; intros [|h hs] init L V; try discriminate; cbn [combine fold_left fst snd].
  - right. split; [constructor|]. destruct (face_valid init); auto.
  - inversion V as [|? ? V1 V2]; subst. cbn zeta. set (init' := step_default h d init). destruct (IH hs init' ltac:(cbn in L; lia) V2) as [(d0 & f0 & A & B & C)|[A B]].
    + left. exists d0, f0. split; [apply last_cons; exact A|]. split; [right; exact B|exact C].
    + cbn zeta in B. assert (VI : face_valid init' = true) by (unfold init', step_default; rewrite V1; destruct (face_valid init) eqn:FI; cbn; [destruct (_ && _); assumption|assumption]).
      destruct B as [[_ B]|[B _]]; [|congruence]. rewrite B. unfold init', step_default. rewrite V1. cbn [andb].
      destruct ((fd_weight d =? REGULAR) && (fd_style d =? NORMAL)) eqn:M.
      * left. exists d, h. split; [exists [], fs; split; [reflexivity|]; split; [unfold is_for; lia|exact A]|]. split; [left; reflexivity|]. rewrite Bool.orb_true_r. reflexivity.
      * right. split; [constructor; [unfold is_for; lia|exact A]|]. destruct (face_valid init); cbn; auto.
Qed.
Lemma served fs (hs : list face_handle) w s : length fs = length hs -> Forall (fun f => face_valid f = true) hs -> fs <> [] ->
  exists d f, answers fs w s d /\ In (d, f) (combine fs hs) /\
   omap (fun g => if face_valid g then g else fold_left (fun o p => step_default (snd p) (fst p) o) (combine fs hs) no_face)
        (fold_left (fun o p => if (w =? fd_weight (fst p)) && (s =? fd_style (fst p)) then Ok (snd p) else o) (combine fs hs) (Ok no_face)) = Ok f.
Proof.
  intros L V NE. destruct (slot_fold w s fs hs (Ok no_face) L) as [(d & f & A & B & C)|[A C]]; cbn zeta in C; rewrite C.
  - exists d, f. split; [left; exact A|]. split; [exact B|]. cbn. replace (face_valid f) with true; [reflexivity|]. symmetry. rewrite Forall_forall in V. apply V. exact (in_combine_r _ _ _ _ B).
  - cbn [omap obind]. change (face_valid no_face) with false. cbv iota. destruct (default_fold fs hs no_face L V) as [(d & f & A2 & B2 & C2)|[A2 C2]]; cbn zeta in C2.
    + exists d, f. split; [right; split; [exact A|left; exact A2]|]. split; [exact B2|]. cbn. rewrite C2. reflexivity.
    + destruct C2 as [[X _]|[_ C2]]; [discriminate|]. destruct fs as [|d fs]; [congruence|]. destruct hs as [|h hs]; [discriminate|]. cbn [combine] in C2. exists d, h.
      split; [right; split; [exact A|right; split; [exact A2|exists fs; reflexivity]]|]. split; [left; reflexivity|]. cbn [combine]. unfold omap. cbn [obind]. f_equal. exact C2.
Qed.
Lemma known_face hist r n f : face_tables hist r -> lookup n (rg_face_names r) = Some f ->
  exists k d, nth_error (firsts hist) k = Some d /\ fd_name d = n /\ f = face_of (k, d) /\ nth_error (rg_faces r) k = Some (fd_name d, map_file k (fd_uri d)).
Proof.
  intros [T1 T2] L. destruct (@lookup_nth _ _ _ _ L) as (k & K). rewrite T1, nth_error_map, index_nth in K. destruct (nth_error (firsts hist) k) as [d|] eqn:D; [|discriminate]. cbn in K. inversion K; subst.
  exists k, d. split; [exact D|]. split; [reflexivity|]. split; [reflexivity|]. rewrite T2, nth_error_map, index_nth, D. reflexivity.
Qed.
Lemma Forall2_in {A B} (R : A -> B -> Prop) l m a b : Forall2 R l m -> In (a, b) (combine l m) -> R a b.
Proof. intros F. induction F; cbn; [tauto|]. intros [H1|H1]; [inversion H1; subst; assumption|auto]. Qed.
Lemma Forall2_length' {A B} (R : A -> B -> Prop) l m : Forall2 R l m -> length l = length m.
Proof. intros F. induction F; cbn; auto. Qed.

Lemma serves ds r es d fs w s : run rg_empty ds = Ok (r, es) -> succeeded ds es d -> fy_faces d = Some fs -> fs <> [] ->
  distinct (map fd_name (faces_in ds es)) <= 65535 -> 0 <= w < 9 -> 0 <= s < 2 ->
  exists d0 f, answers fs w s d0 /\ get_face_data_handle r (get_family r (fy_name d)) w s = Ok f /\ face_valid f = true /\
    exists k d1, nth_error (firsts (faces_in ds es)) k = Some d1 /\ fd_name d1 = fd_name d0 /\
      f = {| fh_handle := Z.of_nat k; fh_weight := fd_weight d1; fh_style := fd_style d1 |} /\ nth_error (rg_faces r) k = Some (fd_name d1, map_file k (fd_uri d1)).
Proof.
  intros E S EF NE CNT Hw Hs. destruct (from_empty _ _ _ E) as (W & T & _ & FC). destruct (registrations_at _ _ _ _ E S) as (r1 & r2 & W1 & W2 & R & L & _).
  destruct (register_spec _ _ _ _ _ _ W1 R) as (_ & _ & RD & _). inversion RD as [| | |h f fs0 hs LK GF IN EF' DS F2 SL _ _ _ X]; subst. assert (fs0 = fs) by congruence. subst fs0.
  assert (F2r : Forall2 (fun d f => lookup (fd_name d) (rg_face_names r) = Some f) fs hs) by (clear - F2 L; induction F2; constructor; auto; apply (lt_faces _ _ L); assumption).
  assert (KF : forall g n, lookup n (rg_face_names r) = Some g -> exists k d1, nth_error (firsts (faces_in ds es)) k = Some d1 /\ fd_name d1 = n /\ g = {| fh_handle := Z.of_nat k; fh_weight := fd_weight d1; fh_style := fd_style d1 |} /\ nth_error (rg_faces r) k = Some (fd_name d1, map_file k (fd_uri d1)) /\ Z.of_nat k < 65535).
  { intros g n G. destruct (known_face _ _ _ _ T G) as (k & d1 & K1 & K2 & K3 & K4). assert (k < length (rg_faces r))%nat by (apply nth_error_Some; congruence).
    exists k, d1. split; [exact K1|]. split; [exact K2|]. split; [rewrite K3; unfold face_of; cbn [fst snd]; rewrite u16_small by lia; reflexivity|]. split; [exact K4|lia]. }
  assert (V : Forall (fun f => face_valid f = true) hs).
  { clear - F2r KF. induction F2r; constructor; auto. destruct (KF _ _ H) as (k & d1 & _ & _ & -> & _ & LT). unfold face_valid, INVALID. cbn [fh_handle]. lia. }
  destruct (served fs hs w s (Forall2_length' _ _ _ F2r) V NE) as (d0 & g & A & I & G). exists d0, g. split; [exact A|].
  assert (GF' : get_fam r h = Ok f) by (eapply kept_fam; eauto). apply (lt_names _ _ L) in LK. unfold get_face_data_handle, get_family. rewrite LK, GF'. cbn [obind]. rewrite (SL w s Hw Hs).
  split; [exact G|]. pose proof (Forall2_in _ _ _ _ _ F2r I) as LG. cbv beta in LG. destruct (KF _ _ LG) as (k & d1 & K1 & K2 & K3 & K4 & K5).
  split; [rewrite K3; unfold face_valid, INVALID; cbn [fh_handle]; lia|]. exists k, d1. auto.
Qed.
Lemma run_defined : forall ds r, well limit r -> Forall (fun d => forall fs, fy_faces d = Some fs -> descs_ok fs) ds -> exists x, run r ds = Ok x.
Proof.
  induction ds as [|d ds IH]; intros r W F; cbn [registrations]; [eauto|]. inversion F; subst. destruct (register_defined limit map_file r d W) as ([r1 e] & E1); [assumption|].
  rewrite E1. cbn [obind]. destruct (register_spec _ _ _ _ _ _ W E1) as (W1 & _). destruct (IH r1 W1) as ([r2 es] & E2); [assumption|]. rewrite E2. cbn. eauto.
Qed.

(** ** Stability *)
Lemma stable ds r es ds' r' es' : run rg_empty ds = Ok (r, es) -> run r ds' = Ok (r', es') ->
  (forall n, get_family r n <> INVALID -> get_family r' n = get_family r n) /\
  (forall d w s, succeeded ds es d -> get_face_data_handle r' (get_family r (fy_name d)) w s = get_face_data_handle r (get_family r (fy_name d)) w s).
Proof.
  intros E E'. destruct (from_empty _ _ _ E) as (W & _). destruct (registrations_spec _ _ _ _ _ _ W E') as (W' & L & _). split.
  - intros n N. unfold get_family in *. destruct (lookup n (rg_family_names r)) as [h|] eqn:K; [|congruence]. rewrite (lt_names _ _ L _ _ K). reflexivity.
  - intros d w s S. destruct (succeeded_fam _ _ _ _ E S) as (f & A & B & C). unfold get_face_data_handle. rewrite B, (kept_fam _ _ _ _ L B C). reflexivity.
Qed.
Lemma already ds r es d d' : run rg_empty ds = Ok (r, es) -> succeeded ds es d -> fy_name d' = fy_name d -> register r d' = Ok (r, RAlready).
Proof.
  intros E S N. destruct (succeeded_fam _ _ _ _ E S) as (f & A & B & C). unfold register_family, get_or_add_family. rewrite N, A, B. cbn [obind]. rewrite C. reflexivity.
Qed.
Lemma already_only_if ds r es d r' : run rg_empty ds = Ok (r, es) -> register r d = Ok (r', RAlready) -> distinct (fy_name d :: family_names ds) <= 65536 ->
  r' = r /\ exists d0, succeeded ds es d0 /\ fy_name d0 = fy_name d.
Proof.
  intros E R CNT. destruct (from_empty _ _ _ E) as (W & _). destruct (register_spec _ _ _ _ _ _ W R) as (W' & L & RD & _ & NW). inversion RD as [h f A GF IN X| | |]; subst.
  destruct (add_family_spec limit map_file _ _ _ _ W A) as (_ & _ & LK & _ & _ & CASES). unfold get_fam in GF. apply zget_ok in GF. destruct GF as [G0 G1].
  destruct (NW _ _ G1 IN) as [O|[O _]]; [|discriminate].
  assert (C' : Z.of_nat (length (rg_families r')) <= 65536).
  { assert (E2 : run rg_empty (ds ++ [{| fy_name := fy_name d; fy_scripts := []; fy_linked := []; fy_fallback := []; fy_faces := None |}]) = Ok (r', es ++ [RAlready])).
    { clear - E A G0 G1 IN O W. revert E. generalize (@rg_empty). revert es. induction ds as [|x ds IH]; intros es r0 E; cbn [registrations app] in *.
      - inversion E; subst. cbn [registrations]. unfold register_family. cbn [fy_name]. rewrite A. unfold get_fam. rewrite (@nth_zget _ _ _ _ G0 G1). cbn [obind]. rewrite IN. reflexivity.
      - apply obind_ok_inv in E. destruct E as ([r1 e] & E1 & E). apply obind_ok_inv in E. destruct E as ([r2 es2] & E2 & E). inversion E; subst; clear E. rewrite E1. cbn [obind]. rewrite (IH _ _ E2). reflexivity. }
    destruct (from_empty _ _ _ E2) as (_ & _ & C & _). etransitivity; [exact C|]. etransitivity; [|exact CNT]. unfold distinct. apply inj_le. apply NoDup_incl_length; [apply NoDup_nodup|].
    intros x X0. apply nodup_In in X0. apply nodup_In. unfold family_names in X0. rewrite flat_map_app in X0. cbn in X0. apply in_app_iff in X0. destruct X0 as [X0|[X0|[]]]; [right; exact X0|left; exact X0]. }
  destruct (init_source _ _ _ _ _ _ (well_empty limit) E O IN) as [(f0 & N0 & _)|(d0 & S0 & L0)]; [destruct (Z.to_nat h); discriminate N0|].
  rewrite Z2Nat.id in L0 by exact G0. assert (NM : fy_name d0 = fy_name d) by (apply (same_handle r' _ _ h W' C'); [apply (lt_names _ _ L); exact L0|exact LK]).
  split; [|exists d0; auto]. destruct CASES as [->|(X9 & _)]; [reflexivity|]. rewrite <- NM, L0 in X9. discriminate.
Qed.
Lemma handles_distinct ds r es n m : run rg_empty ds = Ok (r, es) -> distinct (family_names ds) <= 65535 -> get_family r n <> INVALID -> get_family r n = get_family r m -> n = m.
Proof.
  intros E C V Q. destruct (from_empty _ _ _ E) as (W & _ & FC & _). unfold get_family in *. destruct (lookup n (rg_family_names r)) as [h|] eqn:N; [|congruence].
  destruct (lookup m (rg_family_names r)) as [h'|] eqn:M; [|congruence]. subst h'. eapply same_handle; eauto. lia.
Qed.
Lemma handle_valid ds r es n h : run rg_empty ds = Ok (r, es) -> distinct (family_names ds) <= 65535 -> lookup n (rg_family_names r) = Some h -> h <> INVALID.
Proof.
  intros E C N. destruct (from_empty _ _ _ E) as (W & _ & FC & _). destruct (handle_fam _ map_file _ _ _ W N) as (f & _ & NF & R & _).
  assert (Z.to_nat h < length (rg_families r))%nat by (apply nth_error_Some; congruence). unfold INVALID. lia.
Qed.
Lemma unknown_invalid ds r es n : run rg_empty ds = Ok (r, es) -> ~ In n (family_names ds) -> get_family r n = INVALID.
Proof.
  intros E N. destruct (run_tables ds [] rg_empty r es tables_empty E) as [_ I]. unfold get_family. destruct (lookup n (rg_family_names r)) as [h|] eqn:K; [|reflexivity].
  exfalso. apply N. apply lookup_in in K. apply (in_map fst) in K. apply I in K. rewrite app_nil_r in K. exact K.
Qed.

(** ** Failure *)
Lemma no_faces_case ds r es d r' : run rg_empty ds = Ok (r, es) -> register r d = Ok (r', RNoFaces) ->
  rg_faces r' = rg_faces r /\ rg_face_names r' = rg_face_names r /\
  get_fam r' (get_family r' (fy_name d)) = Ok (fa_empty limit) /\
  (forall i f, nth_error (rg_families r') i = Some f -> nth_error (rg_families r) i = Some f \/ f = fa_empty limit).
Proof.
  intros E R. destruct (from_empty _ _ _ E) as (W & T & _). destruct (register_tables _ _ _ _ _ T R) as [[T1 T2] _]. cbn in T1, T2. rewrite app_nil_r in T1, T2. destruct T as [U1 U2].
  destruct (register_spec _ _ _ _ _ _ W R) as (_ & _ & RD & _). inversion RD; subst. split; [congruence|]. split; [congruence|]. split; [|assumption]. unfold get_family.
  match goal with H : lookup _ _ = Some h |- _ => rewrite H end. assumption.
Qed.
Lemma scripts_exact ds r es d c : run rg_empty ds = Ok (r, es) -> succeeded ds es d -> ~ In RThrew es -> 0 <= c < Z.of_nat limit ->
  exists f, get_fam r (get_family r (fy_name d)) = Ok f /\ zget (fa_scripts f) c = Ok (match fy_scripts d with [] => true | cs => existsb (Z.eqb c) cs end).
Proof.
  intros E S NT C. destruct (registrations_at _ _ _ _ E S) as (r1 & r2 & W1 & W2 & R & L & CL). destruct (register_spec _ _ _ _ _ _ W1 R) as (_ & _ & RD & _). inversion RD; subst.
  match goal with H : lookup _ _ = Some h |- _ => apply (lt_names _ _ L) in H; pose proof H as LK end. unfold get_family. rewrite LK. exists f. split; [eapply kept_fam; eauto|]. auto.
Qed.
Lemma clean_history ds r es n h : run rg_empty ds = Ok (r, es) -> ~ In RThrew es -> distinct (family_names ds) <= 65535 -> lookup n (rg_family_names r) = Some h ->
  ~ (exists d, succeeded ds es d /\ fy_name d = n) -> get_fam r h = Ok (fa_empty limit).
Proof.
  intros E NT C K NS. destruct (from_empty _ _ _ E) as (W & _ & FC & _). destruct (registrations_spec _ _ _ _ _ _ (well_empty limit) E) as (_ & _ & CL). specialize (CL ltac:(constructor) NT).
  destruct (handle_fam _ map_file _ _ _ W K) as (f & G & NF & R & _). destruct (fa_init f) eqn:I.
  - exfalso. destruct (init_source _ _ _ _ _ _ (well_empty limit) E NF I) as [(f0 & N0 & _)|(d0 & S0 & L0)]; [destruct (Z.to_nat h); discriminate N0|].
    apply NS. exists d0. split; [exact S0|]. rewrite Z2Nat.id in L0 by lia. eapply same_handle; eauto. lia.
  - rewrite G. f_equal. unfold clean in CL. rewrite Forall_forall in CL. apply CL; [exact (nth_error_In _ _ NF)|exact I].
Qed.
End Hist.
