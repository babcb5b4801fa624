From Coq Require Import ZifyBool ZifyNat.
From Verif Require Import Base BaseFacts BuilderModel FontModel FontSpec.
Open Scope Z_scope.

(** ** Maps *)
Lemma name_eqb_eq a b : name_eqb a b = true <-> a = b.
Proof. unfold name_eqb. destruct (list_eq_dec Z.eq_dec a b); split; congruence. Qed.
Lemma name_eqb_refl a : name_eqb a a = true.
Proof. apply name_eqb_eq. reflexivity. Qed.
Lemma lookup_app {V} n (m m' : list (name * V)) : lookup n (m ++ m') = match lookup n m with Some v => Some v | None => lookup n m' end.
Proof. induction m as [|[k v] m IH]; [reflexivity|]. cbn. destruct (name_eqb k n); [reflexivity|exact IH]. Qed.
Lemma lookup_in {V} n (m : list (name * V)) v : lookup n m = Some v -> In (n, v) m.
Proof.
  induction m as [|[k x] m IH]; cbn; [discriminate|]. destruct (name_eqb k n) eqn:E; intros H; [|right; auto].
  apply name_eqb_eq in E. inversion H; subst. left. reflexivity.
Qed.
Lemma lookup_none {V} n (m : list (name * V)) : lookup n m = None <-> ~ In n (map fst m).
Proof.
  induction m as [|[k x] m IH]; cbn; [tauto|]. destruct (name_eqb k n) eqn:E.
  - apply name_eqb_eq in E. split; [discriminate|intros H; exfalso; apply H; left; exact E].
  - rewrite IH. split; [intros H [K|K]; [apply name_eqb_eq in K; congruence|auto]|intros H K; apply H; right; exact K].
Qed.
Lemma in_lookup {V} n (m : list (name * V)) v : NoDup (map fst m) -> In (n, v) m -> lookup n m = Some v.
Proof.
  induction m as [|[k x] m IH]; cbn; [tauto|]. intros ND [H|H].
  - inversion H; subst. rewrite name_eqb_refl. reflexivity.
  - inversion ND; subst. destruct (name_eqb k n) eqn:E; [|auto]. apply name_eqb_eq in E. subst. exfalso. apply H2. apply (in_map fst) in H. exact H.
Qed.
Lemma lookup_nth {V} n (m : list (name * V)) v : lookup n m = Some v -> exists i, nth_error m i = Some (n, v).
Proof. intros H. apply lookup_in in H. apply In_nth_error in H. exact H. Qed.

(** ** Handles *)
Lemma u16_range k : 0 <= u16 k < 65536.
Proof. unfold u16. apply Z.mod_pos_bound. lia. Qed.
Lemma u16_le k : u16 k <= Z.of_nat k.
Proof. unfold u16. apply Z.mod_le; lia. Qed.
Lemma u16_small k : Z.of_nat k < 65536 -> u16 k = Z.of_nat k.
Proof. intros H. unfold u16. apply Z.mod_small. lia. Qed.
Definition numbered {A} (hs : list Z) (l : list A) : Prop := hs = map u16 (seq 0 (length l)).
Lemma numbered_app {A} hs (l : list A) x : numbered hs l -> numbered (hs ++ [u16 (length l)]) (l ++ [x]).
Proof. unfold numbered. intros ->. rewrite app_length. cbn [length]. rewrite seq_app, map_app. reflexivity. Qed.
Lemma numbered_nth {A} hs (l : list A) i h : numbered hs l -> nth_error hs i = Some h -> (i < length l)%nat /\ h = u16 i.
Proof.
  intros -> H. assert (L : (i < length (map u16 (seq 0 (length l))))%nat) by (apply nth_error_Some; congruence). rewrite map_length, seq_length in L.
  split; [exact L|]. rewrite nth_error_map in H. rewrite (nth_error_nth' (seq 0 (length l)) O) in H by (rewrite seq_length; exact L).
  rewrite seq_nth in H by exact L. cbn in H. congruence.
Qed.
Lemma zget_lt {A} (l : list A) i : 0 <= i < Z.of_nat (length l) -> exists x, zget l i = Ok x /\ nth_error l (Z.to_nat i) = Some x.
Proof. intros H. unfold zget. destruct (Z.ltb_spec i 0); [lia|]. destruct (@vget_lt _ l (Z.to_nat i)) as (x & E & X); [lia|]. exists x. auto. Qed.
Lemma zget_ok {A} (l : list A) i x : zget l i = Ok x -> 0 <= i /\ nth_error l (Z.to_nat i) = Some x.
Proof. unfold zget. destruct (Z.ltb_spec i 0) as [|I]; [discriminate|]. intros E. apply vget_ok in E. auto. Qed.
Lemma nth_zget {A} (l : list A) i x : 0 <= i -> nth_error l (Z.to_nat i) = Some x -> zget l i = Ok x.
Proof. intros I H. unfold zget. destruct (Z.ltb_spec i 0); [lia|]. unfold vget. rewrite H. reflexivity. Qed.

Section Reg.
Variables (limit : nat) (map_file : nat -> name -> option Z).
Notation fa_empty := (fa_empty limit).
Notation register := (register_family limit map_file).
Notation add_family := (get_or_add_family limit).
Notation add_face := (get_or_add_face map_file).

(** ** Invariant *)
Definition shaped_table (t : list (list face_handle)) : Prop := length t = 9%nat /\ Forall (fun row => length row = 2%nat) t.
Definition knows (r : registry) (f : face_handle) : Prop := f = no_face \/ In f (map snd (rg_face_names r)).
Record fam_ok (r : registry) (f : family) : Prop := {
  fo_shape : shaped_table (fa_lookup f);
  fo_scripts : length (fa_scripts f) = limit;
  fo_linked : Forall (fun h => 0 <= h < Z.of_nat (length (rg_families r))) (fa_linked f ++ fa_fallback f);
  fo_faces : Forall (Forall (knows r)) (fa_lookup f);
  fo_fresh : fa_init f = false -> fa_lookup f = repeat (repeat no_face STYLES) WEIGHTS /\ fa_linked f = [] /\ fa_fallback f = []
}.
Record well (r : registry) : Prop := {
  wl_names : NoDup (map fst (rg_family_names r));
  wl_handles : numbered (map snd (rg_family_names r)) (rg_families r);
  wl_fnames : NoDup (map fst (rg_face_names r));
  wl_fhandles : numbered (map (fun p => fh_handle (snd p)) (rg_face_names r)) (rg_faces r);
  wl_fams : Forall (fam_ok r) (rg_families r)
}.
(** What later states keep. *)
Record later (r r' : registry) : Prop := {
  lt_names : forall n h, lookup n (rg_family_names r) = Some h -> lookup n (rg_family_names r') = Some h;
  lt_faces : forall n h, lookup n (rg_face_names r) = Some h -> lookup n (rg_face_names r') = Some h;
  lt_fams : forall i f, nth_error (rg_families r) i = Some f -> exists f', nth_error (rg_families r') i = Some f' /\ (fa_init f = true -> f' = f);
  lt_count : (length (rg_faces r) <= length (rg_faces r'))%nat
}.
Lemma later_refl r : later r r.
Proof. constructor; auto. intros i f H. exists f. auto. Qed.
Lemma later_trans a b c : later a b -> later b c -> later a c.
Proof.
  intros [A1 A2 A3 A4] [B1 B2 B3 B4]. constructor; auto; [|lia]. intros i f H. destruct (A3 i f H) as (f1 & H1 & E1). destruct (B3 i f1 H1) as (f2 & H2 & E2).
  exists f2. split; [exact H2|]. intros I. specialize (E1 I). subst. auto.
Qed.
Lemma later_fam_count r r' : later r r' -> (length (rg_families r) <= length (rg_families r'))%nat.
Proof.
  intros L. destruct (length (rg_families r)) as [|k] eqn:E; [lia|]. destruct (nth_error (rg_families r) k) as [f|] eqn:H; [|apply nth_error_None in H; lia].
  destruct (lt_fams _ _ L k f H) as (f' & H' & _). assert (k < length (rg_families r'))%nat by (apply nth_error_Some; congruence). lia.
Qed.

Lemma fa_empty_ok r : fam_ok r fa_empty.
Proof.
  constructor; cbn; auto; try (apply repeat_length).
  - split; [reflexivity|]. repeat constructor.
  - repeat (constructor; [repeat (constructor; [left; reflexivity|]); constructor|]). constructor.
Qed.
Lemma fam_ok_more r r' f : (length (rg_families r) <= length (rg_families r'))%nat -> incl (map snd (rg_face_names r)) (map snd (rg_face_names r')) -> fam_ok r f -> fam_ok r' f.
Proof.
  intros L I [A B C D E]. constructor; auto.
  - eapply Forall_impl; [|exact C]. cbv beta. intros; lia.
  - eapply Forall_impl; [|exact D]. intros row R. eapply Forall_impl; [|exact R]. intros x [X|X]; [left; exact X|right; apply I; exact X].
Qed.

Lemma add_family_spec r n r' h : well r -> add_family r n = (r', h) ->
  well r' /\ later r r' /\ lookup n (rg_family_names r') = Some h /\ rg_faces r' = rg_faces r /\ rg_face_names r' = rg_face_names r /\
  (r' = r \/ (lookup n (rg_family_names r) = None /\ h = u16 (length (rg_families r)) /\ rg_families r' = rg_families r ++ [fa_empty] /\ rg_family_names r' = rg_family_names r ++ [(n, h)])).
Proof.
  intros W E. unfold add_family in E. destruct (lookup n (rg_family_names r)) as [h0|] eqn:L.
  - inversion E; subst. split; [exact W|]. split; [apply later_refl|]. auto 6.
  - inversion E; subst; clear E. cbn [rg_families rg_family_names rg_faces rg_face_names]. destruct W as [W1 W2 W3 W4 W5]. split; [|split; [|split; [|split; [|split]]]].
    + constructor; cbn [rg_families rg_family_names rg_faces rg_face_names]; auto.
      * rewrite map_app. cbn. apply NoDup_rev in W1. rewrite <- map_rev in W1. rewrite <- (rev_involutive (map fst _ ++ [n])). apply NoDup_rev. rewrite rev_app_distr. cbn.
        constructor; [|rewrite <- map_rev; exact W1]. rewrite <- in_rev. apply lookup_none. exact L.
      * rewrite map_app. cbn [map snd]. apply numbered_app. exact W2.
      * apply Forall_app. split; [|constructor; [apply fa_empty_ok|constructor]]. eapply Forall_impl; [|exact W5]. intros f F. eapply fam_ok_more; [| |exact F]; cbn; [rewrite app_length; lia|apply incl_refl].
    + constructor; cbn [rg_families rg_family_names rg_faces rg_face_names]; auto.
      * intros m h0 M. rewrite lookup_app, M. reflexivity.
      * intros i f F. exists f. split; [rewrite nth_error_app1; [exact F|apply nth_error_Some; congruence]|auto].
    + rewrite lookup_app, L. cbn. rewrite name_eqb_refl. reflexivity.
    + reflexivity.
    + reflexivity.
    + right. auto.
Qed.
Lemma handle_fam r n h : well r -> lookup n (rg_family_names r) = Some h -> exists f, get_fam r h = Ok f /\ nth_error (rg_families r) (Z.to_nat h) = Some f /\ 0 <= h < 65536 /\ fam_ok r f.
Proof.
  intros W L. destruct (@lookup_nth _ _ _ _ L) as (i & I). destruct (@numbered_nth _ _ (rg_families r) i h (wl_handles _ W)) as [LT ->].
  { rewrite nth_error_map, I. reflexivity. }
  pose proof (u16_range i). pose proof (u16_le i). destruct (@zget_lt _ (rg_families r) (u16 i)) as (f & F1 & F2); [lia|]. exists f. split; [exact F1|]. split; [exact F2|]. split; [lia|].
  pose proof (wl_fams _ W) as WF. rewrite Forall_forall in WF. apply WF. exact (nth_error_In _ _ F2).
Qed.

Lemma add_families_spec : forall ns r r' hs, well r -> add_families limit r ns = (r', hs) ->
  well r' /\ later r r' /\ rg_faces r' = rg_faces r /\ rg_face_names r' = rg_face_names r /\
  Forall2 (fun n h => lookup n (rg_family_names r') = Some h) ns hs /\
  (exists k, rg_families r' = rg_families r ++ repeat fa_empty k).
Proof.
  induction ns as [|n ns IH]; intros r r' hs W E; cbn [add_families] in E.
  - inversion E; subst. split; [exact W|]. split; [apply later_refl|]. split; [reflexivity|]. split; [reflexivity|]. split; [constructor|]. exists O. cbn. rewrite app_nil_r. reflexivity.
  - destruct (add_family r n) as [r1 h] eqn:E1. destruct (add_families limit r1 ns) as [r2 hs2] eqn:E2. inversion E; subst; clear E.
    destruct (add_family_spec _ _ _ _ W E1) as (W1 & L1 & N1 & F1 & G1 & X1). destruct (IH _ _ _ W1 E2) as (W2 & L2 & F2 & G2 & N2 & k & K).
    split; [exact W2|]. split; [eapply later_trans; eauto|]. split; [congruence|]. split; [congruence|]. split; [constructor; [|exact N2]; apply (lt_names _ _ L2); exact N1|].
    destruct X1 as [->|(_ & _ & X & _)]; [exists k; exact K|]. exists (S k). rewrite K, X, <- app_assoc. reflexivity.
Qed.

Lemma add_face_spec r d r' f : well r -> add_face r d = (r', f) ->
  well r' /\ later r r' /\ lookup (fd_name d) (rg_face_names r') = Some f /\ rg_families r' = rg_families r /\ rg_family_names r' = rg_family_names r /\
  (exists i, (i < length (rg_faces r'))%nat /\ fh_handle f = u16 i).
Proof.
  intros W E. unfold add_face in E. destruct (lookup (fd_name d) (rg_face_names r)) as [h|] eqn:L.
  - inversion E; subst. repeat (split; [auto using later_refl|]). destruct (@lookup_nth _ _ _ _ L) as (i & I).
    destruct (@numbered_nth _ _ (rg_faces r') i (fh_handle f) (wl_fhandles _ W)) as [LT ->]; [rewrite nth_error_map, I; reflexivity|]. exists i. auto.
  - inversion E; subst; clear E. cbn [rg_families rg_family_names rg_faces rg_face_names]. destruct W as [W1 W2 W3 W4 W5]. split; [|split; [|split; [|split; [|split]]]].
    + constructor; cbn [rg_families rg_family_names rg_faces rg_face_names]; auto.
      * rewrite map_app. cbn. apply NoDup_rev in W3. rewrite <- map_rev in W3. rewrite <- (rev_involutive (map fst _ ++ [fd_name d])). apply NoDup_rev. rewrite rev_app_distr. cbn.
        constructor; [|rewrite <- map_rev; exact W3]. rewrite <- in_rev. apply lookup_none. exact L.
      * rewrite map_app. cbn [map snd fh_handle]. apply numbered_app. exact W4.
      * eapply Forall_impl; [|exact W5]. intros f F. eapply fam_ok_more; [| |exact F]; cbn; [lia|rewrite map_app; apply incl_appl, incl_refl].
    + constructor; cbn [rg_families rg_family_names rg_faces rg_face_names]; auto.
      * intros m h0 M. rewrite lookup_app, M. reflexivity.
      * intros i f F. exists f. auto.
      * rewrite app_length. lia.
    + rewrite lookup_app, L. cbn. rewrite name_eqb_refl. reflexivity.
    + reflexivity.
    + reflexivity.
    + exists (length (rg_faces r)). rewrite app_length. cbn. split; [lia|reflexivity].
Qed.

(** ** Tables *)
Lemma list_set_shape {A} (P : A -> Prop) (l : list A) i x : Forall P l -> P x -> Forall P (list_set l i x).
Proof.
  intros F. revert i. induction F as [|y l Y F IH]; intros [|i] X; cbn; try constructor; auto. Qed.
Lemma slot_ok t w s : shaped_table t -> 0 <= w < 9 -> 0 <= s < 2 -> exists f row, slot t w s = Ok f /\ nth_error t (Z.to_nat w) = Some row /\ nth_error row (Z.to_nat s) = Some f.
Proof.
  intros [T1 T2] W S. unfold slot. destruct (@zget_lt _ t w) as (row & R1 & R2); [lia|]. rewrite R1. cbn [obind].
  assert (L : length row = 2%nat) by (rewrite Forall_forall in T2; apply T2; exact (nth_error_In _ _ R2)).
  destruct (@zget_lt _ row s) as (f & F1 & F2); [lia|]. exists f, row. auto.
Qed.
Lemma set_slot_inv t w s f t' : set_slot t w s f = Ok t' -> exists row, 0 <= w /\ 0 <= s /\ nth_error t (Z.to_nat w) = Some row /\ (Z.to_nat s < length row)%nat /\ t' = list_set t (Z.to_nat w) (list_set row (Z.to_nat s) f).
Proof.
  unfold set_slot. intros H. apply obind_ok_inv in H. destruct H as (row & R & H). apply obind_ok_inv in H. destruct H as (x & X & H). inversion H; subst.
  apply zget_ok in R. apply zget_ok in X. exists row. destruct R as [R1 R2], X as [X1 X2]. repeat split; auto. apply nth_error_Some. congruence.
Qed.
Lemma set_slot_get t w s f t' w' s' : set_slot t w s f = Ok t' -> 0 <= w' -> 0 <= s' ->
  slot t' w' s' = if (w' =? w) && (s' =? s) then Ok f else slot t w' s'.
Proof.
  intros H W' S'. destruct (set_slot_inv _ _ _ _ _ H) as (row & W & S & R & L & ->). unfold slot, zget.
  destruct (Z.ltb_spec w' 0); [lia|]. destruct (Z.ltb_spec s' 0); [lia|].
  assert (LW : (Z.to_nat w < length t)%nat) by (apply nth_error_Some; congruence).
  destruct (Z.eqb_spec w' w) as [->|NW]; cbn [andb].
  - unfold vget at 1. rewrite nth_error_list_set_same by exact LW. cbn [obind]. unfold vget at 2. rewrite R. cbn [obind].
    destruct (Z.eqb_spec s' s) as [->|NS].
    + unfold vget. rewrite nth_error_list_set_same by exact L. reflexivity.
    + unfold vget. rewrite nth_error_list_set_other by lia. reflexivity.
  - unfold vget at 1 3. rewrite nth_error_list_set_other by lia. reflexivity.
Qed.
Lemma set_slot_shape t w s f t' : shaped_table t -> set_slot t w s f = Ok t' -> shaped_table t'.
Proof.
  intros [T1 T2] H. destruct (set_slot_inv _ _ _ _ _ H) as (row & W & S & R & L & ->). split; [rewrite length_list_set; exact T1|].
  apply list_set_shape; [exact T2|]. rewrite length_list_set. rewrite Forall_forall in T2. apply T2. exact (nth_error_In _ _ R).
Qed.
Lemma set_slot_faces (P : face_handle -> Prop) t w s f t' : Forall (Forall P) t -> P f -> set_slot t w s f = Ok t' -> Forall (Forall P) t'.
Proof.
  intros T PF H. destruct (set_slot_inv _ _ _ _ _ H) as (row & W & S & R & L & ->). apply list_set_shape; [exact T|].
  apply list_set_shape; [|exact PF]. rewrite Forall_forall in T. apply T. exact (nth_error_In _ _ R).
Qed.
Lemma set_slot_defined t w s f : shaped_table t -> 0 <= w < 9 -> 0 <= s < 2 -> exists t', set_slot t w s f = Ok t'.
Proof.
  intros T W S. destruct (slot_ok t w s T W S) as (g & row & E & R1 & R2). unfold set_slot. rewrite (@nth_zget _ t w row) by (lia || exact R1). cbn [obind].
  rewrite (@nth_zget _ row s g) by (lia || exact R2). cbn [obind]. eauto.
Qed.
Lemma slot_fill t dflt w s : slot (fill t dflt) w s = omap (fun f => if face_valid f then f else dflt) (slot t w s).
Proof.
  unfold slot, fill, zget. destruct (w <? 0); [reflexivity|]. unfold vget. rewrite nth_error_map. destruct (nth_error t (Z.to_nat w)) as [row|]; cbn; [|reflexivity].
  destruct (s <? 0); [reflexivity|]. rewrite nth_error_map. destruct (nth_error row (Z.to_nat s)); reflexivity.
Qed.
Lemma fill_shape t dflt : shaped_table t -> shaped_table (fill t dflt).
Proof. intros [A B]. split; unfold fill; [rewrite map_length; exact A|]. apply Forall_map. eapply Forall_impl; [|exact B]. cbv beta. intros. rewrite map_length. assumption. Qed.
Lemma fill_faces (P : face_handle -> Prop) t dflt : Forall (Forall P) t -> P dflt -> Forall (Forall P) (fill t dflt).
Proof.
  intros T D. unfold fill. apply Forall_map. eapply Forall_impl; [|exact T]. cbv beta. intros row R. apply Forall_map. eapply Forall_impl; [|exact R]. cbv beta. intros x X. destruct (face_valid x); assumption.
Qed.

(** ** The faces loop *)
Definition step_default (f : face_handle) (d : face_desc) (default : face_handle) : face_handle :=
  if face_valid f && (negb (face_valid default) || ((fd_weight d =? REGULAR) && (fd_style d =? NORMAL))) then f else default.
Lemma knows_later r r' f : incl (map snd (rg_face_names r)) (map snd (rg_face_names r')) -> knows r f -> knows r' f.
Proof. intros I [H|H]; [left; exact H|right; apply I; exact H]. Qed.
Lemma later_incl r r' : well r -> later r r' -> incl (map snd (rg_face_names r)) (map snd (rg_face_names r')).
Proof.
  intros W L f H. apply in_map_iff in H. destruct H as ([n g] & E & H). cbn in E. subst g. apply (in_map snd) with (x := (n, f)).
  apply lookup_in. apply (lt_faces _ _ L). apply in_lookup; [exact (wl_fnames _ W)|exact H].
Qed.
Lemma add_faces_spec : forall fs r t dflt r' t' dflt', well r -> shaped_table t -> Forall (Forall (knows r)) t -> knows r dflt ->
  add_faces map_file r t dflt fs = Ok (r', t', dflt') ->
  well r' /\ later r r' /\ rg_families r' = rg_families r /\ rg_family_names r' = rg_family_names r /\
  shaped_table t' /\ Forall (Forall (knows r')) t' /\ knows r' dflt' /\ descs_ok fs /\
  exists hs, Forall2 (fun d f => lookup (fd_name d) (rg_face_names r') = Some f) fs hs /\
    (forall w s, 0 <= w -> 0 <= s -> slot t' w s = fold_left (fun o p => if (w =? fd_weight (fst p)) && (s =? fd_style (fst p)) then Ok (snd p) else o) (combine fs hs) (slot t w s)) /\
    dflt' = fold_left (fun o p => step_default (snd p) (fst p) o) (combine fs hs) dflt.
Proof.
  induction fs as [|d fs IH]; intros r t dflt r' t' dflt' W T K KD E; cbn [add_faces] in E.
  - inversion E; subst. split; [exact W|]. split; [apply later_refl|]. do 5 (split; [auto|]). split; [constructor|]. exists []. split; [constructor|]. split; auto.
  - destruct (add_face r d) as [r1 f] eqn:E1. apply obind_ok_inv in E. destruct E as (t1 & E2 & E).
    destruct (add_face_spec _ _ _ _ W E1) as (W1 & L1 & N1 & F1 & G1 & i & I1 & I2). pose proof (later_incl _ _ W L1) as INC.
    assert (KF : knows r1 f). { right. apply (in_map snd) with (x := (fd_name d, f)). apply lookup_in. exact N1. }
    assert (KD1 : knows r1 dflt) by (eapply knows_later; eauto).
    assert (SHP : 0 <= fd_weight d < 9 /\ 0 <= fd_style d < 2).
    { destruct (set_slot_inv _ _ _ _ _ E2) as (row & A & B & C & D & _). destruct T as [T1 T2].
      assert (Z.to_nat (fd_weight d) < length t)%nat by (apply nth_error_Some; congruence).
      assert (length row = 2%nat) by (rewrite Forall_forall in T2; apply T2; exact (nth_error_In _ _ C)). lia. }
    destruct (IH r1 t1 (step_default f d dflt) r' t' dflt') as (W2 & L2 & F2 & G2 & T2 & K2 & KD2 & DS & hs & H1 & H2 & H3); auto.
    + eapply set_slot_shape; eauto.
    + eapply set_slot_faces; [|exact KF|exact E2]. eapply Forall_impl; [|exact K]. intros row R. eapply Forall_impl; [|exact R]. intros x X. eapply knows_later; eauto.
    + unfold step_default. destruct (_ && _); assumption.
    + split; [exact W2|]. split; [eapply later_trans; eauto|]. split; [congruence|]. split; [congruence|]. split; [exact T2|]. split; [exact K2|]. split; [exact KD2|].
      split; [constructor; assumption|]. exists (f :: hs). split; [constructor; [apply (lt_faces _ _ L2); exact N1|exact H1]|]. split; [|exact H3].
      intros w s Hw Hs. cbn [combine fold_left fst snd]. rewrite <- (set_slot_get _ _ _ _ _ _ _ E2 Hw Hs). apply H2; assumption.
Qed.
Lemma add_faces_defined : forall fs r t dflt, well r -> shaped_table t -> descs_ok fs -> exists x, add_faces map_file r t dflt fs = Ok x.
Proof.
  induction fs as [|d fs IH]; intros r t dflt W T D; cbn [add_faces]; [eauto|]. inversion D; subst.
  destruct (add_face r d) as [r1 f] eqn:E1. destruct (add_face_spec _ _ _ _ W E1) as (W1 & _).
  destruct (set_slot_defined t (fd_weight d) (fd_style d) f T) as (t1 & E2); [tauto|tauto|]. rewrite E2. cbn [obind]. apply IH; auto. eapply set_slot_shape; eauto.
Qed.

(** ** Registration *)
Lemma put_well r h f0 f : well r -> nth_error (rg_families r) (Z.to_nat h) = Some f0 -> fam_ok r f -> well (put_fam r h f).
Proof.
  intros [W1 W2 W3 W4 W5] N F. constructor; cbn [put_fam rg_families rg_family_names rg_faces rg_face_names]; auto.
  - unfold numbered in *. rewrite length_list_set. exact W2.
  - assert (X : forall g, fam_ok r g -> fam_ok (put_fam r h f) g). { intros g G. eapply fam_ok_more; [| |exact G]; cbn; [rewrite length_list_set; lia|apply incl_refl]. }
    apply list_set_shape; [|apply X; exact F]. eapply Forall_impl; [|exact W5]. exact X.
Qed.
Lemma put_later r h f0 f : nth_error (rg_families r) (Z.to_nat h) = Some f0 -> fa_init f0 = false -> later r (put_fam r h f).
Proof.
  intros N I. constructor; cbn [put_fam rg_families rg_family_names rg_faces rg_face_names]; auto.
  intros i g G. destruct (Nat.eq_dec i (Z.to_nat h)) as [->|D].
  - exists f. rewrite nth_error_list_set_same by (apply nth_error_Some; congruence). split; [reflexivity|]. congruence.
  - exists g. rewrite nth_error_list_set_other by auto. auto.
Qed.
Lemma put_get r h f0 f : 0 <= h -> nth_error (rg_families r) (Z.to_nat h) = Some f0 -> get_fam (put_fam r h f) h = Ok f.
Proof. intros H N. unfold get_fam, put_fam. cbn. apply nth_zget; [exact H|]. apply nth_error_list_set_same. apply nth_error_Some. congruence. Qed.
Lemma set_scripts_length : forall codes bits, length (fst (set_scripts bits codes)) = length bits.
Proof. induction codes as [|c codes IH]; intros bits; cbn; [reflexivity|]. destruct (_ && _); [|reflexivity]. rewrite IH. apply length_list_set. Qed.

Definition clean (r : registry) : Prop := Forall (fun f => fa_init f = false -> f = fa_empty) (rg_families r).
Lemma set_scripts_get : forall codes bits bits' c b, set_scripts bits codes = (bits', true) -> zget bits c = Ok b -> zget bits' c = Ok (b || existsb (Z.eqb c) codes)%bool.
Proof.
  induction codes as [|x codes IH]; intros bits bits' c b E G; cbn in E.
  - inversion E; subst. cbn. rewrite Bool.orb_false_r. exact G.
  - destruct ((0 <=? x) && (x <? Z.of_nat (length bits))) eqn:R; [|discriminate]. cbn [existsb]. rewrite Bool.orb_assoc. eapply IH; [exact E|].
    apply zget_ok in G. destruct G as [G1 G2]. apply nth_zget; [exact G1|]. destruct (Z.eqb_spec c x) as [->|D].
    + rewrite Bool.orb_true_r. apply nth_error_list_set_same. apply nth_error_Some. congruence.
    + rewrite Bool.orb_false_r. rewrite nth_error_list_set_other; [exact G2|]. lia.
Qed.
Inductive registered (r : registry) (d : family_desc) (r' : registry) : reg_result -> Prop :=
| reg_already h f : get_or_add_family limit r (fy_name d) = (r', h) -> get_fam r' h = Ok f -> fa_init f = true -> registered r d r' RAlready
| reg_threw h f : lookup (fy_name d) (rg_family_names r') = Some h -> get_fam r' h = Ok f -> fa_init f = false -> registered r d r' RThrew
| reg_nofaces h : lookup (fy_name d) (rg_family_names r') = Some h -> get_fam r' h = Ok fa_empty -> fy_faces d = None ->
    (forall i f, nth_error (rg_families r') i = Some f -> nth_error (rg_families r) i = Some f \/ f = fa_empty) ->
    registered r d r' RNoFaces
| reg_done h f fs hs : lookup (fy_name d) (rg_family_names r') = Some h -> get_fam r' h = Ok f -> fa_init f = true -> fy_faces d = Some fs -> descs_ok fs ->
    Forall2 (fun d f => lookup (fd_name d) (rg_face_names r') = Some f) fs hs ->
    (forall w s, 0 <= w < 9 -> 0 <= s < 2 ->
      slot (fa_lookup f) w s =
      omap (fun g => if face_valid g then g else fold_left (fun o p => step_default (snd p) (fst p) o) (combine fs hs) no_face)
        (fold_left (fun o p => if (w =? fd_weight (fst p)) && (s =? fd_style (fst p)) then Ok (snd p) else o) (combine fs hs) (Ok no_face))) ->
    Forall2 (fun n h => lookup n (rg_family_names r') = Some h) (fy_linked d) (fa_linked f) ->
    Forall2 (fun n h => lookup n (rg_family_names r') = Some h) (fy_fallback d) (fa_fallback f) ->
    (clean r -> forall c, 0 <= c < Z.of_nat limit -> zget (fa_scripts f) c = Ok (match fy_scripts d with [] => true | cs => existsb (Z.eqb c) cs end)) ->
    registered r d r' RNone.

Lemma no_face_slot w s : 0 <= w < 9 -> 0 <= s < 2 -> slot (repeat (repeat no_face STYLES) WEIGHTS) w s = Ok no_face.
Proof.
  intros W S. unfold slot, WEIGHTS, STYLES, zget, vget. destruct (Z.ltb_spec w 0); [lia|]. destruct (Z.ltb_spec s 0); [lia|].
  rewrite nth_error_repeat by lia. cbn [obind]. rewrite nth_error_repeat by lia. reflexivity.
Qed.

Lemma register_spec r d r' e : well r -> register r d = Ok (r', e) ->
  well r' /\ later r r' /\ registered r d r' e /\ (clean r -> e <> RThrew -> clean r') /\
  (forall i g, nth_error (rg_families r') i = Some g -> fa_init g = true ->
     nth_error (rg_families r) i = Some g \/ (e = RNone /\ lookup (fy_name d) (rg_family_names r') = Some (Z.of_nat i))).
Proof.
  intros W E. unfold register_family in E. destruct (add_family r (fy_name d)) as [r1 h] eqn:E1.
  destruct (add_family_spec _ _ _ _ W E1) as (W1 & L1 & N1 & F1 & G1 & X1). destruct (handle_fam _ _ _ W1 N1) as (f & HF & NF & HR & FO).
  rewrite HF in E. cbn [obind] in E.
  assert (CL1 : clean r -> clean r1). { intros C. destruct X1 as [->|(_ & _ & X & _)]; [exact C|]. unfold clean. rewrite X. apply Forall_app. split; [exact C|repeat constructor]. }
  assert (OLD : forall i g, nth_error (rg_families r1) i = Some g -> nth_error (rg_families r) i = Some g \/ g = fa_empty).
  { intros i g G. destruct X1 as [->|(_ & _ & X & _)]; [left; exact G|]. rewrite X in G. destruct (Nat.lt_ge_cases i (length (rg_families r))) as [LT2|GE2].
    - left. rewrite nth_error_app1 in G by exact LT2. exact G.
    - right. rewrite nth_error_app2 in G by exact GE2. destruct (i - length (rg_families r))%nat as [|[|]]; cbn in G; congruence. }
  destruct (fa_init f) eqn:IN.
  { inversion E; subst. split; [exact W1|]. split; [exact L1|]. split; [econstructor; eauto|]. split; [auto|].
    intros i g G I. destruct (OLD i g G) as [O|O]; [left; exact O|subst g; discriminate I]. }
  destruct (match fy_scripts d with [] => (repeat true limit, true) | _ :: _ => set_scripts (fa_scripts f) (fy_scripts d) end) as [bits fine] eqn:EB.
  assert (LB : length bits = limit).
  { destruct (fy_scripts d) as [|c codes]; [inversion EB; apply repeat_length|]. replace bits with (fst (set_scripts (fa_scripts f) (c :: codes))) by (rewrite EB; reflexivity).
    rewrite set_scripts_length. apply FO. }
  cbv beta iota zeta in E.
  set (f1 := {| fa_lookup := fa_lookup f; fa_linked := fa_linked f; fa_fallback := fa_fallback f; fa_scripts := bits; fa_init := false |}) in *.
  assert (OK1 : fam_ok r1 f1). { destruct FO as [A B C D G]. constructor; cbn; auto. }
  set (r2 := put_fam r1 h f1) in *.
  assert (W2 : well r2) by (eapply put_well; eauto). assert (L2 : later r1 r2) by (eapply put_later; eauto).
  assert (G2 : get_fam r2 h = Ok f1) by (eapply put_get; eauto; lia).
  destruct fine; cbn [negb] in E.
  2: { inversion E; subst. split; [exact W2|]. split; [eapply later_trans; eauto|]. split; [|split; [intros _ X; congruence|]].
       { apply reg_threw with h f1; auto. }
       intros i g G I. cbn [r2 put_fam rg_families] in G. destruct (Nat.eq_dec i (Z.to_nat h)) as [->|D].
       - unfold r2, put_fam in G. cbn in G. rewrite nth_error_list_set_same in G by (apply nth_error_Some; congruence). inversion G; subst g. discriminate I.
       - unfold r2, put_fam in G. cbn in G. rewrite nth_error_list_set_other in G by auto. destruct (OLD i g G) as [O|O]; [left; exact O|subst g; discriminate I]. }
  destruct (add_families limit r2 (fy_linked d)) as [r3 linked] eqn:E3. destruct (add_families limit r3 (fy_fallback d)) as [r4 fallback] eqn:E4.
  destruct (add_families_spec _ _ _ _ W2 E3) as (W3 & L3 & _ & _ & N3 & k3 & K3). destruct (add_families_spec _ _ _ _ W3 E4) as (W4 & L4 & _ & _ & N4 & k4 & K4).
  assert (NF2 : nth_error (rg_families r2) (Z.to_nat h) = Some f1) by (unfold get_fam in G2; apply zget_ok in G2; tauto).
  assert (NF4 : nth_error (rg_families r4) (Z.to_nat h) = Some f1).
  { assert (Z.to_nat h < length (rg_families r2))%nat by (apply nth_error_Some; congruence). rewrite K4, K3, <- app_assoc. rewrite nth_error_app1 by assumption. exact NF2. }
  assert (G4 : get_fam r4 h = Ok f1) by (unfold get_fam; apply nth_zget; [lia|exact NF4]).
  rewrite G4 in E. cbn [obind] in E.
  assert (N4h : lookup (fy_name d) (rg_family_names r4) = Some h) by (apply (lt_names _ _ L4), (lt_names _ _ L3), (lt_names _ _ L2); exact N1).
  destruct (fo_fresh _ _ FO IN) as (FR1 & FR2 & FR3).
  assert (OTHER : forall i g, nth_error (rg_families r4) i = Some g -> i <> Z.to_nat h -> nth_error (rg_families r) i = Some g \/ g = fa_empty).
  { intros i g G D. rewrite K4, K3, <- app_assoc in G. destruct (Nat.lt_ge_cases i (length (rg_families r2))) as [LT|GE].
    - rewrite nth_error_app1 in G by exact LT. unfold r2, put_fam in G. cbn in G. rewrite nth_error_list_set_other in G by auto. apply OLD. exact G.
    - right. rewrite nth_error_app2 in G by exact GE. apply nth_error_In in G. apply in_app_iff in G. destruct G as [G|G]; apply repeat_spec in G; exact G. }
  destruct (fy_faces d) as [fs|] eqn:EF.
  - apply obind_ok_inv in E. destruct E as ([[r5 t] dflt] & E5 & E). inversion E; subst r' e; clear E.
    destruct (add_faces_spec fs r4 (fa_lookup f1) no_face r5 t dflt W4) as (W5 & L5 & F5 & G5 & T5 & K5 & KD5 & DS & hs & H1 & H2 & H3); auto.
    { apply OK1. } { cbn [f1 fa_lookup]. rewrite FR1. repeat (constructor; [repeat (constructor; [left; reflexivity|]); constructor|]). constructor. } { left. reflexivity. }
    set (f2 := {| fa_lookup := fill t dflt; fa_linked := fa_linked f1 ++ linked; fa_fallback := fa_fallback f1 ++ fallback; fa_scripts := fa_scripts f1; fa_init := true |}) in *.
    assert (N5 : forall n hh, lookup n (rg_family_names r4) = Some hh -> lookup n (rg_family_names r5) = Some hh) by (rewrite G5; auto).
    assert (HAND : forall ns hhs, Forall2 (fun n hh => lookup n (rg_family_names r4) = Some hh) ns hhs -> Forall (fun hh => 0 <= hh < Z.of_nat (length (rg_families r5))) hhs).
    { intros ns hhs F. induction F as [|n hh ns hhs A F IH]; constructor; auto. destruct (handle_fam _ _ _ W4 A) as (g & Q1 & Q2 & Q3 & _).
      assert (Z.to_nat hh < length (rg_families r4))%nat by (apply nth_error_Some; congruence). rewrite F5. lia. }
    assert (N34 : Forall2 (fun n hh => lookup n (rg_family_names r4) = Some hh) (fy_linked d) linked).
    { clear - N3 L4. induction N3; constructor; auto. apply (lt_names _ _ L4). assumption. }
    assert (OK5 : fam_ok r5 f2).
    { constructor; cbn [f2 f1 fa_lookup fa_linked fa_fallback fa_scripts fa_init]; auto.
      - apply fill_shape. exact T5.
      - rewrite FR2, FR3. cbn [app]. apply Forall_app. split; eapply HAND; eauto.
      - apply fill_faces; assumption.
      - discriminate. }
    assert (NF5 : nth_error (rg_families r5) (Z.to_nat h) = Some f1) by (rewrite F5; exact NF4).
    split; [eapply put_well; eauto|]. assert (LF : later r (put_fam r5 h f2)).
    { eapply later_trans; [exact L1|]. eapply later_trans; [exact L2|]. eapply later_trans; [exact L3|]. eapply later_trans; [exact L4|]. eapply later_trans; [exact L5|]. eapply put_later; eauto. }
    split; [exact LF|]. split.
    + apply reg_done with h f2 fs hs.
      * cbn [put_fam rg_family_names]. auto.
      * eapply put_get; eauto. lia.
      * reflexivity.
      * exact EF.
      * exact DS.
      * exact H1.
      * intros w s Hw Hs. cbn [f2 fa_lookup]. rewrite slot_fill. rewrite H2 by lia. replace (fa_lookup f1) with (fa_lookup f) by reflexivity. rewrite FR1, no_face_slot by assumption. rewrite H3. reflexivity.
      * replace (fa_linked f2) with linked by (unfold f2, f1; cbn [fa_linked]; rewrite FR2; reflexivity). cbn [put_fam rg_family_names]. clear - N34 N5. induction N34; constructor; auto.
      * replace (fa_fallback f2) with fallback by (unfold f2, f1; cbn [fa_fallback]; rewrite FR3; reflexivity). cbn [put_fam rg_family_names]. clear - N4 N5. induction N4; constructor; auto.
      * intros C c RC. replace (fa_scripts f2) with bits by reflexivity. destruct (fy_scripts d) as [|x codes].
        { inversion EB; subst bits. apply nth_zget; [lia|]. apply nth_error_repeat. lia. }
        assert (EE : f = fa_empty).
        { destruct (OLD _ _ NF) as [O|O]; [|exact O]. unfold clean in C. rewrite Forall_forall in C. apply C; [exact (nth_error_In _ _ O)|exact IN]. }
        assert (ZE : zget (fa_scripts f) c = Ok false) by (rewrite EE; cbn; apply nth_zget; [lia|]; apply nth_error_repeat; lia).
        rewrite (set_scripts_get _ _ _ _ _ EB ZE). reflexivity.
    + split.
      2: { intros i g G I. cbn [put_fam rg_families] in G. destruct (Nat.eq_dec i (Z.to_nat h)) as [->|D].
           - right. split; [reflexivity|]. cbn [put_fam rg_family_names]. rewrite Z2Nat.id by lia. auto.
           - rewrite nth_error_list_set_other in G by auto. rewrite F5 in G. destruct (OTHER i g G D) as [O|O]; [left; exact O|subst g; discriminate I]. }
      intros C _. apply Forall_forall. intros g G IG. apply In_nth_error in G. destruct G as (i & G). cbn [put_fam rg_families] in G. destruct (Nat.eq_dec i (Z.to_nat h)) as [->|D].
      * rewrite nth_error_list_set_same in G by (apply nth_error_Some; congruence). inversion G; subst g. discriminate.
      * rewrite nth_error_list_set_other in G by auto. rewrite F5 in G. destruct (OTHER i g G D) as [O|O]; [|exact O]. unfold clean in C. rewrite Forall_forall in C. apply C; [exact (nth_error_In _ _ O)|exact IG].
  - inversion E; subst r' e; clear E. set (f2 := {| fa_lookup := fa_lookup f1; fa_linked := []; fa_fallback := []; fa_scripts := repeat false limit; fa_init := fa_init f1 |}) in *.
    assert (FE : f2 = fa_empty) by (unfold f2; cbn [f1 fa_lookup fa_init]; rewrite FR1; reflexivity).
    assert (OK4 : fam_ok r4 f2) by (rewrite FE; apply fa_empty_ok).
    split; [eapply put_well; eauto|].
    assert (LF : later r (put_fam r4 h f2)).
    { eapply later_trans; [exact L1|]. eapply later_trans; [exact L2|]. eapply later_trans; [exact L3|]. eapply later_trans; [exact L4|]. eapply put_later; eauto. }
    assert (OT : forall i g, nth_error (rg_families (put_fam r4 h f2)) i = Some g -> nth_error (rg_families r) i = Some g \/ g = fa_empty).
    { intros i g G. cbn [put_fam rg_families] in G. destruct (Nat.eq_dec i (Z.to_nat h)) as [->|D].
      - rewrite nth_error_list_set_same in G by (apply nth_error_Some; congruence). inversion G; subst. auto.
      - rewrite nth_error_list_set_other in G by auto. auto. }
    split; [exact LF|]. split.
    + apply reg_nofaces with h; auto. rewrite <- FE. eapply put_get; eauto. lia.
    + split; [|intros i g G I; destruct (OT i g G) as [O|O]; [left; exact O|subst g; discriminate I]].
      intros C _. apply Forall_forall. intros g G IG. apply In_nth_error in G. destruct G as (i & G). destruct (OT i g G) as [O|O]; [|exact O].
      unfold clean in C. rewrite Forall_forall in C. apply C; [exact (nth_error_In _ _ O)|exact IG].
Qed.
Lemma well_empty : well rg_empty.
Proof. constructor; cbn; try constructor. Qed.
Lemma register_defined r d : well r -> (forall fs, fy_faces d = Some fs -> descs_ok fs) -> exists x, register r d = Ok x.
Proof.
  intros W D. unfold register_family. destruct (add_family r (fy_name d)) as [r1 h] eqn:E1.
  destruct (add_family_spec _ _ _ _ W E1) as (W1 & L1 & N1 & F1 & G1 & X1). destruct (handle_fam _ _ _ W1 N1) as (f & HF & NF & HR & FO).
  rewrite HF. cbn [obind]. destruct (fa_init f) eqn:IN; [eauto|].
  destruct (match fy_scripts d with [] => (repeat true limit, true) | _ :: _ => set_scripts (fa_scripts f) (fy_scripts d) end) as [bits fine] eqn:EB.
  assert (LB : length bits = limit).
  { destruct (fy_scripts d) as [|c codes]; [inversion EB; apply repeat_length|]. replace bits with (fst (set_scripts (fa_scripts f) (c :: codes))) by (rewrite EB; reflexivity).
    rewrite set_scripts_length. apply FO. }
  cbv beta iota zeta. set (f1 := {| fa_lookup := fa_lookup f; fa_linked := fa_linked f; fa_fallback := fa_fallback f; fa_scripts := bits; fa_init := false |}) in *.
  assert (OK1 : fam_ok r1 f1). { destruct FO as [A B C DD G]. constructor; cbn; auto. }
  set (r2 := put_fam r1 h f1) in *. assert (W2 : well r2) by (eapply put_well; eauto). assert (G2 : get_fam r2 h = Ok f1) by (eapply put_get; eauto; lia).
  destruct fine; cbn [negb]; [|eauto].
  destruct (add_families limit r2 (fy_linked d)) as [r3 linked] eqn:E3. destruct (add_families limit r3 (fy_fallback d)) as [r4 fallback] eqn:E4.
  destruct (add_families_spec _ _ _ _ W2 E3) as (W3 & L3 & _ & _ & N3 & k3 & K3). destruct (add_families_spec _ _ _ _ W3 E4) as (W4 & L4 & _ & _ & N4 & k4 & K4).
  assert (NF2 : nth_error (rg_families r2) (Z.to_nat h) = Some f1) by (unfold get_fam in G2; apply zget_ok in G2; tauto).
  assert (NF4 : nth_error (rg_families r4) (Z.to_nat h) = Some f1).
  { assert (Z.to_nat h < length (rg_families r2))%nat by (apply nth_error_Some; congruence). rewrite K4, K3, <- app_assoc. rewrite nth_error_app1 by assumption. exact NF2. }
  assert (G4 : get_fam r4 h = Ok f1) by (unfold get_fam; apply nth_zget; [lia|exact NF4]).
  rewrite G4. cbn [obind]. destruct (fy_faces d) as [fs|] eqn:EF; [|eauto].
  destruct (add_faces_defined fs r4 (fa_lookup f1) no_face W4) as ([[r5 t] df] & E5); [apply OK1|apply D; reflexivity|]. rewrite E5. cbn [obind]. eauto.
Qed.

Lemma registrations_spec : forall ds r r' es, well r -> registrations limit map_file r ds = Ok (r', es) -> well r' /\ later r r' /\ (clean r -> ~ In RThrew es -> clean r').
Proof.
  induction ds as [|d ds IH]; intros r r' es W E; cbn [registrations] in E.
  - inversion E; subst. split; [exact W|]. split; [apply later_refl|auto].
  - apply obind_ok_inv in E. destruct E as ([r1 e] & E1 & E). apply obind_ok_inv in E. destruct E as ([r2 es2] & E2 & E). inversion E; subst; clear E.
    destruct (register_spec _ _ _ _ W E1) as (W1 & L1 & _ & C1 & _). destruct (IH _ _ _ W1 E2) as (W2 & L2 & C2). split; [exact W2|]. split; [eapply later_trans; eauto|].
    intros C NI. apply C2; [apply C1; [exact C|intros ->; apply NI; left; reflexivity]|intros H; apply NI; right; exact H].
Qed.
Lemma registrations_app : forall ds1 r r' es ds2, registrations limit map_file r (ds1 ++ ds2) = Ok (r', es) ->
  exists r1 es1 es2, registrations limit map_file r ds1 = Ok (r1, es1) /\ registrations limit map_file r1 ds2 = Ok (r', es2) /\ es = es1 ++ es2 /\ length es1 = length ds1.
Proof.
  induction ds1 as [|d ds1 IH]; intros r r' es ds2 E; cbn [app registrations] in *.
  - exists r, [], es. auto.
  - apply obind_ok_inv in E. destruct E as ([r1 e] & E1 & E). apply obind_ok_inv in E. destruct E as ([r2 es2] & E2 & E). inversion E; subst; clear E.
    destruct (IH _ _ _ _ E2) as (r3 & es3 & es4 & A & B & C & D). exists r3, (e :: es3), es4. rewrite E1. cbn [obind]. rewrite A. cbn [obind]. subst. cbn [length app]. auto.
Qed.
(** A family that reports success stays registered. *)
Lemma init_after : forall ds r r' es i d, well r -> registrations limit map_file r ds = Ok (r', es) -> nth_error ds i = Some d -> nth_error es i = Some RNone ->
  exists h f, lookup (fy_name d) (rg_family_names r') = Some h /\ get_fam r' h = Ok f /\ fa_init f = true.
Proof.
  induction ds as [|d0 ds IH]; intros r r' es i d W E D N.
  { destruct i; discriminate D. }
  cbn [registrations] in E.
  apply obind_ok_inv in E. destruct E as ([r1 e] & E1 & E). apply obind_ok_inv in E. destruct E as ([r2 es2] & E2 & E). inversion E; subst; clear E.
  destruct (register_spec _ _ _ _ W E1) as (W1 & L1 & R1 & _). destruct (registrations_spec _ _ _ _ W1 E2) as (W2 & L2 & _).
  destruct i as [|i]; cbn in D, N.
  - inversion D; inversion N; subst. inversion R1; subst. exists h, f. split; [apply (lt_names _ _ L2); assumption|].
    match goal with H : get_fam r1 h = Ok f |- _ => unfold get_fam in H; apply zget_ok in H; destruct H as [HH NH] end.
    destruct (lt_fams _ _ L2 _ _ NH) as (f' & NF & EQ). split; [|assumption]. specialize (EQ ltac:(assumption)). subst f'. unfold get_fam. apply nth_zget; assumption.
  - exact (IH _ _ _ _ _ W1 E2 D N).
Qed.
End Reg.
