(** Proofs for [LifeProps]: what a program that puts every object somewhere once keeps alive. *)
From Verif Require Import Base BaseFacts LifeModel LifeSpec LifeProofs.
Set Implicit Arguments.
Unset Strict Implicit.

Definition kids (ps : list (nat * nat)) (p : nat) : list nat := map fst (filter (fun x => snd x =? p) ps).
Lemma kids_in ps p c : In c (kids ps p) <-> In (c, p) ps.
Proof.
  unfold kids. rewrite in_map_iff. split.
  - intros ((c', p') & <- & I). apply filter_In in I. destruct I as [I E]. apply Nat.eqb_eq in E. cbn in *. subst. exact I.
  - intros I. exists (c, p). split; [reflexivity|]. apply filter_In. split; [exact I|]. cbn. apply Nat.eqb_refl.
Qed.
Lemma kids_app ps qs p : kids (ps ++ qs) p = kids ps p ++ kids qs p.
Proof. unfold kids. rewrite filter_app, map_app. reflexivity. Qed.
Lemma kids_cons c q ps p : kids ((c, q) :: ps) p = if q =? p then c :: kids ps p else kids ps p.
Proof. unfold kids. cbn. destruct (q =? p); reflexivity. Qed.
Lemma kids_nodup ps p : NoDup (map fst ps) -> NoDup (kids ps p).
Proof.
  induction ps as [|(c, q) ps IH]; [intros; constructor|]. intros N. inversion N as [|? ? N1 N2]. subst. cbn [fst] in *.
  rewrite kids_cons. destruct (q =? p); [|auto]. constructor; [|auto]. intros I. apply kids_in in I. apply N1.
  apply in_map_iff. exists (c, p). auto.
Qed.
Lemma put_once (ps : list (nat * nat)) c p q : NoDup (map fst ps) -> In (c, p) ps -> In (c, q) ps -> p = q.
Proof.
  induction ps as [|(d, r) ps IH]; [intros _ []|]. intros N. inversion N as [|? ? N1 N2]. subst. cbn [fst] in *.
  intros [E1|I1] [E2|I2].
  - congruence.
  - injection E1 as -> ->. exfalso. apply N1. apply in_map_iff. exists (c, q). auto.
  - injection E2 as -> ->. exfalso. apply N1. apply in_map_iff. exists (c, p). auto.
  - auto.
Qed.
Lemma kids_split ps p : forall A s B c D, kids ps p = A ++ s :: B ++ c :: D -> exists A' B' D', ps = A' ++ (s, p) :: B' ++ (c, p) :: D'.
Proof.
  assert (ONE : forall ps A s B, kids ps p = A ++ s :: B -> exists A' B', ps = A' ++ (s, p) :: B' /\ kids B' p = B).
  { clear ps. induction ps as [|(d, q) ps IH]; intros A s B H; [destruct A; discriminate|]. rewrite kids_cons in H.
    destruct (Nat.eqb_spec q p) as [->|N].
    - destruct A as [|a A]; cbn in H; injection H as H1 H2.
      + subst. exists [], ps. auto.
      + subst. destruct (IH _ _ _ H2) as (A' & B' & -> & K). exists ((a, p) :: A'), B'. auto.
    - destruct (IH _ _ _ H) as (A' & B' & -> & K). exists ((d, q) :: A'), B'. auto. }
  intros A s B c D H. destruct (ONE _ _ _ _ H) as (A' & R & -> & K). destruct (ONE _ _ _ _ K) as (B' & D' & -> & _).
  exists A', B', D'. reflexivity.
Qed.
Lemma split_unique {A} (l A1 B1 A2 B2 : list A) (x : A) : NoDup l -> l = A1 ++ x :: B1 -> l = A2 ++ x :: B2 -> A1 = A2 /\ B1 = B2.
Proof.
  intros N -> E. revert A2 E. induction A1 as [|a A1 IH]; intros A2 E.
  - destruct A2 as [|b A2]; cbn in E; [injection E as E2; auto|]. injection E as E1 E2. subst. exfalso. inversion N as [|? ? N1 _]. apply N1.
    apply in_or_app. right. left. reflexivity.
  - cbn in N. inversion N as [|? ? N1 N2]. subst. destruct A2 as [|b A2]; cbn in E; injection E as E1 E2.
    + subst. exfalso. apply N1. apply in_or_app. right. left. reflexivity.
    + subst. destruct (IH N2 A2 E2) as [-> ->]. auto.
Qed.
Definition last_of (l : list nat) : option nat := hd_error (rev l).
Lemma last_of_app l x : last_of (l ++ [x]) = Some x.
Proof. unfold last_of. rewrite rev_app_distr. reflexivity. Qed.
Lemma last_of_case (l : list nat) : l = [] \/ exists k x, l = k ++ [x].
Proof. destruct l using rev_ind; [auto|]. right. eauto. Qed.
Lemma app_snoc_split (k : list nat) c : forall A o d B, k ++ [c] = A ++ o :: d :: B ->
  (exists B', k = A ++ o :: d :: B' /\ B = B' ++ [c]) \/ (B = [] /\ d = c /\ k = A ++ [o]).
Proof.
  intros A o d B H. destruct (last_of_case B) as [->|(B' & x & ->)].
  - right. change (A ++ [o; d]) with (A ++ [o] ++ [d]) in H. rewrite app_assoc in H. apply app_inj_tail in H. destruct H. auto.
  - left. replace (A ++ o :: d :: B' ++ [x]) with ((A ++ o :: d :: B') ++ [x]) in H by (rewrite <- app_assoc; reflexivity).
    apply app_inj_tail in H. destruct H. subst. eauto.
Qed.

(** What the living objects hold. *)
Definition shape (m : mem) (ps : list (nat * nat)) : Prop :=
  (forall c p, In (c, p) ps -> c < length (objs m) /\ p < length (objs m)) /\
  (forall o n, look m o = Some n ->
     n_first n = hd_error (kids ps o) /\ n_last n = last_of (kids ps o) /\
     (forall c, n_next n = Some c <-> exists p A B, kids ps p = A ++ o :: c :: B) /\
     (forall p, n_parent n = Some p -> In (o, p) ps)).

Lemma later_alive m ps p : valid m -> shape m ps -> forall R K s, kids ps p = K ++ s :: R -> alive m s -> forall c, In c R -> alive m c.
Proof.
  intros V S. induction R as [|r R IH]; intros K s E A c I; [destruct I|].
  assert (Ar : alive m r).
  { unfold alive in A. destruct (look m s) as [n|] eqn:L; [|congruence]. apply (@good_next m s n r V L). apply (proj2 S s n L). eauto. }
  destruct I as [<-|I]; [exact Ar|]. apply (IH (K ++ [s]) r); [rewrite <- app_assoc; exact E|exact Ar|exact I].
Qed.
Lemma kids_alive m ps p : valid m -> shape m ps -> alive m p -> forall c, In c (kids ps p) -> alive m c.
Proof.
  intros V S A c I. destruct (kids ps p) as [|k R] eqn:E; [destruct I|].
  assert (Ak : alive m k).
  { unfold alive in A. destruct (look m p) as [n|] eqn:L; [|congruence]. apply (@good_first m p n k V L). rewrite (proj1 (proj2 S p n L)), E. reflexivity. }
  destruct I as [<-|I]; [exact Ak|]. exact (@later_alive m ps p V S R [] k E Ak c I).
Qed.

Lemma shape_less m m' ps : shape m ps -> length (objs m') = length (objs m) -> (forall o n, look m' o = Some n -> look m o = Some n) -> shape m' ps.
Proof. intros [A B] L H. split; [rewrite L; exact A|]. intros o n E. apply B. auto. Qed.

Lemma edit_id m o n f : tight m -> look m o = Some n -> (forall b, n_first n = Some b -> n_first (f n) = Some b) -> (forall b, n_next n = Some b -> n_next (f n) = Some b) ->
  edit m o f = Ok (store m o (Some (f n))) /\ tight (store m o (Some (f n))).
Proof.
  intros T L F N. pose proof (look_lt L) as LT.
  assert (T' : tight (store m o (Some (f n)))).
  { intros x A. assert (Ax : alive m x). { unfold alive in *. rewrite look_store in A by exact LT. destruct (Nat.eqb_spec x o) as [E0|E0]; [congruence|exact A]. }
    destruct (T x Ax) as [I|(a & k & La & Q)]; [left; exact I|]. right. exists a. destruct (Nat.eqb_spec a o) as [->|Ne].
    - exists (f n). rewrite look_store, Nat.eqb_refl by exact LT. split; [reflexivity|]. assert (k = n) by congruence. subst. destruct Q; auto.
    - exists k. rewrite look_store by exact LT. destruct (Nat.eqb_spec a o); [contradiction|]. auto. }
  split; [|exact T']. unfold edit. rewrite (proj2 (read_ok m o n) L). rewrite obind_Ok, settle_id by exact T'. reflexivity.
Qed.
Lemma kept_edit_id m q n f : tight m -> look m q = Some n -> (forall b, n_first n = Some b -> n_first (f n) = Some b) -> (forall b, n_next n = Some b -> n_next (f n) = Some b) ->
  (do m <- edit (keep m q) q f; Ok (release m q)) = Ok (store m q (Some (f n))) /\ tight (store m q (Some (f n))).
Proof.
  intros T L F N. destruct (@edit_id (keep m q) q n f) as [E _]; [|exact L|exact F|exact N|].
  - intros x A. destruct (T x A) as [I|W]; [left; cbn; auto|right; exact W].
  - destruct (@edit_id m q n f T L F N) as [_ T']. split; [|exact T']. rewrite E. cbn [obind]. f_equal.
    unfold release. replace {| objs := objs (store (keep m q) q (Some (f n))); held := without (held (store (keep m q) q (Some (f n)))) q |} with (store m q (Some (f n))).
    + apply settle_id. exact T'.
    + unfold store, keep. cbn [objs held]. rewrite without_cons. reflexivity.
Qed.

Lemma put_shape m ps c p m' level : good m -> shape m ps -> NoDup (map fst (ps ++ [(c, p)])) ->
  (forall x y, In (x, y) (ps ++ [(c, p)]) -> level y < level x) -> set_parent m c (Some p) = Ok m' -> shape m' (ps ++ [(c, p)]).
Proof.
  intros [V T] S N LV H. rewrite map_app in N. cbn in N.
  assert (NP : NoDup (map fst ps)) by (apply NoDup_remove_1 in N; rewrite app_nil_r in N; exact N).
  assert (NC : ~ In c (map fst ps)) by (apply NoDup_remove_2 in N; rewrite app_nil_r in N; exact N).
  assert (NK : forall q, ~ In (c, q) ps) by (intros q I; apply NC; apply in_map_iff; exists (c, q); auto).
  assert (PC : p <> c) by (intros ->; pose proof (LV c c ltac:(apply in_or_app; right; left; reflexivity)); lia).
  pose proof H as H0. unfold set_parent in H. apply obind_ok_inv in H. destruct H as (me & Rm & H). apply read_ok in Rm.
  destruct (proj2 S c me Rm) as (Sc1 & Sc2 & Sc3 & Sc4).
  assert (P0 : n_parent me = None) by (destruct (n_parent me) as [q|] eqn:E; [exfalso; exact (NK q (Sc4 q eq_refl))|reflexivity]).
  rewrite P0 in H. cbn [lock] in H. replace (same (Some p) None || same (Some p) (Some c)) with false in H by (cbn; destruct (Nat.eqb_spec p c); [contradiction|reflexivity]).
  apply obind_ok_inv in H. destruct H as (pn & Rp & H). apply read_ok in Rp. cbv zeta in H.
  destruct (@edit_id m c me (fun me => set_par me (Some p)) T Rm) as [E1 T1]; [auto|auto|]. rewrite E1, obind_Ok in H.
  set (m1 := store m c (Some (set_par me (Some p)))) in *. cbn [unlink] in H. rewrite obind_Ok in H.
  pose proof (look_lt Rm) as Lc. pose proof (look_lt Rp) as Lp.
  assert (L1 : forall x, look m1 x = if x =? c then Some (set_par me (Some p)) else look m x) by (intros x; apply look_store; exact Lc).
  assert (Rp1 : look m1 p = Some pn). { rewrite L1. destruct (Nat.eqb_spec p c); [contradiction|exact Rp]. }
  assert (Rc1 : look m1 c = Some (set_par me (Some p))) by (rewrite L1, Nat.eqb_refl; reflexivity).
  unfold link in H. rewrite (proj2 (read_ok m1 p pn) Rp1), obind_Ok in H.
  destruct (@edit_id m1 c _ (fun me0 => set_prev me0 (n_last pn)) T1 Rc1) as [E2 T2]; [auto|auto|]. rewrite E2, obind_Ok in H.
  set (me' := set_prev (set_par me (Some p)) (n_last pn)) in *. set (m2 := store m1 c (Some me')) in *.
  assert (L2 : forall x, look m2 x = if x =? c then Some me' else look m x).
  { intros x. unfold m2. rewrite look_store by (unfold m1; cbn; rewrite length_list_set; exact Lc). destruct (Nat.eqb_spec x c); [reflexivity|]. rewrite L1. destruct (Nat.eqb_spec x c); [contradiction|reflexivity]. }
  assert (Rp2 : look m2 p = Some pn). { rewrite L2. destruct (Nat.eqb_spec p c); [contradiction|exact Rp]. }
  assert (Rc2 : look m2 c = Some me') by (rewrite L2, Nat.eqb_refl; reflexivity).
  rewrite (proj2 (read_ok m2 c me') Rc2), obind_Ok in H.
  destruct (proj2 S p pn Rp) as (Sp1 & Sp2 & Sp3 & Sp4).
  assert (LEN : length (objs m2) = length (objs m)) by (unfold m2, m1; cbn; rewrite !length_list_set; reflexivity).
  assert (KC : forall q, kids (ps ++ [(c, p)]) q = if p =? q then kids ps q ++ [c] else kids ps q).
  { intros q. rewrite kids_app, kids_cons. cbn [kids]. destruct (p =? q); [reflexivity|apply app_nil_r]. }
  assert (PAR : forall o n q, look m o = Some n -> n_parent n = Some q -> In (o, q) (ps ++ [(c, p)])).
  { intros o n q L E. apply in_or_app. left. apply (proj2 S o n L). exact E. }
  assert (INK : forall q A x B, kids ps q = A ++ x :: B -> In (x, q) ps) by (intros q A x B E; apply kids_in; rewrite E; apply in_or_app; right; left; reflexivity).
  assert (LEVELS : forall x y, In (x, y) ps -> level y < level x) by (intros x y I; apply LV; apply in_or_app; auto).
  assert (NEXTC : n_next me = None).
  { destruct (n_next me) as [d|] eqn:E; [|reflexivity]. exfalso. destruct (proj1 (Sc3 d) eq_refl) as (q & A & B & K). exact (NK q (INK _ _ _ _ K)). }
  assert (CNEXT : forall d q A B, kids (ps ++ [(c, p)]) q <> A ++ c :: d :: B).
  { intros d q A B E. rewrite KC in E. destruct (Nat.eqb_spec p q) as [<-|].
    - apply app_snoc_split in E. destruct E as [(B' & E & _)|(_ & _ & E)]; apply INK in E; exact (NK _ E).
    - apply INK in E. exact (NK _ E). }
  (* the object at the end of the list, if any *)
  destruct (last_of_case (kids ps p)) as [KE|(K & l & KE)].
  - rewrite Sp2, KE in H. cbn [last_of rev hd_error lock] in H.
    destruct (@edit_id m2 p pn (fun n => set_first n (Some c)) T2 Rp2) as [E3 T3].
    { intros b E. rewrite Sp1, KE in E. discriminate. } { auto. }
    rewrite E3, obind_Ok in H. set (m3 := store m2 p (Some (set_first pn (Some c)))) in *.
    assert (Lp2 : p < length (objs m2)) by (rewrite LEN; exact Lp).
    assert (Rp3 : look m3 p = Some (set_first pn (Some c))) by (unfold m3; rewrite look_store, Nat.eqb_refl by exact Lp2; reflexivity).
    destruct (@edit_id m3 p _ (fun n => set_last n (Some c)) T3 Rp3) as [E4 T4]; [auto|auto|]. rewrite E4, obind_Ok in H.
    apply obind_ok_inv in H. destruct H as (z & _ & [= <-]).
    set (pn' := set_last (set_first pn (Some c)) (Some c)) in *.
    assert (LF : forall x, look (store m3 p (Some pn')) x = if x =? p then Some pn' else if x =? c then Some me' else look m x).
    { intros x. rewrite look_store by (unfold m3; cbn; rewrite length_list_set; exact Lp2). destruct (Nat.eqb_spec x p); [reflexivity|].
      unfold m3. rewrite look_store by exact Lp2. destruct (Nat.eqb_spec x p); [contradiction|]. apply L2. }
    assert (NX : forall o, o <> c -> forall d, (exists q A B, kids (ps ++ [(c, p)]) q = A ++ o :: d :: B) <-> exists q A B, kids ps q = A ++ o :: d :: B).
    { intros o No d. split; intros (q & A & B & E).
      - rewrite KC in E. destruct (Nat.eqb_spec p q) as [<-|]; [|eauto]. rewrite KE in E. cbn in E. destruct A as [|? [|]]; discriminate.
      - exists q, A. rewrite KC. destruct (Nat.eqb_spec p q) as [<-|]; [|eauto]. rewrite KE in E. destruct A; discriminate. }
    split.
    + intros x y I. cbn. rewrite !length_list_set. apply in_app_or in I. destruct I as [I|[[= <- <-]|[]]]; [apply S; exact I|auto].
    + intros o n L. rewrite LF in L. rewrite KC. destruct (Nat.eqb_spec o p) as [->|Np].
      * injection L as <-. rewrite Nat.eqb_refl, KE. cbn [app]. split; [reflexivity|]. split; [reflexivity|]. split.
        -- intros d. cbn. rewrite NX by exact PC. apply Sp3.
        -- intros q E. eapply PAR; [exact Rp|exact E].
      * destruct (Nat.eqb_spec p o); [congruence|]. destruct (Nat.eqb_spec o c) as [->|Nc].
        -- injection L as <-. cbn. split; [exact Sc1|]. split; [exact Sc2|]. split.
           ++ intros d. rewrite NEXTC. split; [discriminate|]. intros (q & A & B & E). exfalso. exact (CNEXT _ _ _ _ E).
           ++ intros q [= <-]. apply in_or_app. right. left. reflexivity.
        -- destruct (proj2 S o n L) as (Q1 & Q2 & Q3 & Q4). split; [exact Q1|]. split; [exact Q2|]. split.
           ++ intros d. rewrite NX by exact Nc. apply Q3.
           ++ intros q E. eapply PAR; [exact L|exact E].
  - assert (IL : In (l, p) ps) by (eapply INK; exact KE).
    assert (LP : l <> p) by (intros ->; pose proof (LEVELS p p IL); lia). assert (LC : l <> c) by (intros ->; exact (NK _ IL)).
    assert (Al : alive m l). { apply (@kids_alive m ps p V S); [unfold alive; congruence|]. rewrite KE. apply in_or_app. right. left. reflexivity. }
    assert (exists ln, look m l = Some ln) as [ln Rl] by (unfold alive in Al; destruct (look m l); [eauto|congruence]).
    assert (Rl2 : look m2 l = Some ln). { rewrite L2. destruct (Nat.eqb_spec l c); [contradiction|exact Rl]. }
    rewrite Sp2, KE, last_of_app in H. cbn [lock] in H. rewrite Rl2 in H.
    destruct (proj2 S l ln Rl) as (Sl1 & Sl2 & Sl3 & Sl4).
    assert (LN : n_next ln = None).
    { destruct (n_next ln) as [d|] eqn:E; [|reflexivity]. exfalso. destruct (proj1 (Sl3 d) eq_refl) as (q & A & B & E1').
      assert (q = p) by (eapply put_once; [exact NP|eapply INK; exact E1'|exact IL]). subst q.
      destruct (@split_unique _ (kids ps p) K [] A (d :: B) l (@kids_nodup ps p NP) KE E1') as [_ W]. discriminate. }
    destruct (@kept_edit_id m2 l ln (fun n => set_next n (Some c)) T2 Rl2) as [E3 T3]; [auto|intros b E; congruence|].
    rewrite E3, obind_Ok in H. set (m3 := store m2 l (Some (set_next ln (Some c)))) in *.
    pose proof (look_lt Rl2) as Ll2. assert (Lp2 : p < length (objs m2)) by (rewrite LEN; exact Lp).
    assert (L3 : forall x, look m3 x = if x =? l then Some (set_next ln (Some c)) else look m2 x) by (intros x; apply look_store; exact Ll2).
    assert (Rp3 : look m3 p = Some pn) by (rewrite L3; destruct (Nat.eqb_spec p l); [congruence|exact Rp2]).
    destruct (@edit_id m3 p _ (fun n => set_last n (Some c)) T3 Rp3) as [E4 T4]; [auto|auto|]. rewrite E4, obind_Ok in H.
    apply obind_ok_inv in H. destruct H as (z & _ & [= <-]).
    set (pn' := set_last pn (Some c)) in *.
    assert (LF : forall x, look (store m3 p (Some pn')) x = if x =? p then Some pn' else if x =? l then Some (set_next ln (Some c)) else if x =? c then Some me' else look m x).
    { intros x. rewrite look_store by (unfold m3; cbn; rewrite length_list_set; exact Lp2). destruct (Nat.eqb_spec x p); [reflexivity|].
      rewrite L3. destruct (Nat.eqb_spec x l); [reflexivity|]. apply L2. }
    assert (NX : forall o, o <> l -> forall d, (exists q A B, kids (ps ++ [(c, p)]) q = A ++ o :: d :: B) <-> exists q A B, kids ps q = A ++ o :: d :: B).
    { intros o No d. split; intros (q & A & B & E).
      - rewrite KC in E. destruct (Nat.eqb_spec p q) as [<-|]; [|eauto]. apply app_snoc_split in E.
        destruct E as [(B' & E & _)|(_ & _ & E)]; [eauto|]. exfalso. rewrite KE in E. apply app_inj_tail in E. destruct E. congruence.
      - exists q, A. rewrite KC. destruct (Nat.eqb_spec p q) as [<-|]; [|eauto]. exists (B ++ [c]). rewrite E, <- app_assoc. reflexivity. }
    split.
    + intros x y I. cbn. rewrite !length_list_set. apply in_app_or in I. destruct I as [I|[[= <- <-]|[]]]; [apply S; exact I|auto].
    + intros o n L. rewrite LF in L. rewrite KC. destruct (Nat.eqb_spec o p) as [->|Np].
      * injection L as <-. rewrite Nat.eqb_refl. cbn [pn' set_last n_first n_last n_next n_parent].
        split; [rewrite Sp1, KE; destruct K; reflexivity|]. split; [rewrite last_of_app; reflexivity|]. split.
        -- intros d. rewrite NX by congruence. apply Sp3.
        -- intros q E. eapply PAR; [exact Rp|exact E].
      * destruct (Nat.eqb_spec p o); [congruence|]. destruct (Nat.eqb_spec o l) as [->|Nl]; [|destruct (Nat.eqb_spec o c) as [->|Nc]].
        -- injection L as <-. cbn [set_next n_first n_last n_next n_parent]. split; [exact Sl1|]. split; [exact Sl2|]. split.
           ++ intros d. split.
              ** intros [= <-]. exists p, K, []. rewrite KC, Nat.eqb_refl, KE, <- app_assoc. reflexivity.
              ** intros (q & A & B & E). rewrite KC in E. destruct (Nat.eqb_spec p q) as [<-|Nq].
                 --- apply app_snoc_split in E. destruct E as [(B' & E & _)|(_ & -> & _)]; [|reflexivity].
                     destruct (@split_unique _ (kids ps p) K [] A (d :: B') l (@kids_nodup ps p NP) KE E) as [_ W]. discriminate.
                 --- exfalso. apply Nq. eapply put_once; [exact NP|exact IL|eapply INK; exact E].
           ++ intros q E. eapply PAR; [exact Rl|exact E].
        -- injection L as <-. unfold me'. cbn [set_prev set_par n_first n_last n_next n_parent]. split; [exact Sc1|]. split; [exact Sc2|]. split.
           ++ intros d. rewrite NEXTC. split; [discriminate|]. intros (q & A & B & E). exfalso. exact (CNEXT _ _ _ _ E).
           ++ intros q [= <-]. apply in_or_app. right. left. reflexivity.
        -- destruct (proj2 S o n L) as (Q1 & Q2 & Q3 & Q4). split; [exact Q1|]. split; [exact Q2|]. split.
           ++ intros d. rewrite NX by exact Nl. apply Q3.
           ++ intros q E. eapply PAR; [exact L|exact E].
Qed.

Lemma nodup_front {A} (l r : list A) : NoDup (l ++ r) -> NoDup l.
Proof.
  induction l as [|x l IH]; intros N; [constructor|]. cbn in N. inversion N as [|? ? N1 N2]. subst. constructor; [|auto].
  intros I. apply N1. apply in_or_app. auto.
Qed.
Lemma run_shape level xs : forall m ps m', good m -> shape m ps -> NoDup (map fst (ps ++ puts xs)) -> (forall c, ~ In (Put c None) xs) ->
  (forall x y, In (x, y) (ps ++ puts xs) -> level y < level x) -> run m xs = Ok m' -> shape m' (ps ++ puts xs).
Proof.
  induction xs as [|x xs IH]; intros m ps m' G S N NN LV H.
  - cbn in *. injection H as <-. rewrite app_nil_r. exact S.
  - cbn [run] in H. apply obind_ok_inv in H. destruct H as (m1 & E & H). pose proof (@step_good m x m1 G E) as G1.
    assert (NN' : forall c, ~ In (Put c None) xs) by (intros c I; apply (NN c); right; exact I).
    destruct x as [|o|o|c [p|]].
    + apply (IH m1 ps m' G1); auto. cbn in E. injection E as <-. destruct S as [S1 S2]. split.
      * intros c p I. cbn. rewrite app_length. cbn. destruct (S1 c p I). lia.
      * intros o n L. unfold look in L. cbn in L. destruct (Nat.lt_ge_cases o (length (objs m))) as [W|W].
        -- rewrite nth_error_app1 in L by exact W. apply S2. exact L.
        -- rewrite nth_error_app2 in L by exact W. destruct (o - length (objs m)) as [|k] eqn:Z; [|destruct k; discriminate]. injection L as <-.
           assert (NI : forall q, ~ In (o, q) ps) by (intros q I; destruct (S1 o q I); lia).
           assert (NK : kids ps o = []). { destruct (kids ps o) as [|k R] eqn:K; [reflexivity|]. assert (I : In k (kids ps o)) by (rewrite K; left; reflexivity). apply kids_in in I. destruct (S1 k o I). lia. }
           rewrite NK. cbn. split; [reflexivity|]. split; [reflexivity|]. split; [|discriminate].
           intros d. split; [discriminate|]. intros (q & A & B & K). exfalso. apply (NI q). apply kids_in. rewrite K. apply in_or_app. right. left. reflexivity.
    + apply (IH m1 ps m' G1); auto. cbn in E. apply obind_ok_inv in E. destruct E as (n & _ & [= <-]). exact S.
    + apply (IH m1 ps m' G1); auto. cbn in E. injection E as <-. destruct (@release_spec m o (proj1 G)) as (_ & _ & _ & L & W). apply (shape_less S L W).
    + cbn [puts flat_map] in *. rewrite app_assoc in *. apply (IH m1 (ps ++ [(c, p)]) m' G1); auto.
      apply (@put_shape m ps c p m1 level G S); [|intros x y I; apply LV; apply in_or_app; left; exact I|exact E].
      rewrite map_app in N. exact (nodup_front N).
    + exfalso. apply (NN c). left. reflexivity.
Qed.
Lemma nothing_shape : shape nothing [].
Proof. split; [intros c p []|]. intros o n L. unfold look in L. cbn in L. destruct o; discriminate. Qed.

Lemma shape_lives m ps level : good m -> shape m ps -> NoDup (map fst ps) -> (forall x y, In (x, y) ps -> level y < level x) ->
  forall o, alive m o <-> lives (fun x => In x (held m)) ps o.
Proof.
  intros [V T] HS N LV.
  assert (INK : forall q A x B, kids ps q = A ++ x :: B -> In (x, q) ps) by (intros q A x B E; apply kids_in; rewrite E; apply in_or_app; right; left; reflexivity).
  assert (PRED : forall o, alive m o -> In o (held m) \/ (exists p, In (o, p) ps /\ alive m p) \/ (exists p a A B, kids ps p = A ++ a :: o :: B /\ alive m a)).
  { intros o A. destruct (T o A) as [I|(a & n & L & [E|E])]; [auto| |].
    - right. left. exists a. split; [|unfold alive; congruence]. apply kids_in. rewrite (proj1 (proj2 HS a n L)) in E. destruct (kids ps a); [discriminate|]. injection E as ->. left. reflexivity.
    - right. right. apply (proj2 HS a n L) in E. destruct E as (p & A' & B & E). exists p, a, A', B. split; [exact E|unfold alive; congruence]. }
  assert (DOWN : forall n p, level p < n -> forall k A o B, length A < k -> kids ps p = A ++ o :: B -> alive m o -> lives (fun x => In x (held m)) ps o).
  { induction n as [|n IHn]; [lia|]. intros p Lp. induction k as [|k IHk]; [lia|]. intros A o B LA E Ao. pose proof (INK _ _ _ _ E) as Io.
    destruct (PRED o Ao) as [I|[(q & I & Aq)|(q & a & A' & B' & E' & Aa)]].
    - apply lives_held. exact I.
    - assert (q = p) by (eapply put_once; eauto). subst q. apply (@lives_child _ ps o p I).
      destruct (PRED p Aq) as [I2|[(r & I2 & Ar)|(r & a & A' & B' & E' & Aa)]].
      + apply lives_held. exact I2.
      + apply (proj2 (kids_in ps r p)) in I2. pose proof I2 as I3. apply in_split in I3. destruct I3 as (A' & B' & E').
        apply (IHn r) with (k := S (length A')) (A := A') (B := B'); [|lia|exact E'|exact Aq].
        apply kids_in in I2. pose proof (LV _ _ I2). lia.
      + assert (E2 : kids ps r = (A' ++ [a]) ++ p :: B') by (rewrite <- app_assoc; exact E').
        apply (IHn r) with (k := S (length (A' ++ [a]))) (A := A' ++ [a]) (B := B'); [|lia|exact E2|exact Aq].
        pose proof (LV _ _ (INK _ _ _ _ E2)). lia.
    - assert (E2 : kids ps q = (A' ++ [a]) ++ o :: B') by (rewrite <- app_assoc; exact E').
      assert (q = p) by (eapply put_once; [exact N|eapply INK; exact E2|exact Io]). subst q.
      destruct (@split_unique _ (kids ps p) A B (A' ++ [a]) B' o (@kids_nodup ps p N) E E2) as [-> ->].
      destruct (@kids_split ps p A' a [] o B' E') as (X & Y & Z & W). apply (@lives_younger _ ps a o p X Y Z W).
      apply IHk with (A := A') (B := o :: B'); [rewrite app_length in LA; cbn in LA; lia|exact E'|exact Aa]. }
  intros o. split.
  - intros Ao. destruct (PRED o Ao) as [I|[(q & I & Aq)|(q & a & A' & B' & E' & Aa)]].
    + apply lives_held. exact I.
    + apply (proj2 (kids_in ps q o)) in I. apply in_split in I. destruct I as (A & B & E). eapply (DOWN (S (level q)) q ltac:(lia) (S (length A)) A o B); auto.
    + assert (E2 : kids ps q = (A' ++ [a]) ++ o :: B') by (rewrite <- app_assoc; exact E').
      eapply (DOWN (S (level q)) q ltac:(lia) (S (length (A' ++ [a]))) (A' ++ [a]) o B'); auto.
  - intros L. induction L as [o I|c p I L IH|s c p A B D E L IH].
    + apply V. exact I.
    + apply (@kids_alive m ps p V HS IH). apply kids_in. exact I.
    + assert (K : kids ps p = kids A p ++ s :: (kids B p ++ c :: kids D p)).
      { rewrite E, kids_app, kids_cons, Nat.eqb_refl, kids_app, kids_cons, Nat.eqb_refl. reflexivity. }
      apply (@later_alive m ps p V HS _ _ _ K IH). apply in_or_app. right. left. reflexivity.
Qed.
