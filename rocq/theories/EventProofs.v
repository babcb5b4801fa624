From Verif Require Import Base BaseFacts TreeModel TreeSpec TreeProofs EventModel EventSpec.

Section Proofs.
Variable P : Type.
Variable add : P -> P -> P.
Variable h : heap P.
Hypothesis G : good P add h.
Variable visible : nat -> bool.

Lemma kids_of p : exists l, visits h p l /\ visits_back h p (rev l) /\ NoDup l /\ forall c, In c l <-> ob_parent (h c) = Some p.
Proof. exact (good_tree _ _ _ G p). Qed.
Lemma visits_kids p l : visits h p l -> visits_back h p (rev l) /\ NoDup l /\ forall c, In c l <-> ob_parent (h c) = Some p.
Proof. intros V. destruct (kids_of p) as (l' & V' & B). rewrite (along_fun _ _ _ V _ V'). exact B. Qed.

(** ** No cycles *)
Lemma acyclic x : forall y, ob_parent (h y) = Some x -> ~ below h y x.
Proof.
  pose proof (go_fin _ _ _ G x) as F. induction F as [x _ IH]. intros y Y B.
  destruct B as [|x z Z B].
  - exact (IH y Y y Y (below_self _ _ _)).
  - assert (Q : exists k, ob_parent (h k) = Some y /\ below h k x).
    { clear IH Y. revert x Z. induction B as [|z w W B IH]; intros x Z.
      - exists x. split; [exact Z|constructor].
      - destruct (IH z W) as (k & K & BK). exists k. split; [exact K|]. eapply below_child; [exact Z|exact BK]. }
    destruct Q as (k & K & BK). apply (IH y Y k K). eapply below_child; [exact Y|exact BK].
Qed.
Lemma below_trans a b c : below h a b -> below h b c -> below h a c.
Proof. intros A B. induction B as [|x y X B IH]; [exact A|]. eapply below_child; [exact X|exact IH]. Qed.
Lemma below_cmp a b x : below h a x -> below h b x -> below h a b \/ below h b a.
Proof.
  intros A. revert b. induction A as [|x y X A IH]; intros b B; [right; exact B|].
  destruct B as [|x z Z B]; [left; eapply below_child; eassumption|]. assert (z = y) by congruence. subst z. auto.
Qed.
Lemma below_parent a b p : below h a b -> a <> b -> ob_parent (h b) = Some p -> below h a p.
Proof. intros [|x y X B] N Q; [congruence|]. assert (y = p) by congruence. subst. exact B. Qed.
Lemma siblings_apart p a b x : ob_parent (h a) = Some p -> ob_parent (h b) = Some p -> below h a x -> below h b x -> a = b.
Proof.
  intros A B X Y. destruct (Nat.eq_dec a b) as [E|N]; [exact E|exfalso].
  destruct (below_cmp _ _ _ X Y) as [Q|Q].
  - apply (acyclic p a A). eapply below_parent; eassumption.
  - apply (acyclic p b B). eapply below_parent; [exact Q|congruence|exact A].
Qed.

(** ** The objects in the order of [for_each_descendant], each with whether it is shown *)
Inductive T : bool -> list nat -> list (nat * bool) -> Prop :=
| T_nil b : T b [] []
| T_cons b c cs kids lk l : visits h c kids -> T (b && visible c) kids lk -> T b cs l -> T b (c :: cs) ((c, b && visible c) :: lk ++ l).

Lemma T_ex p cs : visits h p cs -> forall b, exists l, T b cs l.
Proof.
  revert cs. pose proof (go_fin _ _ _ G p) as F. induction F as [p _ IH]. intros cs V.
  assert (K : forall c, In c cs -> ob_parent (h c) = Some p) by (intros c; apply visits_kids; exact V).
  clear V. induction cs as [|c cs IHc]; intros b; [exists []; constructor|].
  destruct (IHc (fun x I => K x (or_intror I)) b) as (l & L).
  destruct (kids_of c) as (kids & VC & _). destruct (IH c (K c (or_introl eq_refl)) kids VC (b && visible c)) as (lk & LK).
  eexists. econstructor; eassumption.
Qed.
Lemma T_app b : forall c1 c2 l, T b (c1 ++ c2) l -> exists l1 l2, l = l1 ++ l2 /\ T b c1 l1 /\ T b c2 l2.
Proof.
  induction c1 as [|c c1 IH]; intros c2 l X; cbn in X; [exists [], l; repeat split; [constructor|exact X]|].
  inversion X as [|? ? ? kids lk l0 V TK TC]; subst. destruct (IH _ _ TC) as (l1 & l2 & -> & A & B).
  exists ((c, b && visible c) :: lk ++ l1), l2. repeat split; [cbn; rewrite app_assoc; reflexivity|econstructor; eassumption|exact B].
Qed.
Lemma T_below b cs l : T b cs l -> forall x, In x (map fst l) -> exists c, In c cs /\ below h c x.
Proof.
  induction 1 as [|b c cs kids lk l V TK IK TC IC]; intros x I; [destruct I|]. cbn in I. rewrite map_app, in_app_iff in I. destruct I as [<-|[I|I]].
  - exists c. split; [left; reflexivity|constructor].
  - destruct (IK x I) as (k & KI & KB). exists c. split; [left; reflexivity|]. apply (proj2 (proj2 (visits_kids _ _ V))) in KI.
    eapply below_trans; [|exact KB]. eapply below_child; [exact KI|constructor].
  - destruct (IC x I) as (k & KI & KB). exists k. split; [right; exact KI|exact KB].
Qed.
Lemma T_split b cs l : T b cs l -> forall p v, In (p, v) l -> exists l1 kids lk l2, l = l1 ++ (p, v) :: lk ++ l2 /\ visits h p kids /\ T v kids lk.
Proof.
  induction 1 as [|b c cs kids lk l V TK IK TC IC]; intros p v I; [destruct I|]. cbn in I. rewrite in_app_iff in I. destruct I as [E|[I|I]].
  - injection E as <- <-. exists [], kids, lk, l. auto.
  - destruct (IK p v I) as (l1 & k' & lk' & l2 & -> & V' & T'). exists ((c, b && visible c) :: l1), k', lk', (l2 ++ l). repeat split; [|exact V'|exact T'].
    cbn. rewrite <- !app_assoc. cbn. rewrite <- !app_assoc. reflexivity.
  - destruct (IC p v I) as (l1 & k' & lk' & l2 & -> & V' & T'). exists ((c, b && visible c) :: lk ++ l1), k', lk', l2. repeat split; [|exact V'|exact T'].
    cbn. rewrite <- app_assoc. reflexivity.
Qed.
Lemma T_top b cs l : T b cs l -> forall c, In c cs -> In (c, b && visible c) l.
Proof.
  induction 1 as [|b c cs kids lk l V TK IK TC IC]; intros x I; [destruct I|]. destruct I as [<-|I]; [left; reflexivity|]. right. apply in_app_iff. right. auto.
Qed.
Lemma T_child b cs l : T b cs l -> forall p v c, In (p, v) l -> ob_parent (h c) = Some p -> In (c, v && visible c) l.
Proof.
  intros X p v c I Q. destruct (T_split _ _ _ X p v I) as (l1 & kids & lk & l2 & -> & V & TK).
  apply in_app_iff. right. right. apply in_app_iff. left. apply (T_top _ _ _ TK). apply (visits_kids _ _ V). exact Q.
Qed.
Lemma T_all b cs l : T b cs l -> forall c x, In c cs -> below h c x -> In x (map fst l).
Proof.
  intros X c x I B. assert (Q : exists v, In (x, v) l).
  { induction B as [|x y Y B IH]; [eexists; eapply T_top; eassumption|]. destruct IH as (v & IV). eexists. eapply T_child; eassumption. }
  destruct Q as (v & Q). apply (in_map fst) in Q. exact Q.
Qed.
Lemma T_false cs l : T false cs l -> filter snd l = [].
Proof.
  intros X. remember false as b eqn:E. induction X as [|b c cs kids lk l V TK IK TC IC]; subst; [reflexivity|]. cbn. rewrite filter_app, IK, IC by reflexivity. reflexivity.
Qed.
Lemma nodup_app {A} (a b : list A) : NoDup a -> NoDup b -> (forall x, In x a -> ~ In x b) -> NoDup (a ++ b).
Proof.
  induction a as [|x a IH]; intros NA NB D; [exact NB|]. inversion NA as [|? ? NI NA']; subst. cbn. constructor.
  - intros I. apply in_app_iff in I as [I|I]; [exact (NI I)|]. exact (D x (or_introl eq_refl) I).
  - apply IH; [exact NA'|exact NB|]. intros y I. apply D. right. exact I.
Qed.
Lemma T_nodup b cs l : T b cs l -> forall p, NoDup cs -> (forall c, In c cs -> ob_parent (h c) = Some p) -> NoDup (map fst l).
Proof.
  induction 1 as [|b c cs kids lk l V TK IK TC IC]; intros p N K; [constructor|]. inversion N as [|? ? NI N']; subst.
  destruct (visits_kids _ _ V) as (_ & NK & KK). specialize (IK c NK (fun x I => proj1 (KK x) I)). specialize (IC p N' (fun x I => K x (or_intror I))).
  assert (AP : forall x, below h c x -> ~ In x (map fst l)).
  { intros x B I. destruct (T_below _ _ _ TC x I) as (k & KI & KB). apply NI.
    rewrite (siblings_apart p c k x); [exact KI|apply K; left; reflexivity|apply K; right; exact KI|exact B|exact KB]. }
  cbn. rewrite map_app. constructor.
  - intros I. apply in_app_iff in I as [I|I]; [|exact (AP c (below_self _ _ _) I)].
    destruct (T_below _ _ _ TK c I) as (k & KI & KB). apply (acyclic c k); [apply KK; exact KI|exact KB].
  - apply nodup_app; [exact IK|exact IC|]. intros x I. apply AP. destruct (T_below _ _ _ TK x I) as (k & KI & KB).
    eapply below_trans; [|exact KB]. eapply below_child; [apply KK; exact KI|constructor].
Qed.

(** ** Before and over *)
Lemma before_in l x y : before l x y -> In x l /\ In y l.
Proof. intros (a & b & c & ->). split; apply in_app_iff; right; [left; reflexivity|]. right. apply in_app_iff. right. left. reflexivity. Qed.
Lemma before_cons l c x y : before (c :: l) x y <-> (x = c /\ In y l) \/ before l x y.
Proof.
  split.
  - intros ([|a' a] & b & d & E); cbn in E; injection E as -> E.
    + left. split; [reflexivity|]. rewrite E. apply in_app_iff. right. left. reflexivity.
    + right. exists a, b, d. exact E.
  - intros [[-> I]|(a & b & d & ->)]; [|exists (c :: a), b, d; reflexivity].
    apply in_split in I as (b & d & ->). exists [], b, d. reflexivity.
Qed.
Lemma before_app l m x y : before (l ++ m) x y <-> before l x y \/ (In x l /\ In y m) \/ before m x y.
Proof.
  induction l as [|c l IH]; [cbn; split; [tauto|]; intros [(a & b & d & E)|[[[] _]|B]]; [destruct a; discriminate|exact B]|].
  cbn [app]. rewrite !before_cons, IH, in_app_iff. cbn [In]. split; intuition (subst; auto).
Qed.
Lemma before_asym l x y : NoDup l -> before l x y -> before l y x -> False.
Proof.
  induction l as [|c l IH]; intros N A B; [destruct A as ([|? ?] & ? & ? & E); discriminate|]. inversion N as [|? ? NI N']; subst.
  apply before_cons in A as [[-> A]|A]; apply before_cons in B as [[-> B]|B]; [tauto|apply before_in in B; tauto|apply before_in in A; tauto|exact (IH N' A B)].
Qed.
Lemma before_total l x y : In x l -> In y l -> x <> y -> before l x y \/ before l y x.
Proof.
  induction l as [|c l IH]; intros A B N; [destruct A|]. rewrite !before_cons. destruct A as [<-|A], B as [<-|B]; [congruence|auto|auto|]. destruct (IH A B N); auto.
Qed.

Variable r : nat.
Hypothesis ROOT : ob_parent (h r) = None.

Lemma T_over b cs l : T b cs l -> forall p front, visits h p (front ++ cs) -> forall x y, before (map fst l) x y -> over h x y.
Proof.
  induction 1 as [|b c cs kids lk l V TK IK TC IC]; intros p front VP x y B; [destruct B as ([|? ?] & ? & ? & E); discriminate|].
  pose proof (proj2 (proj2 (visits_kids _ _ V))) as KK.
  assert (IN : forall z, In z (map fst lk) -> below h c z).
  { intros z I. destruct (T_below _ _ _ TK z I) as (k & KI & KB). eapply below_trans; [|exact KB]. eapply below_child; [apply KK; exact KI|constructor]. }
  assert (SIB : forall u z, below h c u -> In z (map fst l) -> over h u z).
  { intros u z U Z. destruct (T_below _ _ _ TC z Z) as (k & KI & KB). right. exists p, (front ++ c :: cs), c, k. repeat split; [exact VP| |exact U|exact KB].
    apply in_split in KI as (k1 & k2 & ->). exists front, k1, k2. reflexivity. }
  cbn in B. rewrite map_app in B. apply before_cons in B as [[-> I]|B].
  - apply in_app_iff in I as [I|I]; [left; apply IN; exact I|apply SIB; [constructor|exact I]].
  - apply before_app in B as [B|[[X Y]|B]].
    + exact (IK c [] V x y B).
    + apply SIB; [apply IN; exact X|exact Y].
    + apply (IC p (front ++ [c])); [rewrite <- app_assoc; exact VP|exact B].
Qed.
Section Order.
Variable cs : list nat.
Hypothesis V : visits h r cs.
Variables (b : bool) (l : list (nat * bool)).
Hypothesis TT : T b cs l.
Lemma order_in x : In x (map fst l) <-> in_container h r x.
Proof.
  destruct (visits_kids _ _ V) as (_ & NC & KC). split.
  - intros I. destruct (T_below _ _ _ TT x I) as (c & CI & CB). apply KC in CI. split.
    + intros ->. exact (acyclic r c CI CB).
    + eapply below_trans; [|exact CB]. eapply below_child; [exact CI|constructor].
  - intros [N B]. assert (Q : exists c, In c cs /\ below h c x).
    { induction B as [|x y X B IH]; [congruence|]. destruct (Nat.eq_dec y r) as [->|NY].
      - exists x. split; [apply KC; exact X|constructor].
      - destruct (IH NY) as (c & CI & CB). exists c. split; [exact CI|]. eapply below_child; eassumption. }
    destruct Q as (c & CI & CB). exact (T_all _ _ _ TT c x CI CB).
Qed.
Lemma order_nodup : NoDup (map fst l).
Proof. destruct (visits_kids _ _ V) as (_ & NC & KC). eapply T_nodup; [exact TT|exact NC|]. intros c I. apply KC. exact I. Qed.

Lemma before_ne cs0 x y : NoDup cs0 -> before cs0 x y -> x <> y.
Proof. intros N B ->. exact (before_asym _ _ _ N B B). Qed.
Lemma over_sib x y p cs0 a d : below h x y -> visits h p cs0 -> before cs0 a d -> below h a y -> below h d x -> False.
Proof.
  intros B VP BE AY DX. destruct (visits_kids _ _ VP) as (_ & NC & KC). destruct (before_in _ _ _ BE) as [IA ID].
  apply (before_ne _ _ _ NC BE). eapply (siblings_apart p); [apply KC; exact IA|apply KC; exact ID|exact AY|]. eapply below_trans; eassumption.
Qed.
Lemma sib_sib x y p cs0 a d p' cs' a' d' : visits h p cs0 -> before cs0 a d -> below h a x -> below h d y ->
  visits h p' cs' -> before cs' a' d' -> below h a' y -> below h d' x -> a <> d' -> below h d' a -> False.
Proof.
  intros VP BE AX DY VP' BE' AY DX NE B. destruct (visits_kids _ _ VP) as (_ & NC & KC). destruct (before_in _ _ _ BE) as [IA ID].
  destruct (visits_kids _ _ VP') as (_ & NC' & KC'). destruct (before_in _ _ _ BE') as [IA' ID'].
  apply KC in IA, ID. apply KC' in IA', ID'.
  assert (BP : below h d' p) by (eapply below_parent; [exact B|congruence|exact IA]).
  apply (before_ne _ _ _ NC' BE'). eapply (siblings_apart p'); [exact IA'|exact ID'|exact AY|]. eapply below_trans; [|exact DY]. eapply below_child; [exact ID|exact BP].
Qed.
Lemma over_anti x y : over h x y -> over h y x -> x = y.
Proof.
  intros [A|(p & cs0 & a & d & VP & BE & AX & DY)] [B|(p' & cs' & a' & d' & VP' & BE' & AY & DX)].
  - destruct A as [|y z Z A]; [reflexivity|]. exfalso.
    assert (Q : exists k, ob_parent (h k) = Some x /\ below h k y).
    { clear B. revert y Z. induction A as [|z w W A IH]; intros y Z.
      - exists y. split; [exact Z|constructor].
      - destruct (IH z W) as (k & K & BK). exists k. split; [exact K|]. eapply below_child; [exact Z|exact BK]. }
    destruct Q as (k & K & BK). apply (acyclic x k K). eapply below_trans; eassumption.
  - exfalso. exact (over_sib x y p' cs' a' d' A VP' BE' AY DX).
  - exfalso. exact (over_sib y x p cs0 a d B VP BE AX DY).
  - exfalso. destruct (Nat.eq_dec a d') as [->|NE].
    + destruct (visits_kids _ _ VP) as (_ & NC & KC). destruct (before_in _ _ _ BE) as [IA ID].
      destruct (visits_kids _ _ VP') as (_ & NC' & KC'). destruct (before_in _ _ _ BE') as [IA' ID'].
      apply KC in IA, ID. apply KC' in IA', ID'. assert (p' = p) by congruence. subst p'. assert (cs' = cs0) by (eapply along_fun; eassumption). subst cs'.
      assert (d = a') by (eapply (siblings_apart p); eassumption). subst a'. exact (before_asym _ _ _ NC BE BE').
    + destruct (below_cmp _ _ _ AX DX) as [B|B]; [|exact (sib_sib x y p cs0 a d p' cs' a' d' VP BE AX DY VP' BE' AY DX NE B)].
      destruct (visits_kids _ _ VP) as (_ & NC & KC). destruct (before_in _ _ _ BE) as [IA ID].
      destruct (visits_kids _ _ VP') as (_ & NC' & KC'). destruct (before_in _ _ _ BE') as [IA' ID'].
      apply KC in IA, ID. apply KC' in IA', ID'. assert (BP : below h a p') by (eapply below_parent; [exact B|congruence|exact ID']).
      apply (before_ne _ _ _ NC BE). eapply (siblings_apart p); [exact IA|exact ID| |exact DY]. eapply below_trans; [|exact AY]. eapply below_child; [exact IA'|exact BP].
Qed.
Lemma order_over x y : in_container h r x -> in_container h r y -> x <> y -> (before (map fst l) x y <-> over h x y).
Proof.
  intros X Y N. split; [apply (T_over _ _ _ TT r []); exact V|]. intros O1. apply order_in in X, Y.
  destruct (before_total _ _ _ X Y N) as [B|B]; [exact B|exfalso]. apply N, over_anti; [exact O1|]. exact (T_over _ _ _ TT r [] V _ _ B).
Qed.

(** ** What is drawn *)
Let d := map fst (filter snd l).
Lemma in_d x : In x d <-> In (x, true) l.
Proof.
  unfold d. rewrite in_map_iff. split.
  - intros ([y v] & <- & I). apply filter_In in I as [I E]. cbn in E. subst v. exact I.
  - intros I. exists (x, true). split; [reflexivity|]. apply filter_In. split; [exact I|reflexivity].
Qed.
Lemma filter_before (m : list (nat * bool)) x y : NoDup (map fst m) -> In (x, true) m -> In (y, true) m ->
  (before (map fst (filter snd m)) x y <-> before (map fst m) x y).
Proof.
  induction m as [|[c v] m IH]; intros N X Y; [destruct X|]. cbn in N. inversion N as [|? ? NI N']; subst.
  assert (NIF : forall z, In (z, true) m -> In z (map fst (filter snd m))).
  { intros z I. apply in_map_iff. exists (z, true). split; [reflexivity|]. apply filter_In. auto. }
  assert (IFN : forall z, In z (map fst (filter snd m)) -> In z (map fst m)).
  { intros z I. apply in_map_iff in I as (q & <- & I). apply filter_In in I as [I _]. apply in_map. exact I. }
  assert (FI : forall z w, In (z, w) m -> In z (map fst m)) by (intros z w I; apply (in_map fst) in I; exact I).
  destruct X as [E|X].
  - injection E as -> ->. cbn [filter snd map fst]. rewrite !before_cons. destruct Y as [E|Y].
    + injection E as ->. split; intros [[_ I]|B]; exfalso; [apply NI, IFN, I|apply before_in in B; apply NI, IFN, B|exact (NI I)|apply before_in in B; apply NI, B].
    + split; intros _; left; (split; [reflexivity|]); [eapply FI, Y|apply NIF, Y].
  - assert (XC : x <> c) by (intros ->; apply NI; eapply FI, X). destruct Y as [E|Y].
    + injection E as -> ->. cbn [filter snd map fst]. rewrite !before_cons. split; intros [[E _]|B]; exfalso; try congruence; apply before_in in B; apply NI; [apply IFN|]; apply B.
    + specialize (IH N' X Y). cbn [map fst]. rewrite before_cons. destruct v; cbn [filter snd map fst]; [rewrite before_cons|]; rewrite IH; intuition congruence.
Qed.
Lemma shown_in x : b = true -> (In (x, true) l <-> shown h visible r x).
Proof.
  intros E. destruct (visits_kids _ _ V) as (_ & _ & KC). split.
  - assert (TOP : b = true -> forall c, In c cs -> visible c = true -> shown h visible r c) by (intros _ c I VI; apply shown_top; [apply KC; exact I|exact VI]).
    clear E V KC d. revert TT TOP. intros X. revert x. induction X as [|b0 c cs0 kids lk l0 VC TK IK TC IC]; intros x TOP I; [destruct I|].
    cbn in I. rewrite in_app_iff in I. destruct I as [E|[I|I]].
    + injection E as <- E. apply andb_prop in E as [E1 E2]. apply TOP; [exact E1|left; reflexivity|exact E2].
    + apply IK; [|exact I]. intros E k KI VI. apply andb_prop in E as [E1 E2]. eapply shown_below; [apply (visits_kids _ _ VC); exact KI| |exact VI]. apply TOP; [exact E1|left; reflexivity|exact E2].
    + apply IC; [|exact I]. intros E k KI VI. apply TOP; [exact E|right; exact KI|exact VI].
  - intros S. induction S as [c Q VI|c p Q S IH VI].
    + pose proof (T_top _ _ _ TT c (proj2 (KC c) Q)) as I. rewrite E, VI in I. exact I.
    + pose proof (T_child _ _ _ TT p true c IH Q) as I. rewrite VI in I. exact I.
Qed.
Lemma nodup_filter_fst (m : list (nat * bool)) : NoDup (map fst m) -> NoDup (map fst (filter snd m)).
Proof.
  induction m as [|[c v] m IH]; intros N; [constructor|]. cbn in N. inversion N as [|? ? NI N']; subst. destruct v; cbn; [constructor; [|auto]|auto].
  intros I. apply NI. apply in_map_iff in I as (q & <- & I). apply filter_In in I as [I _]. apply in_map. exact I.
Qed.
Lemma d_painted : b = true -> painted h visible r d.
Proof.
  intros E. split.
  - intros c. rewrite in_d. apply shown_in, E.
  - apply nodup_filter_fst, order_nodup.
  - intros x y X Y N. apply in_d in X, Y. unfold d. rewrite (filter_before _ _ _ order_nodup X Y). apply order_over; [| |exact N]; apply order_in.
    + apply (in_map fst) in X. exact X.
    + apply (in_map fst) in Y. exact Y.
Qed.
End Order.

(** ** The walks *)
Section Walks.
Variable S : Type.
Variable f : S -> nat -> outcome (S * bool).
Fixpoint each (m : list nat) (s : S) : outcome (S * bool) :=
  match m with
  | [] => Ok (s, false)
  | c :: m => do (s, stop) <- f s c; if stop : bool then Ok (s, true) else each m s
  end.
Lemma each_app m1 m2 : forall s, each (m1 ++ m2) s = (do (s, stop) <- each m1 s; if stop : bool then Ok (s, true) else each m2 s).
Proof.
  induction m1 as [|c m1 IH]; intros s; cbn; [reflexivity|]. destruct (f s c) as [[s' [|]]| |]; cbn; auto.
Qed.
End Walks.
Lemma walk_each b cs l : T b cs l -> exists n, forall S (f : S -> nat -> outcome (S * bool)) m, (n <= m)%nat -> forall cur s, along (fun x => ob_next (h x)) cur cs -> walk h S f m cur s = each S f (map fst l) s.
Proof.
  induction 1 as [b|b c cs kids lk l V TK (n1 & IK) TC (n2 & IC)].
  - exists 0%nat. intros S f m _ cur s A. inversion A; subst. destruct m; reflexivity.
  - exists (Datatypes.S (Nat.max n1 n2)). intros S f [|m] LE cur s A; [lia|]. inversion A as [|x l0 A']; subst. cbn [walk map fst each]. destruct (f s c) as [[s' [|]]| |]; cbn [obind]; [reflexivity| |reflexivity|reflexivity].
    rewrite map_app, each_app, IK by (try lia; exact V). destruct (each S f (map fst lk) s') as [[s'' [|]]| |]; cbn [obind]; [reflexivity| |reflexivity|reflexivity].
    apply IC; [lia|exact A'].
Qed.
Inductive U : list nat -> list nat -> Prop :=
| U_nil : U [] []
| U_cons c cs kids lk l : visits_back h c kids -> U kids lk -> U cs l -> U (c :: cs) (lk ++ c :: l).
Lemma U_app cs l : U cs l -> forall cs' l', U cs' l' -> U (cs ++ cs') (l ++ l').
Proof.
  induction 1 as [|c cs kids lk l V UK IK UC IC]; intros cs' l' U'; [exact U'|]. rewrite <- app_assoc. cbn. econstructor; [exact V|exact UK|]. apply IC. exact U'.
Qed.
Lemma T_U b cs l : T b cs l -> U (rev cs) (rev (map fst l)).
Proof.
  induction 1 as [b|b c cs kids lk l V TK IK TC IC]; [constructor|]. cbn. rewrite map_app, rev_app_distr, <- app_assoc. apply U_app; [exact IC|].
  econstructor; [apply (visits_kids _ _ V)|exact IK|constructor].
Qed.
Lemma walk_up_each cs l : U cs l -> exists n, forall S (f : S -> nat -> outcome (S * bool)) m, (n <= m)%nat -> forall cur s, along (fun x => ob_prev (h x)) cur cs -> walk_up h S f m cur s = each S f l s.
Proof.
  induction 1 as [|c cs kids lk l V UK (n1 & IK) UC (n2 & IC)].
  - exists 0%nat. intros S f m _ cur s A. inversion A; subst. destruct m; reflexivity.
  - exists (Datatypes.S (Nat.max n1 n2)). intros S f [|m] LE cur s A; [lia|]. inversion A as [|x l0 A']; subst. cbn [walk_up]. rewrite each_app, IK by (try lia; exact V).
    destruct (each S f lk s) as [[s' [|]]| |]; cbn [obind each]; [reflexivity| |reflexivity|reflexivity].
    destruct (f s' c) as [[s'' [|]]| |]; cbn [obind]; [reflexivity| |reflexivity|reflexivity]. apply IC; [lia|exact A'].
Qed.

Lemma render_d cs l b : T b cs l -> b = true -> exists n, forall m, (n <= m)%nat -> forall cur, along (fun x => ob_next (h x)) cur cs -> render_from h visible m cur = Ok (map fst (filter snd l)).
Proof.
  induction 1 as [b|b c cs kids lk l V TK IK TC IC]; intros ->.
  - exists 0%nat. intros m _ cur A. inversion A; subst. destruct m; reflexivity.
  - destruct (IC eq_refl) as (n2 & IC2). cbn [andb] in *. destruct (visible c) eqn:VI.
    + destruct (IK eq_refl) as (n1 & IK1). exists (Datatypes.S (Nat.max n1 n2)). intros [|m] LE cur A; [lia|]. inversion A as [|x l0 A']; subst.
      cbn [render_from]. rewrite VI, IK1 by (try lia; exact V). cbn [obind]. rewrite IC2 by (try lia; exact A'). cbn [obind filter snd map fst]. rewrite filter_app, map_app. reflexivity.
    + exists (Datatypes.S n2). intros [|m] LE cur A; [lia|]. inversion A as [|x l0 A']; subst. cbn [render_from]. rewrite VI. cbn [obind]. rewrite IC2 by (try lia; exact A').
      cbn [obind filter snd map fst app]. rewrite filter_app, (T_false _ _ TK). reflexivity.
Qed.
Lemma T_visible cs l b : T b cs l -> (forall c, In c cs -> exists n, forall m, (n <= m)%nat -> ancestors_visible h visible m (ob_parent (h c)) = Ok b) ->
  exists n, forall m, (n <= m)%nat -> forall c v, In (c, v) l -> visible_from_ancestors h visible m c = Ok v.
Proof.
  induction 1 as [b|b c cs kids lk l V TK IK TC IC]; intros TOP; [exists 0%nat; intros m _ c v []|].
  destruct (TOP c (or_introl eq_refl)) as (n0 & T0). destruct (IC (fun x I => TOP x (or_intror I))) as (n2 & I2).
  destruct IK as (n1 & I1).
  - intros k KI. apply (visits_kids _ _ V) in KI. rewrite KI. exists (S n0). intros [|m] LE; [lia|]. cbn [ancestors_visible]. destruct (visible c); [rewrite andb_true_r; apply T0; lia|rewrite andb_false_r; reflexivity].
  - exists (Nat.max n0 (Nat.max n1 n2)). intros m LE x v I. cbn in I. rewrite in_app_iff in I. destruct I as [E|[I|I]]; [|apply I1; [lia|exact I]|apply I2; [lia|exact I]].
    injection E as <- <-. unfold visible_from_ancestors. destruct (visible c); [rewrite andb_true_r; apply T0; lia|rewrite andb_false_r; reflexivity].
Qed.

(** ** Events *)
Lemma press_each (answers : nat -> bool) m (l : list (nat * bool)) : (forall c v, In (c, v) l -> visible_from_ancestors h visible m c = Ok v) -> forall asked taker,
  exists stop, each (list nat * option nat) (fun (s : list nat * option nat) (c : nat) => do v <- visible_from_ancestors h visible m c; if v : bool then Ok ((fst s ++ [c], if answers c then Some c else snd s), answers c) else Ok (s, false)) (map fst l) (asked, taker)
    = Ok ((asked ++ up_to answers (map fst (filter snd l)), match find answers (map fst (filter snd l)) with Some c => Some c | None => taker end), stop).
Proof.
  induction l as [|[c v] l IH]; intros VI asked taker; [exists false; cbn; rewrite app_nil_r; reflexivity|]. cbn [map fst each]. rewrite (VI c v (or_introl eq_refl)). cbn [obind].
  destruct v; cbn [filter snd map fst up_to find].
  - destruct (answers c) eqn:A; cbn [obind]; [exists true; reflexivity|]. destruct (IH (fun x w I => VI x w (or_intror I)) (asked ++ [c]) taker) as (stop & E). exists stop. cbn [fst snd]. rewrite E, <- app_assoc. reflexivity.
  - destruct (IH (fun x w I => VI x w (or_intror I)) asked taker) as (stop & E). exists stop. exact E.
Qed.
Lemma filter_rev {A} (g : A -> bool) (m : list A) : filter g (rev m) = rev (filter g m).
Proof. induction m as [|x m IH]; [reflexivity|]. cbn. rewrite filter_app, IH. cbn. destruct (g x); cbn; [reflexivity|apply app_nil_r]. Qed.

Lemma container_order b : exists cs l, visits h r cs /\ T b cs l.
Proof. destruct (kids_of r) as (cs & V & _). destruct (T_ex r cs V b) as (l & L). exists cs, l. auto. Qed.

Lemma press_topmost answers : visible r = true -> exists dr, painted h visible r dr /\ exists n, forall m, (n <= m)%nat ->
  render h visible m r = Ok dr /\ press h visible answers m r = Ok (up_to answers (rev dr), find answers (rev dr)).
Proof.
  intros VR. destruct (container_order true) as (cs & l & V & TT). exists (map fst (filter snd l)). split; [exact (d_painted _ V _ _ TT eq_refl)|].
  destruct (render_d _ _ _ TT eq_refl) as (n1 & R).
  destruct (T_visible _ _ _ TT) as (n2 & VI).
  { intros c I. apply (visits_kids _ _ V) in I. rewrite I. exists 1%nat. intros [|m] LE; [lia|]. cbn [ancestors_visible]. rewrite VR, ROOT. destruct m; reflexivity. }
  destruct (walk_up_each _ _ (T_U _ _ _ TT)) as (n3 & W). exists (Nat.max n1 (Nat.max n2 n3)). intros m LE. split; [apply R; [lia|exact V]|].
  unfold press. rewrite W by (try lia; apply (visits_kids _ _ V)). rewrite <- map_rev.
  destruct (press_each answers m (rev l)) with (asked := @nil nat) (taker := @None nat) as (stop & E).
  { intros c v I. apply VI; [lia|]. apply in_rev. exact I. }
  rewrite E. cbn [obind app]. rewrite filter_rev, map_rev. do 2 f_equal. clear. generalize (find answers (rev (map fst (filter snd l)))). intros [o|]; reflexivity.
Qed.

Lemma each_one (test : nat -> bool) b : (forall c, test c = true -> c = b) -> forall m s,
  exists stop, each (option nat) (fun s c => Ok (if test c then Some c else s, test c)) m s = Ok (if existsb test m then Some b else s, stop).
Proof.
  intros ONE m. induction m as [|c m IH]; intros s; [exists false; reflexivity|]. cbn [each obind existsb]. destruct (test c) eqn:E; cbn [orb].
  - exists true. rewrite (ONE c E). reflexivity.
  - apply IH.
Qed.
Lemma existsb_one (test : nat -> bool) b m : (forall c, test c = true -> c = b) -> In b m -> existsb test m = test b.
Proof.
  intros ONE I. destruct (test b) eqn:E; [apply existsb_exists; exists b; auto|]. destruct (existsb test m) eqn:X; [|reflexivity]. apply existsb_exists in X as (c & _ & C). rewrite (ONE c C) in C. congruence.
Qed.
Lemma existsb_none (test : nat -> bool) m : (forall c, In c m -> test c = false) -> existsb test m = false.
Proof. intros N. destruct (existsb test m) eqn:X; [|reflexivity]. apply existsb_exists in X as (c & I & C). rewrite (N c I) in C. discriminate. Qed.

Lemma text_one answers b : (forall c, answers c = true -> c = b) -> in_container h r b -> exists n, forall m, (n <= m)%nat -> text_input h answers m r = Ok (if answers b then Some b else None).
Proof.
  intros ONE IB. destruct (container_order true) as (cs & l & V & TT). destruct (walk_each _ _ _ TT) as (n & W). exists n. intros m LE. unfold text_input. rewrite W by (try lia; exact V).
  destruct (each_one answers b ONE (map fst l) None) as (stop & E). rewrite E. cbn [obind]. rewrite (existsb_one _ b) by (try exact ONE; apply (order_in _ V _ _ TT); exact IB). reflexivity.
Qed.
Lemma each_ext S f g m : (forall s c, f s c = g s c) -> forall s, each S f m s = each S g m s.
Proof. intros E. induction m as [|c m IH]; intros s; [reflexivity|]. cbn. rewrite E. destruct (g s c) as [[s' [|]]| |]; cbn; auto. Qed.
Lemma key_one inside answers b : (forall c, answers c = true -> c = b) -> in_container h r b -> exists n, forall m, (n <= m)%nat -> key_press h inside answers m r = Ok (if inside b && answers b then Some b else None).
Proof.
  intros ONE IB. destruct (container_order true) as (cs & l & V & TT). destruct (walk_up_each _ _ (T_U _ _ _ TT)) as (n & W). exists n. intros m LE. unfold key_press.
  rewrite W by (try lia; apply (visits_kids _ _ V)).
  rewrite (each_ext _ _ (fun s c => Ok (if inside c && answers c then Some c else s, inside c && answers c))).
  2: { intros s c. destruct (inside c); reflexivity. }
  assert (ONE' : forall c, inside c && answers c = true -> c = b) by (intros c E; apply andb_prop in E as [_ E]; auto).
  destruct (each_one _ b ONE' (rev (map fst l)) None) as (stop & E). rewrite E. cbn [obind].
  rewrite (existsb_one _ b) by (try exact ONE'; rewrite <- in_rev; apply (order_in _ V _ _ TT); exact IB). reflexivity.
Qed.
Lemma text_none answers : (forall c, answers c = false) -> exists n, forall m, (n <= m)%nat -> text_input h answers m r = Ok None.
Proof.
  intros N. destruct (container_order true) as (cs & l & V & TT). destruct (walk_each _ _ _ TT) as (n & W). exists n. intros m LE. unfold text_input. rewrite W by (try lia; exact V).
  destruct (each_one answers 0%nat ltac:(intros c E; rewrite N in E; discriminate) (map fst l) None) as (stop & E). rewrite E. cbn [obind]. rewrite existsb_none by auto. reflexivity.
Qed.
Lemma key_none inside answers : (forall c, answers c = false) -> exists n, forall m, (n <= m)%nat -> key_press h inside answers m r = Ok None.
Proof.
  intros N. destruct (container_order true) as (cs & l & V & TT). destruct (walk_up_each _ _ (T_U _ _ _ TT)) as (n & W). exists n. intros m LE. unfold key_press.
  rewrite W by (try lia; apply (visits_kids _ _ V)).
  rewrite (each_ext _ _ (fun s c => Ok (if answers c then Some c else s, answers c))).
  2: { intros s c. rewrite N. destruct (inside c); reflexivity. }
  destruct (each_one answers 0%nat ltac:(intros c E; rewrite N in E; discriminate) (rev (map fst l)) None) as (stop & E). rewrite E. cbn [obind]. rewrite existsb_none by auto. reflexivity.
Qed.

(** ** The mouse moves *)
Lemma each_last (inside : nat -> bool) m : forall s, each (option nat) (fun s c => Ok (if inside c then Some c else s, false)) m s =
  Ok (match find inside (rev m) with Some c => Some c | None => s end, false).
Proof.
  induction m as [|c m IH]; intros s; [reflexivity|]. cbn [each obind rev]. rewrite IH. f_equal. f_equal. clear IH.
  induction (rev m) as [|x l IH]; cbn; [destruct (inside c); reflexivity|]. destruct (inside x); [reflexivity|exact IH].
Qed.
Lemma find_rev_last (inside : nat -> bool) m c : find inside (rev m) = Some c -> In c m /\ inside c = true /\ forall x, In x m -> inside x = true -> x <> c -> before m x c.
Proof.
  intros E. destruct (find_some _ _ E) as [I IC]. apply in_rev in I. split; [exact I|]. split; [exact IC|]. intros x X IX N.
  assert (Q : exists l1 l2, rev m = l1 ++ c :: l2 /\ forall y, In y l1 -> inside y = false).
  { clear - E. induction (rev m) as [|y l IH]; [discriminate|]. cbn in E. destruct (inside y) eqn:Y.
    - injection E as ->. exists [], l. split; [reflexivity|]. intros ? [].
    - destruct (IH E) as (l1 & l2 & -> & Q). exists (y :: l1), l2. split; [reflexivity|]. intros z [<-|Z]; auto. }
  destruct Q as (l1 & l2 & Q & NO). apply (f_equal (@rev nat)) in Q. rewrite rev_involutive, rev_app_distr in Q. cbn in Q. rewrite <- app_assoc in Q. cbn in Q. subst m.
  apply in_app_iff in X as [X|[X|X]]; [|congruence|rewrite <- in_rev in X; rewrite (NO x X) in IX; discriminate].
  apply before_app. right. left. split; [exact X|left; reflexivity].
Qed.
Lemma move_case (inside : nat -> bool) : exists n,
  (exists c, topmost h r inside c /\ forall m hov, (n <= m)%nat -> mouse_move h inside m r hov =
     Ok (Some c, (match hov with Some o => if Nat.eqb o c then [] else [Leave o] | None => [] end) ++ [Enter c])) \/
  ((forall c, in_container h r c -> inside c = false) /\ forall m hov, (n <= m)%nat -> mouse_move h inside m r hov = Ok (hov, match hov with Some o => [Leave o] | None => [] end)).
Proof.
  destruct (container_order true) as (cs & l & V & TT). destruct (walk_each _ _ _ TT) as (n & W). exists n. destruct (find inside (rev (map fst l))) as [c|] eqn:F.
  - left. exists c. destruct (find_rev_last _ _ _ F) as (I & IC & LAST). pose proof (proj1 (order_in _ V _ _ TT c) I) as CC. split.
    + split; [exact CC|]. split; [exact IC|]. intros x X IX. destruct (Nat.eq_dec x c) as [->|N]; [left; constructor|].
      apply (order_over _ V _ _ TT); [exact X|exact CC|exact N|]. apply LAST; [apply (order_in _ V _ _ TT); exact X|exact IX|exact N].
    + intros m hov LE. unfold mouse_move. rewrite W by (try lia; exact V). rewrite each_last, F. cbn [obind]. destruct hov as [o|]; [|reflexivity]. cbn [same]. rewrite Nat.eqb_sym. reflexivity.
  - right. split.
    + intros c CC. apply (order_in _ V _ _ TT) in CC. apply (find_none _ _ F). rewrite <- in_rev. exact CC.
    + intros m hov LE. unfold mouse_move. rewrite W by (try lia; exact V). rewrite each_last, F. cbn [obind]. destruct hov; reflexivity.
Qed.
Lemma topmost_one f a c : topmost h r f a -> topmost h r f c -> a = c.
Proof. intros (IA & FA & OA) (IC & FC & OC). apply over_anti; auto. Qed.
End Proofs.
