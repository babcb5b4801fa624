(** Proofs about concurrent use of the registry. *)
From Coq Require Import ZifyBool ZifyNat.
From Verif Require Import Base BaseFacts LockModel LockSpec.

Section Proofs.
Variables (R D : Type) (parts : D -> list (R -> R)) (register : D -> R -> R).
Hypothesis (PARTS : forall d r, fold_left (fun r f => f r) (parts d) r = register d r).
(** Whether a thread may take the mutex again. *)
Variable nest : bool.

(** What a thread holds: the mutex shared, some number of times, or exclusively. *)
Inductive mode := Sh (n : nat) | Ex.
(** How a registration goes on. *)
Fixpoint rest (acts : list (act R D)) (r : R) : option (D * R) :=
  match acts with
  | AWrite f :: a => rest a (f r)
  | ARead :: a => rest a r
  | AUnexcl d :: _ => Some (d, r)
  | _ => None
  end.
Fixpoint disc (m : mode) (acts : list (act R D)) : Prop :=
  match acts with
  | [] => m = Sh 0
  | AShared :: a => exists n, m = Sh n /\ (nest = false -> n = 0) /\ disc (Sh (S n)) a
  | AUnshared :: a => exists n, m = Sh (S n) /\ disc (Sh n) a
  | AAsk :: a => m = Sh 0 /\ disc m a
  | AExcl :: a => m = Sh 0 /\ disc Ex a /\ exists d, forall r, rest a r = Some (d, register d r)
  | AUnexcl _ :: a => m = Ex /\ disc (Sh 0) a
  | ARead :: a => m <> Sh 0 /\ disc m a
  | AWrite _ :: a => m = Ex /\ disc Ex a
  end.

(** ** Programs follow it *)
Lemma query_disc m a : m = Sh 0 -> disc (Sh 0) a -> disc m (code_query R D ++ a).
Proof. intros -> H. cbn. exists 0. split; [reflexivity|]. split; [reflexivity|]. split; [discriminate|]. exists 0. auto. Qed.
Lemma data_disc miss n a : (miss = true -> nest = false -> n = 0) -> disc (Sh n) a -> disc (Sh n) (code_data R D miss ++ a).
Proof. intros N H. destruct miss; [|exact H]. cbn. exists n. split; [reflexivity|]. split; [auto|]. split; [discriminate|]. exists n. auto. Qed.
Lemma register_rest fs d r : rest (map AWrite fs ++ [AUnexcl d]) r = Some (d, fold_left (fun r f => f r) fs r).
Proof. revert r. induction fs as [|f fs IH]; intros r; cbn; [reflexivity|apply IH]. Qed.
Lemma rest_app a b r x : rest a r = Some x -> rest (a ++ b) r = Some x.
Proof. revert r. induction a as [|[] a IH]; intros r; cbn; try discriminate; auto. Qed.
Lemma call_disc c a : (nest = false -> cached D c) -> disc (Sh 0) a -> disc (Sh 0) (code R D parts false c ++ a).
Proof.
  intros N H. destruct c as [| |miss|miss| |misses|d]; cbn [code code_assert].
  - apply query_disc; auto.
  - apply query_disc; auto.
  - apply data_disc; auto.
  - rewrite <- !app_assoc. cbn [app]. apply query_disc; [reflexivity|]. apply data_disc; auto.
  - cbn [app]. apply query_disc; auto.
  - cbn [app disc]. exists 0. split; [reflexivity|]. split; [reflexivity|]. split; [discriminate|]. rewrite <- app_assoc. cbn [app]. cbn [cached] in N. revert N.
    induction misses as [|miss misses IH]; intros N; cbn [flat_map].
    + exists 0. auto.
    + cbn [app]. split; [discriminate|]. rewrite <- app_assoc. apply data_disc.
      * intros -> E. specialize (N E). inversion N. discriminate.
      * apply IH. intros E. specialize (N E). inversion N. assumption.
  - cbn [app disc]. split; [reflexivity|]. split; [reflexivity|]. split.
    + split; [discriminate|]. rewrite <- app_assoc. induction (parts d) as [|f fs IH]; cbn; [split; [reflexivity|exact H]|split; [reflexivity|exact IH]].
    + exists d. intros r. change (ARead :: (map AWrite (parts d) ++ [AUnexcl d]) ++ a) with ((ARead :: map AWrite (parts d) ++ [AUnexcl d]) ++ a). apply rest_app. cbn [rest]. rewrite register_rest, PARTS. reflexivity.
Qed.
Lemma program_disc cs : (nest = false -> Forall (cached D) cs) -> disc (Sh 0) (program R D parts false cs).
Proof.
  induction cs as [|c cs IH]; intros N; [reflexivity|]. cbn [program flat_map]. apply call_disc; [intros E; specialize (N E); inversion N; assumption|].
  apply IH. intros E. specialize (N E). inversion N. assumption.
Qed.

(** ** The invariant *)
Definition count (i : nat) (l : list nat) : nat := count_occ Nat.eq_dec l i.
Definition mode_of (w : world R D) (i : nat) : mode :=
  match w_writer w with Some j => if Nat.eqb j i then Ex else Sh (count i (w_readers w)) | None => Sh (count i (w_readers w)) end.
Definition replay (r0 : R) (log : list (event R D)) : R := fold_left (fun r d => register d r) (registered R D log) r0.
Record inv (r0 : R) (w : world R D) : Prop := {
  iv_disc : forall i acts, nth_error (w_threads w) i = Some acts -> disc (mode_of w i) acts;
  iv_writer : forall i, w_writer w = Some i -> w_readers w = [] /\ exists acts d, nth_error (w_threads w) i = Some acts /\ rest acts (w_tables w) = Some (d, register d (replay r0 (w_log w)));
  iv_tables : w_writer w = None -> w_tables w = replay r0 (w_log w);
  iv_serial : serial R D register r0 (w_log w);
  iv_inside : forall i, inside R D i (w_log w) = Z.of_nat (count i (w_readers w));
  iv_quiet : undisturbed R D (w_log w);
  iv_exist : forall i, In i (w_readers w) -> exists acts, nth_error (w_threads w) i = Some acts }.

Lemma registered_app a b : registered R D (a ++ b) = registered R D a ++ registered R D b.
Proof. unfold registered. apply flat_map_app. Qed.
Lemma serial_app r a b : serial R D register r (a ++ b) <-> serial R D register r a /\ serial R D register (replay r a) b.
Proof.
  revert r. induction a as [|e a IH]; intros r; [cbn; tauto|]. destruct e as [i|i|i x|d].
  - exact (IH r).
  - exact (IH r).
  - cbn [app serial]. rewrite IH. unfold replay. cbn [registered flat_map app]. tauto.
  - exact (IH (register d r)).
Qed.
Lemma inside_app i a b : inside R D i (a ++ b) = (inside R D i a + inside R D i b)%Z.
Proof. induction a as [|[] a IH]; cbn [app inside]; try rewrite IH; lia. Qed.
Lemma snoc_split {A} (a : list A) x b y c : b ++ y :: c = a ++ [x] -> (c = [] /\ b = a /\ y = x) \/ exists c', c = c' ++ [x] /\ a = b ++ y :: c'.
Proof.
  intros E. assert (N : c = [] \/ c <> []) by (destruct c; [left; reflexivity|right; discriminate]). destruct N as [->|N].
  - left. apply app_inj_tail in E. destruct E. auto.
  - right. destruct (exists_last N) as (c' & z & ->). exists c'. rewrite app_comm_cons, app_assoc in E. apply app_inj_tail in E. destruct E as [E ->]. auto.
Qed.

Lemma quiet_app log e : undisturbed R D log -> (forall d, e = EDone d -> forall i, inside R D i log = 0%Z) -> undisturbed R D (log ++ [e]).
Proof.
  intros U H a d b i E. symmetry in E. apply snoc_split in E. destruct E as [(_ & -> & E)|(c & _ & ->)]; [apply (H d); auto|]. exact (U a d c i eq_refl).
Qed.
Lemma count_drop i j l : In i l -> count j (drop_one i l) = if Nat.eqb i j then count j l - 1 else count j l.
Proof.
  unfold count. induction l as [|x l IH]; intros IN; [destruct IN|]. cbn [drop_one]. destruct (Nat.eqb x i) eqn:E.
  - apply Nat.eqb_eq in E. subst x. cbn [count_occ]. destruct (Nat.eq_dec i j) as [->|N]; [rewrite Nat.eqb_refl; lia|]. destruct (Nat.eqb i j) eqn:E; [apply Nat.eqb_eq in E; congruence|reflexivity].
  - destruct IN as [->|IN]; [rewrite Nat.eqb_refl in E; discriminate|]. specialize (IH IN). cbn [count_occ]. rewrite IH. destruct (Nat.eq_dec x j) as [->|N]; [|reflexivity].
    destruct (Nat.eqb i j) eqn:E2; [apply Nat.eqb_eq in E2; subst; rewrite Nat.eqb_refl in E; discriminate|reflexivity].
Qed.
Lemma in_drop i j l : In j (drop_one i l) -> In j l.
Proof. induction l as [|x l IH]; cbn; [auto|]. destruct (Nat.eqb x i); cbn; tauto. Qed.
Lemma count_in i l : In i l <-> count i l > 0.
Proof. apply count_occ_In. Qed.
Lemma set_nth {A} (l : list A) i x y j : nth_error l i = Some y -> nth_error (list_set l i x) j = if Nat.eqb j i then Some x else nth_error l j.
Proof.
  intros E. assert (i < length l) by (apply nth_error_Some; congruence). destruct (Nat.eqb j i) eqn:N.
  - apply Nat.eqb_eq in N. subst. apply nth_error_list_set_same. assumption.
  - apply Nat.eqb_neq in N. apply nth_error_list_set_other. auto.
Qed.
Lemma exist_set (ts : list (list (act R D))) i x y : nth_error ts i = Some y -> forall l : list nat,
  (forall j, In j l -> exists acts, nth_error ts j = Some acts) -> forall j, In j l -> exists acts, nth_error (list_set ts i x) j = Some acts.
Proof. intros E l H j IN. rewrite (set_nth _ _ _ _ _ E). destruct (Nat.eqb j i); eauto. Qed.

Lemma step_inv prefer r0 w w' : inv r0 w -> step prefer w w' -> inv r0 w'.
Proof.
  intros I S. destruct S as [ts rs r lg i acts E P|ts wr rs r lg i acts E P|ts wr rs r lg i acts E|ts r lg i acts E|ts rs r lg i d acts E|ts wr rs r lg i acts E|ts wr rs r lg i f acts E];
    pose proof (iv_disc _ _ I) as ID; pose proof (iv_writer _ _ I) as IW; pose proof (iv_tables _ _ I) as IT; pose proof (iv_serial _ _ I) as IS; pose proof (iv_inside _ _ I) as II; pose proof (iv_quiet _ _ I) as IQ; pose proof (iv_exist _ _ I) as IE;
    clear I; pose proof (ID i _ E) as DI; unfold mode_of in *; cbn [w_threads w_writer w_readers w_tables w_log] in *; cbn [disc] in DI.
  - (* shared *)
    destruct DI as (n & EN & _ & DI). split; unfold mode_of; cbn [w_threads w_writer w_readers w_tables w_log].
    + intros j a. rewrite (set_nth _ _ _ _ _ E). destruct (Nat.eqb j i) eqn:N.
      * apply Nat.eqb_eq in N. subst j. intros H. inversion H; subst. cbn [count count_occ]. unfold count. cbn [count_occ]. destruct (Nat.eq_dec i i); [|congruence]. inversion EN; subst. exact DI.
      * intros H. unfold count. cbn [count_occ]. destruct (Nat.eq_dec i j) as [->|]; [rewrite Nat.eqb_refl in N; discriminate|]. exact (ID j a H).
    + discriminate.
    + intros _. rewrite IT by reflexivity. unfold replay. rewrite registered_app. cbn. rewrite app_nil_r. reflexivity.
    + apply serial_app. split; [exact IS|exact I].
    + intros j. rewrite inside_app, II. cbn [inside]. unfold count. cbn [count_occ]. destruct (Nat.eq_dec i j) as [->|N]; [rewrite Nat.eqb_refl; lia|]. destruct (Nat.eqb i j) eqn:E2; [apply Nat.eqb_eq in E2; congruence|lia].
    + apply quiet_app; [exact IQ|discriminate].
    + intros j [<-|IN]; [rewrite (set_nth _ _ _ _ _ E), Nat.eqb_refl; eauto|]. exact (exist_set _ _ _ _ E _ IE j IN).
  - (* unshared *)
    assert (W0 : wr = None) by (destruct wr as [k|]; [destruct (IW k eq_refl) as [-> _]; destruct P|reflexivity]). subst wr.
    destruct DI as (n & EN & DI). inversion EN as [EN']. split; unfold mode_of; cbn [w_threads w_writer w_readers w_tables w_log].
    + intros j a. rewrite (set_nth _ _ _ _ _ E). rewrite count_drop by exact P. rewrite (Nat.eqb_sym i j). destruct (Nat.eqb j i) eqn:N.
      * apply Nat.eqb_eq in N. subst j. intros H. inversion H; subst. rewrite EN'. replace (S n - 1) with n by lia. exact DI.
      * intros H. exact (ID j a H).
    + discriminate.
    + intros _. rewrite IT by reflexivity. unfold replay. rewrite registered_app. cbn. rewrite app_nil_r. reflexivity.
    + apply serial_app. split; [exact IS|exact I].
    + intros j. rewrite inside_app, II. cbn [inside]. rewrite count_drop by exact P. destruct (Nat.eqb i j) eqn:N; [|lia]. apply Nat.eqb_eq in N. subst. lia.
    + apply quiet_app; [exact IQ|discriminate].
    + intros j IN. exact (exist_set _ _ _ _ E _ IE j (in_drop _ _ _ IN)).
  - (* asking *)
    destruct DI as [EM DI]. split; unfold mode_of; cbn [w_threads w_writer w_readers w_tables w_log].
    + intros j a. rewrite (set_nth _ _ _ _ _ E). destruct (Nat.eqb j i) eqn:N; [|intros H; exact (ID j a H)]. apply Nat.eqb_eq in N. subst j. intros H. inversion H; subst. exact DI.
    + intros j H. destruct (IW j H) as (-> & a & d & E' & RE). split; [reflexivity|]. rewrite (set_nth _ _ _ _ _ E). destruct (Nat.eqb j i) eqn:N; [|exists a, d; auto].
      apply Nat.eqb_eq in N. subst j. rewrite E in E'. inversion E'; subst a. discriminate RE.
    + exact IT.
    + exact IS.
    + exact II.
    + exact IQ.
    + exact (exist_set _ _ _ _ E _ IE).
  - (* exclusive *)
    destruct DI as (_ & DI & d & RD). split; unfold mode_of; cbn [w_threads w_writer w_readers w_tables w_log].
    + intros j a. rewrite (set_nth _ _ _ _ _ E). rewrite (Nat.eqb_sym i j). destruct (Nat.eqb j i) eqn:N; [intros H; inversion H; subst; exact DI|intros H; exact (ID j a H)].
    + intros j H. inversion H; subst j. split; [reflexivity|]. exists acts, d. rewrite (set_nth _ _ _ _ _ E), Nat.eqb_refl. split; [reflexivity|]. rewrite RD, IT by reflexivity. reflexivity.
    + discriminate.
    + exact IS.
    + exact II.
    + exact IQ.
    + intros j [].
  - (* end of a registration *)
    destruct (IW i eq_refl) as (-> & acts' & d' & E' & RE). rewrite E in E'. inversion E'; subst acts'. cbn [rest] in RE. injection RE as HD HR. subst d'. rename d into d0. rewrite Nat.eqb_refl in DI. destruct DI as [_ DI].
    split; unfold mode_of; cbn [w_threads w_writer w_readers w_tables w_log].
    + intros j a. rewrite (set_nth _ _ _ _ _ E). destruct (Nat.eqb j i) eqn:N; [intros H; inversion H; subst; exact DI|]. intros H. specialize (ID j a H). rewrite Nat.eqb_sym, N in ID. exact ID.
    + discriminate.
    + intros _. rewrite HR. unfold replay. rewrite registered_app, fold_left_app. reflexivity.
    + apply serial_app. split; [exact IS|exact I].
    + intros j. rewrite inside_app, II. cbn. lia.
    + apply quiet_app; [exact IQ|]. intros _ _ j. rewrite II. reflexivity.
    + intros j [].
  - (* read *)
    destruct DI as [NM DI]. set (seen := if match wr with Some j => Nat.eqb i j | None => false end then [] else [ESaw i r]).
    assert (REP : replay r0 (lg ++ seen) = replay r0 lg) by (unfold replay; rewrite registered_app; unfold seen; destruct (match wr with Some j => Nat.eqb i j | None => false end); cbn; rewrite app_nil_r; reflexivity).
    split; unfold mode_of; cbn [w_threads w_writer w_readers w_tables w_log].
    + intros j a. rewrite (set_nth _ _ _ _ _ E). destruct (Nat.eqb j i) eqn:N; [|intros H; exact (ID j a H)]. apply Nat.eqb_eq in N. subst j. intros H. inversion H; subst. exact DI.
    + intros j H. destruct (IW j H) as (-> & a & d & E' & RE). split; [reflexivity|]. rewrite (set_nth _ _ _ _ _ E), REP. destruct (Nat.eqb j i) eqn:N.
      * apply Nat.eqb_eq in N. subst j. rewrite E in E'. inversion E'; subst a. exists acts, d. split; [reflexivity|exact RE].
      * exists a, d. auto.
    + intros H. rewrite REP. auto.
    + apply serial_app. split; [exact IS|]. unfold seen. destruct wr as [j|]; [|split; [rewrite IT by reflexivity; reflexivity|exact I]].
      rewrite (Nat.eqb_sym i j). destruct (Nat.eqb j i) eqn:N; [exact I|]. destruct (IW j eq_refl) as (-> & _). destruct (NM eq_refl).
    + intros j. rewrite inside_app, II. unfold seen. destruct (match wr with Some j => Nat.eqb i j | None => false end); cbn; lia.
    + unfold seen. destruct (match wr with Some j => Nat.eqb i j | None => false end); [rewrite app_nil_r; exact IQ|apply quiet_app; [exact IQ|discriminate]].
    + exact (exist_set _ _ _ _ E _ IE).
  - (* write *)
    destruct DI as [NM DI]. destruct wr as [k|]; [|discriminate]. destruct (Nat.eqb k i) eqn:K; [|discriminate]. apply Nat.eqb_eq in K. subst k.
    split; unfold mode_of; cbn [w_threads w_writer w_readers w_tables w_log].
    + intros j a. rewrite (set_nth _ _ _ _ _ E). destruct (Nat.eqb j i) eqn:N; [|intros H; exact (ID j a H)]. apply Nat.eqb_eq in N. subst j. intros H. inversion H; subst. rewrite Nat.eqb_refl. exact DI.
    + intros j H. inversion H; subst j. destruct (IW i eq_refl) as (-> & a & d & E' & RE). split; [reflexivity|]. rewrite (set_nth _ _ _ _ _ E), Nat.eqb_refl. rewrite E in E'. inversion E'; subst a. exists acts, d. auto.
    + discriminate.
    + exact IS.
    + exact II.
    + exact IQ.
    + exact (exist_set _ _ _ _ E _ IE).
Qed.
Lemma start_inv r0 css : (nest = false -> Forall (Forall (cached D)) css) -> inv r0 (start R D parts false r0 css).
Proof.
  intros N. split; unfold mode_of; cbn [start w_threads w_writer w_readers w_tables w_log]; try reflexivity; try discriminate.
  - intros i acts E. rewrite nth_error_map in E. destruct (nth_error css i) as [cs|] eqn:C; [|discriminate]. inversion E; subst. apply program_disc. intros F. specialize (N F). rewrite Forall_forall in N. apply N. eapply nth_error_In. exact C.
  - intros a d b i E. destruct a; discriminate.
  - intros i [].
Qed.
Lemma steps_inv prefer r0 w w' : inv r0 w -> steps prefer w w' -> inv r0 w'.
Proof. intros I S. induction S as [|w1 w2 w3 S IH ST]; [exact I|]. eapply step_inv; [exact (IH I)|exact ST]. Qed.

(** ** Consequences *)
Lemma inv_no_race r0 w : inv r0 w -> ~ race R D w.
Proof.
  intros I (i & j & f & a & b & c & N & E1 & E2 & B). pose proof (iv_disc _ _ I _ _ E1) as D1. pose proof (iv_disc _ _ I _ _ E2) as D2. unfold mode_of in *. cbn [disc] in D1. destruct D1 as [D1 _].
  destruct (w_writer w) as [k|] eqn:W; [|discriminate]. destruct (Nat.eqb k i) eqn:K; [|discriminate]. apply Nat.eqb_eq in K. subst k. destruct (iv_writer _ _ I _ W) as (RD & _). rewrite RD in D2.
  destruct (Nat.eqb i j) eqn:K; [apply Nat.eqb_eq in K; congruence|]. destruct B as [->|(g & ->)]; cbn [disc] in D2; destruct D2 as [D2 _]; [apply D2; reflexivity|discriminate].
Qed.
Lemma inv_no_relock r0 w : nest = false -> inv r0 w -> ~ relock R D w.
Proof.
  intros NN I (i & a & E & H). assert (M : mode_of w i = Sh 0).
  { destruct E as [E|E]; apply (iv_disc _ _ I) in E; cbn [disc] in E; [destruct E as (n & E & Z & _); rewrite (Z NN) in E; exact E|destruct E as [E _]; exact E]. }
  unfold mode_of in M. destruct H as [H|H].
  - apply count_in in H. destruct (w_writer w) as [k|]; [destruct (Nat.eqb k i); [discriminate|]|]; inversion M; lia.
  - rewrite H, Nat.eqb_refl in M. discriminate.
Qed.
(** Somebody can go on. *)
Lemma inv_progress prefer r0 w : nest = false -> inv r0 w -> ~ deadlock R D prefer w.
Proof.
  intros NN I [NF ST]. destruct w as [ts wr rs r lg]. destruct wr as [k|].
  - destruct (iv_writer _ _ I k eq_refl) as (_ & acts & d & E & RE). cbn [w_threads w_tables] in *. pose proof (iv_disc _ _ I _ _ E) as DI. unfold mode_of in DI. cbn [w_writer] in DI. rewrite Nat.eqb_refl in DI.
    destruct acts as [|[] acts]; try discriminate RE; eapply ST; [eapply SUnexcl|eapply SRead|eapply SWrite]; exact E.
  - destruct rs as [|k rs].
    + unfold finished in NF. cbn [w_threads] in NF. destruct (existsb waits ts) eqn:W.
      * apply existsb_exists in W. destruct W as (acts & IN & W). destruct acts as [|[] acts]; try discriminate W. apply In_nth_error in IN. destruct IN as (i & E). eapply ST. eapply SExcl. exact E.
      * assert (X : exists i a acts, nth_error ts i = Some (a :: acts)).
        { clear - NF. induction ts as [|[|a acts] ts IH]; [destruct NF; constructor| |exists 0, a, acts; reflexivity]. destruct IH as (i & b & c & E); [intros F; apply NF; constructor; auto|]. exists (S i), b, c. exact E. }
        destruct X as (i & a & acts & E). pose proof (iv_disc _ _ I _ _ E) as DI. unfold mode_of in DI. cbn in DI.
        destruct a; try (destruct DI as [DI _]; discriminate DI); try (destruct DI as [DI _]; destruct (DI eq_refl)).
        -- eapply ST. eapply SShared; [exact E|auto].
        -- destruct DI as (n & DI & _). discriminate.
        -- eapply ST. eapply SAsk. exact E.
        -- eapply ST. eapply SExcl. exact E.
    + destruct (iv_exist _ _ I k (or_introl eq_refl)) as (acts & E). cbn [w_threads] in E. pose proof (iv_disc _ _ I _ _ E) as DI. unfold mode_of in DI. cbn [w_writer w_readers] in DI.
      assert (C : exists n, count k (k :: rs) = S n) by (unfold count; cbn [count_occ]; destruct (Nat.eq_dec k k); [eauto|congruence]). destruct C as (n & C). rewrite C in DI.
      destruct acts as [|a acts]; [discriminate|]. destruct a; cbn [disc] in DI.
      * destruct DI as (m & DI & Z & _). rewrite (Z NN) in DI. discriminate.
      * eapply ST. eapply SUnshared; [exact E|left; reflexivity].
      * destruct DI as [DI _]; discriminate.
      * destruct DI as [DI _]; discriminate.
      * destruct DI as [DI _]; discriminate.
      * eapply ST. eapply SRead. exact E.
      * destruct DI as [DI _]; discriminate.
Qed.
End Proofs.
