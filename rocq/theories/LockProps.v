(** C59: the registry used by several threads. *)
From Coq Require Import ZifyBool ZifyNat.
From Verif Require Import Base BaseFacts BuilderModel FontModel FontSpec FontProofs FontHistProofs FontProps LockModel LockSpec LockProofs.
Open Scope Z_scope.

(** Any number of threads, each with any list of calls, scheduled in any way, and whether
    the mutex prefers writers or not; assertions are not compiled. *)
Theorem C59_no_race : forall (R D : Type) parts (register : D -> R -> R) prefer r0 css w,
  (forall d r, fold_left (fun r f => f r) (parts d) r = register d r) ->
  steps prefer (start R D parts false r0 css) w -> ~ race R D w.
Proof. intros * P S. apply (inv_no_race R D register true r0). apply (steps_inv R D parts register P true prefer r0 _ w (start_inv R D parts register P true r0 css ltac:(discriminate)) S). Qed.
Print Assumptions C59_no_race.

(** The reads and registrations are those of one order in which registrations are never
    seen by halves, and no registration ends while a reading section is open. *)
Theorem C59_serial : forall (R D : Type) parts (register : D -> R -> R) prefer r0 css w,
  (forall d r, fold_left (fun r f => f r) (parts d) r = register d r) ->
  steps prefer (start R D parts false r0 css) w -> serial R D register r0 (w_log w) /\ undisturbed R D (w_log w).
Proof.
  intros * P S. assert (I : inv R D register true r0 w) by apply (steps_inv R D parts register P true prefer r0 _ w (start_inv R D parts register P true r0 css ltac:(discriminate)) S).
  split; [exact (iv_serial _ _ _ _ _ _ I)|exact (iv_quiet _ _ _ _ _ _ I)].
Qed.
Print Assumptions C59_serial.

(** For the registry itself: what a call sees is the registry after the registrations that
    ended before it. *)
Definition registering (limit : nat) (map_file : nat -> name -> option Z) (d : family_desc) (r : registry) : registry :=
  match register_family limit map_file r d with Ok (r', _) => r' | _ => fst (get_or_add_family limit r (fy_name d)) (* not reached *) end.
Lemma serial_registrations limit map_file a i x b : forall r, well limit r -> serial registry family_desc (registering limit map_file) r (a ++ ESaw i x :: b) ->
  Forall (fun d => forall fs, fy_faces d = Some fs -> descs_ok fs) (registered registry family_desc a) ->
  exists es, registrations limit map_file r (registered registry family_desc a) = Ok (x, es).
Proof.
  induction a as [|e a IH]; intros r W S F.
  - cbn in S. destruct S as [-> _]. exists []. reflexivity.
  - destruct e as [j|j|j y|d]; cbn [app serial registered flat_map] in *.
    + exact (IH r W S F).
    + exact (IH r W S F).
    + exact (IH r W (proj2 S) F).
    + inversion F as [|? ? F1 F2]; subst. destruct (run_defined limit map_file [d] r W) as ([r1 es1] & E1); [constructor; [exact F1|constructor]|].
      cbn [registrations] in E1. apply obind_ok_inv in E1. destruct E1 as ([r2 e2] & E2 & _). unfold registering in S. rewrite E2 in S.
      destruct (register_spec _ _ _ _ _ _ W E2) as (W2 & _). destruct (IH r2 W2 S F2) as (es & E). exists (e2 :: es). cbn [registrations]. rewrite E2. cbn [obind]. unfold registered in E. rewrite E. reflexivity.
Qed.
(** Only registrations that were called end. *)
Section Called.
Variables (R D : Type) (parts : D -> list (R -> R)) (P : D -> Prop).
Definition act_ok (a : act R D) : Prop := match a with AUnexcl d => P d | _ => True end.
Definition event_ok (e : event R D) : Prop := match e with EDone d => P d | _ => True end.
Lemma program_ok debug cs : Forall (fun c => forall d, c = CRegister d -> P d) cs -> Forall act_ok (program R D parts debug cs).
Proof.
  induction 1 as [|c cs H F IH]; [constructor|]. cbn [program flat_map]. apply Forall_app. split; [|exact IH]. apply Forall_forall. intros a IN.
  destruct a; cbn [act_ok]; try exact I. apply H. destruct c as [| |[]|[]| |misses|d']; cbn in IN; try (destruct debug; cbn in IN); try (repeat destruct IN as [IN|IN]; discriminate || contradiction).
  - exfalso. destruct IN as [IN|[IN|IN]]; try discriminate. apply in_app_iff in IN. destruct IN as [IN|[IN|[]]]; [|discriminate]. apply in_flat_map in IN. destruct IN as (m & _ & IN). destruct m; cbn in IN; intuition discriminate.
  - exfalso. destruct IN as [IN|[IN|IN]]; try discriminate. apply in_app_iff in IN. destruct IN as [IN|[IN|[]]]; [|discriminate]. apply in_flat_map in IN. destruct IN as (m & _ & IN). destruct m; cbn in IN; intuition discriminate.
  - destruct IN as [IN|[IN|[IN|IN]]]; try discriminate. apply in_app_iff in IN. destruct IN as [IN|[IN|[]]]; [|congruence]. apply in_map_iff in IN. destruct IN as (f & IN & _). discriminate.
  - destruct IN as [IN|[IN|[IN|IN]]]; try discriminate. apply in_app_iff in IN. destruct IN as [IN|[IN|[]]]; [|congruence]. apply in_map_iff in IN. destruct IN as (f & IN & _). discriminate.
Qed.
Lemma steps_ok prefer w w' : steps prefer w w' -> Forall (Forall act_ok) (w_threads w) -> Forall event_ok (w_log w) -> Forall (Forall act_ok) (w_threads w') /\ Forall event_ok (w_log w').
Proof.
  induction 1 as [|w1 w2 w3 S IH ST]; intros F G; [auto|]. specialize (IH F G). destruct IH as [F2 G2].
  assert (HD : forall ts i a acts, nth_error ts i = Some (a :: acts) -> Forall (Forall act_ok) ts -> act_ok a /\ Forall (Forall act_ok) (list_set ts i acts)).
  { intros ts i a acts E FF. pose proof FF as F1. rewrite Forall_forall in F1. specialize (F1 _ (nth_error_In _ _ E)). inversion F1; subst. split; [assumption|]. apply list_set_shape; assumption. }
  destruct ST as [ts rs r lg i acts E _|ts wr rs r lg i acts E _|ts wr rs r lg i acts E|ts r lg i acts E|ts rs r lg i d acts E|ts wr rs r lg i acts E|ts wr rs r lg i f acts E];
    cbn [w_threads w_log] in *; destruct (HD _ _ _ _ E F2) as [A1 A2]; (split; [exact A2|]); try exact G2; apply Forall_app; (split; [exact G2|]).
  - constructor; [exact I|constructor].
  - constructor; [exact I|constructor].
  - constructor; [exact A1|constructor].
  - destruct (match wr with Some j => Nat.eqb i j | None => false end); [constructor|constructor; [exact I|constructor]].
Qed.
End Called.
Theorem C59_registry : forall limit map_file parts prefer css w,
  (forall d r, fold_left (fun r f => f r) (parts d) r = registering limit map_file d r) ->
  Forall (Forall (fun c => forall d, c = CRegister d -> forall fs, fy_faces d = Some fs -> descs_ok fs)) css ->
  steps prefer (start registry family_desc parts false rg_empty css) w ->
  forall a i x b, w_log w = a ++ ESaw i x :: b -> exists es, reached limit map_file (registered registry family_desc a) x es.
Proof.
  intros limit map_file parts prefer css w P F S a i x b E. destruct (C59_serial registry family_desc parts (registering limit map_file) prefer rg_empty css w P S) as [SR _]. rewrite E in SR.
  apply (serial_registrations limit map_file a i x b rg_empty (well_empty limit) SR).
  destruct (steps_ok registry family_desc (fun d => forall fs, fy_faces d = Some fs -> descs_ok fs) prefer _ _ S) as [_ G].
  - cbn [start w_threads]. apply Forall_map. eapply Forall_impl; [|exact F]. intros cs. apply program_ok.
  - constructor.
  - rewrite E in G. apply Forall_app in G. destruct G as [G _]. unfold registered. clear - G. induction G as [|e a H G IH]; [constructor|]. cbn [flat_map]. apply Forall_app. split; [|exact IH]. destruct e; constructor; auto.
Qed.
Print Assumptions C59_registry.

(** No thread waits forever and none takes the mutex twice.  Missing: calls of
    [get_sub_font] that meet a face the thread has not loaded yet. *)
Theorem C59_no_deadlock_partial : forall (R D : Type) parts (register : D -> R -> R) prefer r0 css w,
  (forall d r, fold_left (fun r f => f r) (parts d) r = register d r) -> Forall (Forall (cached D)) css ->
  steps prefer (start R D parts false r0 css) w -> ~ deadlock R D prefer w /\ ~ relock R D w.
Proof.
  intros * P C S. assert (I : inv R D register false r0 w) by apply (steps_inv R D parts register P false prefer r0 _ w (start_inv R D parts register P false r0 css (fun _ => C)) S).
  split; [exact (inv_progress R D register false prefer r0 w eq_refl I)|exact (inv_no_relock R D parts register P false r0 w eq_refl I)].
Qed.
Print Assumptions C59_no_deadlock_partial.

(** Two threads and a family; the registration divided into the name and the rest. *)
Definition e_desc : family_desc := fam 1 [2] [[2]] [] [face 10 3 0].
Definition e_parts (d : family_desc) : list (registry -> registry) := [(fun r => fst (get_or_add_family 10 r (fy_name d))); registering 10 mf d].
Lemma lookup_end {V} n (m : list (name * V)) v : lookup n m = None -> lookup n (m ++ [(n, v)]) = Some v.
Proof.
  induction m as [|[k x] m IH]; cbn [app lookup]; [|destruct (name_eqb k n); [discriminate|exact IH]]. intros _. unfold name_eqb. destruct (list_eq_dec Z.eq_dec n n); congruence.
Qed.
Lemma add_twice limit r n r1 h : get_or_add_family limit r n = (r1, h) -> get_or_add_family limit r1 n = (r1, h).
Proof.
  unfold get_or_add_family. destruct (lookup n (rg_family_names r)) as [k|] eqn:E; intros H; inversion H; subst; [rewrite E; reflexivity|]. cbn [rg_family_names]. rewrite lookup_end by exact E. reflexivity.
Qed.
Lemma e_parts_ok d r : fold_left (fun r f => f r) (e_parts d) r = registering 10 mf d r.
Proof.
  cbn [e_parts fold_left]. unfold registering, register_family. destruct (get_or_add_family 10 r (fy_name d)) as [r1 h] eqn:E. cbn [fst]. rewrite (add_twice _ _ _ _ _ E).
  cbn [fst]. reflexivity.
Qed.

(** A schedule: which thread goes next. *)
Definition next (w : world registry family_desc) (i : nat) : option (world registry family_desc) :=
  let mk ts wr rs r lg := Some {| w_threads := ts; w_writer := wr; w_readers := rs; w_tables := r; w_log := lg |} in
  let '{| w_threads := ts; w_writer := wr; w_readers := rs; w_tables := r; w_log := lg |} := w in
  match nth_error ts i with
  | Some (AShared :: a) => match wr with None => if existsb waits ts then None else mk (list_set ts i a) None (i :: rs) r (lg ++ [EBegin i]) | _ => None end
  | Some (AUnshared :: a) => if existsb (Nat.eqb i) rs then mk (list_set ts i a) wr (drop_one i rs) r (lg ++ [EEnd i]) else None
  | Some (AAsk :: a) => mk (list_set ts i a) wr rs r lg
  | Some (AExcl :: a) => match wr, rs with None, [] => mk (list_set ts i a) (Some i) [] r lg | _, _ => None end
  | Some (AUnexcl d :: a) => match wr with Some j => if Nat.eqb j i then mk (list_set ts i a) None rs r (lg ++ [EDone d]) else None | None => None end
  | Some (ARead :: a) => mk (list_set ts i a) wr rs r (lg ++ (if match wr with Some j => Nat.eqb i j | None => false end then [] else [ESaw i r]))
  | Some (AWrite f :: a) => mk (list_set ts i a) wr rs (f r) lg
  | _ => None
  end.
Lemma next_step w i w' : next w i = Some w' -> step true w w'.
Proof.
  destruct w as [ts wr rs r lg]. unfold next. destruct (nth_error ts i) as [[|[] a]|] eqn:E; try discriminate.
  - destruct wr; [discriminate|]. destruct (existsb waits ts) eqn:W; [discriminate|]. intros H. injection H as <-. apply SShared; auto.
  - destruct (existsb (Nat.eqb i) rs) eqn:X; [|discriminate]. apply existsb_exists in X. destruct X as (j & IN & X). apply Nat.eqb_eq in X. subst j. intros H. injection H as <-. apply SUnshared; auto.
  - intros H. injection H as <-. apply SAsk; auto.
  - destruct wr; [discriminate|]. destruct rs; [|discriminate]. intros H. injection H as <-. apply SExcl; auto.
  - destruct wr as [j|]; [|discriminate]. destruct (Nat.eqb j i) eqn:X; [|discriminate]. apply Nat.eqb_eq in X. subst j. intros H. injection H as <-. apply SUnexcl; auto.
  - intros H. injection H as <-. apply SRead; auto.
  - intros H. injection H as <-. apply SWrite; auto.
Qed.
Fixpoint follow (w : world registry family_desc) (is : list nat) : option (world registry family_desc) :=
  match is with [] => Some w | i :: is => match next w i with Some w' => follow w' is | None => None end end.
Lemma steps_first prefer (w1 w2 w3 : world registry family_desc) : step prefer w1 w2 -> steps prefer w2 w3 -> steps prefer w1 w3.
Proof. intros S T. induction T; [eapply steps_more; [apply steps_none|exact S]|]. eapply steps_more; [apply IHT; exact S|assumption]. Qed.
Lemma follow_steps is : forall w w', follow w is = Some w' -> steps true w w'.
Proof.
  induction is as [|i is IH]; intros w w' H; cbn in H; [injection H as <-; apply steps_none|]. destruct (next w i) as [w1|] eqn:E; [|discriminate]. eapply steps_first; [eapply next_step; exact E|apply IH; exact H].
Qed.

Definition e_world debug calls : world registry family_desc := start registry family_desc e_parts debug rg_empty [calls; [CRegister e_desc]].
Example C59_example : Forall (Forall (cached family_desc)) [[CFamily; CSub [false]]; [CRegister e_desc]] /\
  exists w r i, steps true (e_world false [CFamily; CSub [false]]) w /\ w_log w = [EBegin 0; ESaw 0 rg_empty; EEnd 0; EDone e_desc; EBegin 0; ESaw 0 r; ESaw 0 r; EEnd 0]%nat /\
    finished registry family_desc w /\ get_family r [1] = i /\ i <> INVALID.
Proof.
  split; [repeat constructor|].
  destruct (follow (e_world false [CFamily; CSub [false]]) [0; 0; 1; 0; 1; 1; 1; 1; 1; 0; 0; 0; 0]%nat) as [w|] eqn:E; [|vm_compute in E; discriminate E].
  exists w, (w_tables w), 0. split; [eapply follow_steps; exact E|]. vm_compute in E. injection E as <-. split; [reflexivity|]. split; [|split; [vm_compute; reflexivity|discriminate]]. repeat constructor.
Qed.

(** [get_sub_font] asks for the mutex it holds when it loads a face; if a registration waits
    by then, neither goes on. *)
Theorem C59_deadlock_refuted : exists w, steps true (e_world false [CSub [true]]) w /\ relock registry family_desc w /\ deadlock registry family_desc true w.
Proof.
  set (w := {| w_threads := [[AShared; ARead; AUnshared; AUnshared]; AExcl :: ARead :: map AWrite (e_parts e_desc) ++ [AUnexcl e_desc]];
               w_writer := None; w_readers := [0%nat]; w_tables := rg_empty; w_log := [EBegin 0; ESaw 0 rg_empty; ESaw 0 rg_empty]%nat |}).
  exists w. split; [apply (follow_steps [0; 0; 0; 1]%nat); reflexivity|]. split.
  - exists 0%nat. eexists. split; [left; reflexivity|left; left; reflexivity].
  - split.
    + intros F. inversion F; discriminate.
    + intros w' S. unfold w in S. remember {| w_threads := _; w_writer := _; w_readers := _; w_tables := _; w_log := _ |} as w0 eqn:W0 in S. clear w.
      destruct S as [ts rs r lg i acts E P|ts wr rs r lg i acts E P|ts wr rs r lg i acts E|ts r lg i acts E|ts rs r lg i d acts E|ts wr rs r lg i acts E|ts wr rs r lg i f acts E];
        inversion W0; subst; try (do 3 (destruct i as [|i]; try discriminate E); destruct i; discriminate E).
      specialize (P eq_refl). discriminate P.
Qed.
Print Assumptions C59_deadlock_refuted.

(** With assertions compiled, [get_font_data] and [get_default_single_script_font] look at
    the tables without the mutex. *)
Theorem C59_assertions_refuted : exists w, steps true (e_world true [CDefault]) w /\ race registry family_desc w.
Proof.
  set (w := {| w_threads := [[ARead; AShared; ARead; AUnshared]; map AWrite (e_parts e_desc) ++ [AUnexcl e_desc]]; w_writer := Some 1%nat; w_readers := []; w_tables := rg_empty; w_log := [] |}).
  exists w. split; [apply (follow_steps [1; 1; 1]%nat); reflexivity|]. exists 1%nat, 0%nat. do 4 eexists. split; [discriminate|]. split; [reflexivity|]. split; [reflexivity|]. left. reflexivity.
Qed.
Print Assumptions C59_assertions_refuted.
