From Verif Require Import Base BaseFacts ValueRunsModel ValueRunsSpec ValueRunsProofs RunBuilderModel RunBuilderSpec.
Set Implicit Arguments.
Open Scope Z_scope.

Lemma rb_exec_app {T} (os1 os2 : list (rb_op T)) b :
  rb_exec b (os1 ++ os2) = do b' <- rb_exec b os1; rb_exec b' os2.
Proof.
  revert b. induction os1 as [|o os1 IH]; intros b; cbn; auto.
  destruct (rb_step b o); cbn; auto.
Qed.

Lemma sorted_snoc {T} (t : table T) p : sorted t -> (forall q, In q t -> fst q <= fst p) -> sorted (t ++ [p]).
Proof.
  unfold sorted. rewrite map_app. cbn [map]. intros Hs Hb.
  induction t as [|q t IH]; cbn in *.
  - repeat constructor.
  - inversion Hs as [|? ? Hs' Hf]; subst. constructor.
    + apply IH; auto.
    + apply Forall_app. split; auto.
Qed.

Lemma lookup_app {T} (t1 t2 : table T) i :
  lookup (t1 ++ t2) i = match lookup t1 i with Some v => Some v | None => lookup t2 i end.
Proof.
  induction t1 as [|[l v] t1 IH]; cbn; auto. destruct (i <? l); auto.
Qed.

Lemma final_snoc {T} (t : table T) p d : final_limit (t ++ [p]) d = fst p.
Proof. unfold final_limit. rewrite map_app. cbn [map]. apply last_last. Qed.

Lemma build_snoc {T} (t : table T) l v : vr_add (build t) l v = build (t ++ [(l, v)]).
Proof. rewrite !build_eq. unfold vr_add. cbn. now rewrite !map_app. Qed.

Lemma build_get_limit {T} (t : table T) d : t <> [] -> vr_get_limit (build t) = Ok (final_limit t d).
Proof.
  intros H. unfold vr_get_limit. rewrite build_eq. cbn. unfold final_limit. apply vback_last.
  destruct t; [congruence|discriminate].
Qed.

Lemma build_is_empty {T} (t : table T) : vr_is_empty (build t) = match t with [] => true | _ => false end.
Proof. rewrite build_eq. destruct t; reflexivity. Qed.

(** State invariant: the characters emitted so far are [cs]; those before the
    last run limit are recorded, those after it have the value on top. *)
Definition rb_inv {T} (b : run_builder T) (st : list T) (cs : list T) : Prop :=
  exists t, rb_runs b = build t /\ rb_stack b = st /\
    sorted t /\ (forall q, In q t -> 0 <= fst q <= Z.of_nat (length cs)) /\
    (forall i, 0 <= i < final_limit t 0 -> lookup t i = nth_error cs (Z.to_nat i)) /\
    (forall i x, final_limit t 0 <= i -> nth_error cs (Z.to_nat i) = Some x -> 0 <= i -> hd_error st = Some x).

Lemma rb_inv_make {T} (v : T) : rb_inv (rb_make v) [v] [].
Proof.
  exists []. unfold final_limit; cbn. repeat split; auto; try constructor; try (intros; tauto); try (intros; lia).
  intros i x _ H. destruct (Z.to_nat i); discriminate.
Qed.

Lemma rb_inv_chars {T} (b : run_builder T) v st cs n :
  rb_inv b (v :: st) cs -> rb_inv b (v :: st) (cs ++ repeat v n).
Proof.
  intros (t & Hr & Hst & Hs & Hb & Hl & Hu). exists t. repeat split; auto.
  - apply Hb; auto.
  - specialize (Hb q H). rewrite app_length. lia.
  - intros i Hi. rewrite Hl by auto.
    assert (Z.to_nat i < length cs)%nat.
    { assert (t <> []) by (intros ->; unfold final_limit in Hi; cbn in Hi; lia).
      pose proof (final_limit_In 0 H) as Hin. apply in_map_iff in Hin. destruct Hin as (q & Hq & Hqi).
      specialize (Hb q Hqi). lia. }
    now rewrite nth_error_app1.
  - intros i x Hi Hx Hi0. destruct (Nat.lt_ge_cases (Z.to_nat i) (length cs)) as [H|H].
    + rewrite nth_error_app1 in Hx by auto. eapply Hu; eauto.
    + rewrite nth_error_app2 in Hx by auto. apply nth_error_In in Hx. apply repeat_spec in Hx. now subst.
Qed.

Lemma final_bound {T} (t : table T) (n : Z) : (forall q, In q t -> 0 <= fst q <= n) -> 0 <= n ->
  0 <= final_limit t 0 <= n.
Proof.
  intros Hb Hn. destruct t as [|p t]; [cbn; unfold final_limit; cbn; lia|].
  pose proof (@final_limit_In _ (p :: t) 0 ltac:(discriminate)) as Hin.
  apply in_map_iff in Hin. destruct Hin as (q & <- & Hq). auto.
Qed.

(** Adding a run up to the current position. *)
Lemma rb_inv_close {T} (t : table T) v st cs :
  sorted t -> (forall q, In q t -> 0 <= fst q <= Z.of_nat (length cs)) ->
  (forall i, 0 <= i < final_limit t 0 -> lookup t i = nth_error cs (Z.to_nat i)) ->
  (forall i x, final_limit t 0 <= i -> nth_error cs (Z.to_nat i) = Some x -> 0 <= i -> hd_error (v :: st) = Some x) ->
  let t' := t ++ [(Z.of_nat (length cs), v)] in
  sorted t' /\ (forall q, In q t' -> 0 <= fst q <= Z.of_nat (length cs)) /\
  final_limit t' 0 = Z.of_nat (length cs) /\
  (forall i, 0 <= i < final_limit t' 0 -> lookup t' i = nth_error cs (Z.to_nat i)).
Proof.
  intros Hs Hb Hl Hu t'. split; [|split; [|split]].
  - apply sorted_snoc; auto. intros q Hq. apply Hb in Hq. cbn. lia.
  - intros q Hq. apply in_app_iff in Hq. destruct Hq as [Hq|[<-|[]]]; auto. cbn. lia.
  - apply final_snoc.
  - unfold t'. rewrite final_snoc. cbn [fst]. intros i Hi. rewrite lookup_app.
    pose proof (@final_bound _ _ _ Hb ltac:(lia)) as Hf.
    destruct (Z.lt_ge_cases i (final_limit t 0)) as [Hlt|Hge].
    + rewrite Hl by lia. destruct (nth_error cs (Z.to_nat i)) eqn:E; auto.
      apply nth_error_None in E. lia.
    + replace (lookup t i) with (@None T).
      * cbn. destruct (Z.ltb_spec i (Z.of_nat (length cs))); [|lia].
        destruct (nth_error cs (Z.to_nat i)) as [x|] eqn:E.
        -- specialize (Hu i x Hge E ltac:(lia)). cbn in Hu. congruence.
        -- apply nth_error_None in E. lia.
      * symmetry. apply lookup_None_iff; auto. intros l Hl'. pose proof (sorted_final 0 Hs l Hl'). lia.
Qed.

Lemma rb_inv_push {T} (b : run_builder T) top st cs v : rb_inv b (top :: st) cs ->
  exists b', rb_push b (Z.of_nat (length cs)) v = Ok b' /\ rb_inv b' (v :: top :: st) cs.
Proof.
  intros (t & Hr & Hst & Hs & Hb & Hl & Hu). unfold rb_push, rb_top. rewrite Hst. cbn [obind].
  eexists. split; [reflexivity|].
  destruct (rb_inv_close _ Hs Hb Hl Hu) as (A & B & C & D).
  exists (t ++ [(Z.of_nat (length cs), top)]). cbn [rb_runs rb_stack].
  split; [rewrite Hr; apply build_snoc|]. split; [reflexivity|]. split; [exact A|]. split; [exact B|].
  split; [exact D|].
  intros i x Hi Hx Hi0. rewrite C in Hi.
  assert (nth_error cs (Z.to_nat i) = None) by (apply nth_error_None; lia). congruence.
Qed.

Lemma rb_inv_pop {T} (b : run_builder T) top st cs : rb_inv b (top :: st) cs ->
  exists b' t', rb_pop b (Z.of_nat (length cs)) = Ok b' /\ rb_inv b' st cs /\
    rb_runs b' = build t' /\ t' <> [] /\ sorted t' /\ final_limit t' 0 = Z.of_nat (length cs) /\
    (forall q, In q t' -> 0 <= fst q <= Z.of_nat (length cs)) /\
    (forall i, 0 <= i < Z.of_nat (length cs) -> lookup t' i = nth_error cs (Z.to_nat i)).
Proof.
  intros (t & Hr & Hst & Hs & Hb & Hl & Hu). unfold rb_pop. rewrite Hr, build_is_empty.
  destruct (rb_inv_close _ Hs Hb Hl Hu) as (A & B & C & D).
  assert (Hadd : rb_inv {| rb_runs := build (t ++ [(Z.of_nat (length cs), top)]); rb_stack := st |} st cs).
  { exists (t ++ [(Z.of_nat (length cs), top)]).
    split; [reflexivity|]. split; [reflexivity|]. split; [exact A|]. split; [exact B|].
    split; [exact D|].
    intros i x Hi Hx Hi0. rewrite C in Hi.
    assert (nth_error cs (Z.to_nat i) = None) by (apply nth_error_None; lia). congruence. }
  assert (Hne : t ++ [(Z.of_nat (length cs), top)] <> []) by (destruct t; discriminate).
  rewrite C in D.
  destruct t as [|p t].
  - cbn [obind]. unfold rb_top. rewrite Hst. cbn [obind]. rewrite build_snoc.
    eexists. eexists. split; [reflexivity|]. cbn [rb_runs]. split; [exact Hadd|].
    split; [reflexivity|]. split; [exact Hne|]. split; [exact A|]. split; [exact C|]. split; [exact B|exact D].
  - rewrite (@build_get_limit _ (p :: t) 0) by discriminate. cbn [obind].
    destruct (Z.ltb_spec (final_limit (p :: t) 0) (Z.of_nat (length cs))) as [Hlt|Hge].
    + unfold rb_top. rewrite Hst. cbn [obind]. rewrite build_snoc.
      eexists. eexists. split; [reflexivity|]. cbn [rb_runs]. split; [exact Hadd|].
      split; [reflexivity|]. split; [exact Hne|]. split; [exact A|]. split; [exact C|]. split; [exact B|exact D].
    + cbn [obind]. rewrite Hst. pose proof (@final_bound _ _ _ Hb ltac:(lia)) as Hf.
      assert (Hfl : final_limit (p :: t) 0 = Z.of_nat (length cs)) by lia.
      eexists. exists (p :: t). split; [reflexivity|]. cbn [rb_runs].
      split; [|split; [exact eq_refl|]].
      * exists (p :: t). split; [reflexivity|]. split; [reflexivity|]. split; [exact Hs|]. split; [exact Hb|].
        split; [exact Hl|]. intros i x Hi Hx Hi0. rewrite Hfl in Hi.
        assert (nth_error cs (Z.to_nat i) = None) by (apply nth_error_None; lia). congruence.
      * split; [discriminate|]. split; [exact Hs|]. split; [exact Hfl|]. split; [exact Hb|].
        rewrite <- Hfl. exact Hl.
Qed.

Lemma doc_values_length {T} (d : doc T) v : Z.of_nat (length (doc_values v d)) = doc_length d.
Proof.
  revert v. induction d as [|n d IH|w b IHb d IH]; intros v; cbn; auto.
  - rewrite app_length, repeat_length. specialize (IH v). lia.
  - rewrite app_length. specialize (IH v). specialize (IHb w). lia.
Qed.

Lemma doc_ops_inv {T} (d : doc T) : forall b top st cs, rb_inv b (top :: st) cs ->
  exists b', rb_exec b (doc_ops (Z.of_nat (length cs)) d) = Ok b' /\
    rb_inv b' (top :: st) (cs ++ doc_values top d).
Proof.
  induction d as [|n d IH|w body IHb d IH]; intros b top st cs H; cbn [doc_ops doc_values].
  - exists b. cbn. rewrite app_nil_r. auto.
  - destruct (IH b top st (cs ++ repeat top n) (rb_inv_chars n H)) as (b' & Hb' & Hi).
    rewrite app_length, repeat_length in Hb'. exists b'. split.
    + rewrite <- Hb'. f_equal. f_equal. lia.
    + rewrite app_assoc. exact Hi.
  - cbn [rb_exec rb_step]. destruct (rb_inv_push w H) as (b1 & Hb1 & Hi1). rewrite Hb1. cbn [obind].
    destruct (IHb b1 w (top :: st) cs Hi1) as (b2 & Hb2 & Hi2).
    rewrite rb_exec_app, Hb2. cbn [obind rb_exec rb_step].
    destruct (rb_inv_pop Hi2) as (b3 & t' & Hb3 & Hi3 & _).
    assert (Hlen : Z.of_nat (length (cs ++ doc_values w body)) = Z.of_nat (length cs) + doc_length body).
    { rewrite app_length. pose proof (doc_values_length body w). lia. }
    rewrite <- Hlen, Hb3. cbn [obind].
    destruct (IH b3 top st (cs ++ doc_values w body) Hi3) as (b4 & Hb4 & Hi4).
    exists b4. split; [exact Hb4|]. rewrite app_assoc. exact Hi4.
Qed.

Lemma run_builder_ok {T} (base : T) (d : doc T) :
  exists b t, rb_exec (rb_make base) (doc_ops 0 d ++ [RPop (doc_length d)]) = Ok b /\
    rb_stack b = [] /\ rb_get b = build t /\ t <> [] /\ sorted t /\ final_limit t 0 = doc_length d /\
    (forall q, In q t -> 0 <= fst q <= doc_length d) /\
    (forall i, 0 <= i < doc_length d -> lookup t i = nth_error (doc_values base d) (Z.to_nat i)).
Proof.
  destruct (@doc_ops_inv _ d (rb_make base) base [] [] (rb_inv_make base)) as (b1 & Hb1 & Hi1).
  cbn [length] in Hb1. change (Z.of_nat 0) with 0 in Hb1. cbn [app] in Hi1.
  rewrite rb_exec_app, Hb1. cbn [obind rb_exec rb_step].
  destruct (rb_inv_pop Hi1) as (b2 & t & Hb2 & Hi2 & Hr & Hrest).
  rewrite doc_values_length in Hb2, Hrest. rewrite Hb2. cbn [obind].
  exists b2, t. split; [reflexivity|]. split; [|split; [exact Hr|exact Hrest]].
  destruct Hi2 as (t2 & _ & Hst & _). exact Hst.
Qed.

(** The stack. *)
Definition even {T} (b : run_builder T) : Prop := length (vr_limits (rb_runs b)) = length (vr_values (rb_runs b)).
Lemma even_add {T} (r : value_runs T) l v : length (vr_limits r) = length (vr_values r) -> length (vr_limits (vr_add r l v)) = length (vr_values (vr_add r l v)).
Proof. intros H. unfold vr_add. cbn. rewrite !app_length. cbn. lia. Qed.
Lemma pop_ok {T} (b : run_builder T) l v st : even b -> rb_stack b = v :: st -> exists b', rb_pop b l = Ok b' /\ rb_stack b' = st /\ even b'.
Proof.
  intros V E. unfold rb_pop. assert (A : exists a, (if vr_is_empty (rb_runs b) then Ok true else do l0 <- vr_get_limit (rb_runs b); Ok (l0 <? l)) = Ok a).
  { unfold even in V. unfold vr_get_limit, vr_is_empty in *. destruct (vr_values (rb_runs b)) as [|u us]; [eexists; reflexivity|].
    destruct (vr_limits (rb_runs b)) as [|x xs] eqn:L; [discriminate V|]. rewrite (@vback_last _ (x :: xs) x) by discriminate. eexists. reflexivity. }
  destruct A as [a ->]. cbn [obind]. unfold rb_top. rewrite E.
  destruct a; cbn [obind]; (eexists; split; [reflexivity|]; split; [reflexivity|]); unfold even; cbn [rb_runs]; [apply even_add, V|exact V].
Qed.
Lemma push_ok {T} (b : run_builder T) l v u st : even b -> rb_stack b = u :: st ->
  exists b', rb_push b l v = Ok b' /\ rb_stack b' = v :: u :: st /\ even b'.
Proof.
  intros V E. unfold rb_push, rb_top. rewrite E. cbn [obind]. eexists. split; [reflexivity|]. cbn [rb_stack]. split; [reflexivity|].
  unfold even. cbn [rb_runs]. apply even_add, V.
Qed.
Lemma exec_even {T} (os : list (rb_op T)) : forall b b', even b -> rb_exec b os = Ok b' -> even b'.
Proof.
  induction os as [|o os IH]; intros b b' V E; cbn [rb_exec] in E; [injection E as <-; exact V|].
  destruct (rb_step b o) as [b1| |] eqn:E1; try discriminate. cbn [obind] in E. apply (IH b1 b'); [|exact E].
  destruct (rb_stack b) as [|u st] eqn:S0.
  - destruct o; cbn [rb_step] in E1; unfold rb_push, rb_pop, rb_top in E1; rewrite S0 in E1; [discriminate|].
    destruct (if vr_is_empty _ then _ else _) as [a| |]; cbn [obind] in E1; try discriminate. destruct a; discriminate.
  - destruct o as [l v|l]; cbn [rb_step] in E1.
    + destruct (push_ok l v V S0) as (b2 & E2 & _ & V2). congruence.
    + destruct (pop_ok l V S0) as (b2 & E2 & _ & V2). congruence.
Qed.
Lemma doc_ops_stack {T} (d : doc T) : forall p b v st, even b -> rb_stack b = v :: st -> exists b', rb_exec b (doc_ops p d) = Ok b' /\ rb_stack b' = v :: st /\ even b'.
Proof.
  induction d as [|n d IH|v' body IHb d IH]; intros p b v st V E; cbn [doc_ops].
  - exists b. auto.
  - apply IH; assumption.
  - cbn [rb_exec rb_step]. destruct (push_ok p v' V E) as (b0 & E0 & S0 & V0). rewrite E0. cbn [obind]. rewrite rb_exec_app.
    destruct (IHb p b0 v' (v :: st) V0 S0) as (b1 & E1 & S1 & V1). rewrite E1. cbn [obind rb_exec rb_step].
    destruct (pop_ok (p + doc_length body) V1 S1) as (b2 & E2 & S2 & V2). rewrite E2. cbn [obind]. exact (IH _ b2 v st V2 S2).
Qed.
Lemma current_value : forall T (base : T) pre b u l v p d l',
  rb_exec (rb_make base) pre = Ok b -> rb_get_current_value b = Ok u -> exists b1 b2,
  rb_exec (rb_make base) (pre ++ RPush l v :: doc_ops p d) = Ok b1 /\ rb_get_current_value b1 = Ok v /\
  rb_exec (rb_make base) (pre ++ RPush l v :: doc_ops p d ++ [RPop l']) = Ok b2 /\ rb_get_current_value b2 = Ok u /\
  rb_get_current_value (rb_make base) = Ok base.
Proof.
  intros T base pre b u l v p d l' E C. unfold rb_get_current_value, rb_top in C. destruct (rb_stack b) as [|u' st] eqn:S0; [discriminate|]. injection C as ->.
  assert (V : even b) by (apply (@exec_even _ pre (rb_make base)); [reflexivity|exact E]).
  destruct (push_ok l v V S0) as (b0 & E0 & S1 & V0). destruct (doc_ops_stack d p V0 S1) as (b1 & E1 & S2 & V1).
  destruct (pop_ok l' V1 S2) as (b2 & E2 & S3 & V2). exists b1, b2.
  assert (H : rb_exec (rb_make base) (pre ++ RPush l v :: doc_ops p d) = Ok b1).
  { rewrite rb_exec_app, E. cbn [obind rb_exec rb_step]. rewrite E0. exact E1. }
  split; [exact H|]. unfold rb_get_current_value, rb_top. rewrite S2. split; [reflexivity|]. split; [|rewrite S3; split; reflexivity].
  replace (pre ++ RPush l v :: doc_ops p d ++ [RPop l']) with ((pre ++ RPush l v :: doc_ops p d) ++ [RPop l']) by (rewrite <- app_assoc; reflexivity).
  rewrite rb_exec_app, H. cbn [obind rb_exec rb_step]. rewrite E2. reflexivity.
Qed.
