(** Itemisation: a paragraph is cut into segments over which every attribute is
    constant, and shaping them gives the arrays of one paragraph. *)
From Coq Require Import Permutation ZifyBool ZifyNat.
From Verif Require Import Base BaseFacts ValueRunsModel ValueRunsSpec ValueRunsProofs ScriptRunModel ScriptRunSpec ScriptRunProofs.
From Verif Require Import LayoutModel LayoutSpec LayoutProofs BuilderModel BuilderSpec BuilderVisualProofs BuilderBreakProofs BuilderTileProofs.
Open Scope Z_scope.
Set Implicit Arguments.

(** ** Iterators that follow an attribute *)
Section Iterators.
Variable script : Z -> Z.
Variables ps pe : Z.
Notation badv := (b_advance script).

(** [S it q]: the iterator stands at [q]; [T v]: [v] is of the right kind;
    [F x v]: the value at [x] is [v]; [E m]: the value may change at [m]. *)
Definition follows (S : biter -> Z -> Prop) (T : bval -> Prop) (F : Z -> bval -> Prop) (E : Z -> Prop) : Prop :=
  forall it q, S it q -> q < pe -> exists L v,
    b_limit it = Ok L /\ b_value it = Ok v /\ T v /\ q < L /\
    (forall x, ps <= x < pe -> q <= x < L -> F x v) /\
    (forall m, q < m <= L -> m <= pe -> exists it', badv it m = Ok it' /\ S it' m) /\ (L <= pe -> E L).
Definition bounded (S : biter -> Z -> Prop) : Prop := forall it q L, S it q -> b_limit it = Ok L -> L <= pe.

Record kind := { k_at : biter -> Z -> Prop; k_tag : bval -> Prop; k_is : Z -> bval -> Prop; k_edge : Z -> Prop }.
Definition good_kind (K : kind) : Prop := follows (k_at K) (k_tag K) (k_is K) (k_edge K).
Definition call_value (q m : Z) (K : kind) (v : bval) : Prop := k_tag K v /\ forall x, ps <= x < pe -> q <= x < m -> k_is K x v.

Fixpoint calls_ok (Ks : list kind) (q : Z) (calls : list (Z * list bval)) : Prop :=
  match calls with
  | [] => q = pe
  | (m, vs) :: cs => q < m <= pe /\
      Forall2 (call_value q m) Ks vs /\ Exists (fun K => k_edge K m) Ks /\ calls_ok Ks m cs
  end.

Lemma step_all q : q < pe -> forall Ks its, Ks <> [] ->
  Forall good_kind Ks -> Forall2 (fun K it => k_at K it q) Ks its ->
  exists m vs, min_of_limits b_limit its = Ok m /\ iter_values b_value its = Ok vs /\ q < m /\
    (forall K, In K Ks -> bounded (k_at K) -> m <= pe) /\
    (forall m', m' <= m -> Forall2 (call_value q m') Ks vs) /\
    (forall m', q < m' <= m -> m' <= pe -> exists its', iter_advance_all badv its m' = Ok its' /\ Forall2 (fun K it => k_at K it m') Ks its') /\
    (m <= pe -> Exists (fun K => k_edge K m) Ks).
Proof.
  intros Q. induction Ks as [|K Ks IH]; intros its NE FO F2; [congruence|].
  inversion F2 as [|? it ? its1 H1 F2']; subst. inversion FO as [|? ? FK FO']; subst.
  destruct (FK it q H1 Q) as (L & v & A1 & A2 & A0 & A3 & A4 & A5 & A6).
  destruct Ks as [|K2 Ks].
  - inversion F2'; subst. exists L, [v]. cbn [min_of_limits iter_values]. rewrite A2. cbn [obind].
    split; [exact A1|]. split; [reflexivity|]. split; [exact A3|]. split; [|split; [|split]].
    + intros K' [<-|[]] B. exact (B it q L H1 A1).
    + intros m' M. constructor; [|constructor]. split; [exact A0|]. intros x X1 X2. apply A4; lia.
    + intros m' M M2. destruct (A5 m' M M2) as (it' & E & S'). exists [it']. cbn [iter_advance_all]. rewrite E. cbn [obind].
      split; [reflexivity|]. constructor; [exact S'|constructor].
    + intros M. left. exact (A6 M).
  - destruct (IH its1 ltac:(discriminate) FO' F2') as (m & vs & B1 & B2 & B3 & B4 & B5 & B6 & B7).
    inversion F2' as [|? it2 ? its2 H2 F2'']; subst.
    exists (Z.min L m), (v :: vs).
    change (min_of_limits b_limit (it :: it2 :: its2)) with (do l <- b_limit it; do m <- min_of_limits b_limit (it2 :: its2); Ok (Z.min l m)).
    rewrite A1, B1. cbn [obind]. change (iter_values b_value (it :: it2 :: its2)) with (do v <- b_value it; do vs <- iter_values b_value (it2 :: its2); Ok (v :: vs)).
    rewrite A2, B2. cbn [obind].
    split; [reflexivity|]. split; [reflexivity|]. split; [lia|]. split; [|split; [|split]].
    + intros K' [<-|I'] B; [pose proof (B it q L H1 A1); lia|]. specialize (B4 K' I' B). lia.
    + intros m' M. constructor; [|apply B5; lia]. split; [exact A0|]. intros x X1 X2. apply A4; lia.
    + intros m' M M2. destruct (A5 m' ltac:(lia) M2) as (it' & E & S').
      destruct (B6 m' ltac:(lia) M2) as (its' & E2 & S2).
      exists (it' :: its'). change (iter_advance_all badv (it :: it2 :: its2) m') with (do x' <- badv it m'; do t <- iter_advance_all badv (it2 :: its2) m'; Ok (x' :: t)).
      rewrite E, E2. split; [reflexivity|]. constructor; assumption.
    + intros M. destruct (Z.le_gt_cases L m); [rewrite Z.min_l in * by lia; left; auto|rewrite Z.min_r in * by lia; right; auto].
Qed.

Lemma intersect_ok Ks : Ks <> [] -> Forall good_kind Ks -> (exists K, In K Ks /\ bounded (k_at K)) ->
  forall fuel q its, q <= pe -> pe - q <= Z.of_nat fuel -> Forall2 (fun K it => k_at K it q) Ks its ->
  exists calls its', iter_intersect_loop b_limit b_value badv fuel q pe its = Ok (calls, its') /\
    calls_ok Ks q calls /\ Forall2 (fun K it => k_at K it pe) Ks its'.
Proof.
  intros NE FO (K & IK & BK). induction fuel as [|fuel IH]; intros q its Q FU F2.
  - exists [], its. cbn [iter_intersect_loop]. destruct (Z.ltb_spec q pe); [lia|]. assert (q = pe) by lia. subst.
    split; [reflexivity|]. split; [reflexivity|exact F2].
  - cbn [iter_intersect_loop]. destruct (Z.ltb_spec q pe) as [LT|GE].
    + destruct (@step_all q LT Ks its NE FO F2) as (m & vs & A1 & A2 & A3 & A4 & A5 & A6 & A7).
      specialize (A4 K IK BK). destruct (A6 m ltac:(lia) A4) as (its' & E & F2').
      destruct (IH m its' A4 ltac:(lia) F2') as (calls & its'' & E2 & C & F3).
      exists ((m, vs) :: calls), its''. rewrite A1. cbn [obind]. rewrite A2. cbn [obind]. rewrite E. cbn [obind]. rewrite E2. cbn [obind fst snd].
      split; [reflexivity|]. split; [|exact F3]. cbn [calls_ok]. split; [lia|]. split; [apply A5; lia|]. split; [exact (A7 A4)|exact C].
    + assert (q = pe) by lia. subst. exists [], its. split; [reflexivity|]. split; [reflexivity|exact F2].
Qed.

(** The loop only compares its start with the end. *)
Lemma intersect_start fuel a b its : a < pe -> b < pe ->
  iter_intersect_loop b_limit b_value badv fuel a pe its = iter_intersect_loop b_limit b_value badv fuel b pe its.
Proof. intros A B. destruct fuel; cbn [iter_intersect_loop]; destruct (Z.ltb_spec a pe), (Z.ltb_spec b pe); try lia; reflexivity. Qed.

(** *** Tables *)
Lemma padded_advance {T} (rv : runs_view T) (t pad : table T) : reads rv t pad -> (length pad <= 1)%nat -> sorted (t ++ pad) ->
  forall fuel idx i, (runs_before (t ++ pad) i < idx + fuel)%nat -> (idx <= runs_before (t ++ pad) i)%nat ->
  (runs_before (t ++ pad) i < length (t ++ pad))%nat ->
  it_advance_loop fuel rv idx i = Ok (runs_before (t ++ pad) i).
Proof.
  intros (_ & RL & _) _ S. induction fuel as [|fuel IH]; intros idx i F I B; [lia|]. cbn [it_advance_loop]. rewrite RL.
  destruct (@vget_lt _ (map fst (t ++ pad)) idx) as (l & Hg & Hn); [rewrite map_length; lia|].
  rewrite Hg. cbn [obind]. pose proof (@runs_before_lt_iff _ (t ++ pad) i S idx l Hn) as Hiff.
  destruct (Z.leb_spec l i).
  - apply IH; lia.
  - f_equal. lia.
Qed.

Lemma lookup_app {T} (t pad : table T) d x : t <> [] -> x < final_limit t d -> lookup (t ++ pad) x = lookup t x.
Proof.
  unfold final_limit. induction t as [|[l v] t IH]; intros NE L; [congruence|]. cbn [app lookup].
  destruct (Z.ltb_spec x l); [reflexivity|]. destruct t as [|p t]; [cbn in L; lia|]. apply IH; [discriminate|]. exact L.
Qed.

Section Table.
Variables (T : Type) (rv : runs_view T) (t pad : table T).
Hypothesis R : reads rv t pad.
Hypothesis Pad : (length pad <= 1)%nat.
Hypothesis Sorted : sorted (t ++ pad).
Hypothesis NE : t <> [].
Hypothesis Cover : pe <= final_limit t 0.
Hypothesis Room : pe < final_limit (t ++ pad) 0.

Lemma table_index q : q <= pe -> (runs_before (t ++ pad) q < length (t ++ pad))%nat.
Proof. intros Q. apply runs_before_lt_length with (d := 0); [|lia]. destruct t; [congruence|discriminate]. Qed.

Lemma table_follow q : q < pe -> exists L v,
  rv_limit rv (runs_before (t ++ pad) q) = Ok L /\ rv_value rv (runs_before (t ++ pad) q) = Ok v /\ q < L /\
  (forall x, x < pe -> q <= x < L -> lookup t x = Some v) /\
  (forall m, q < m -> m <= pe -> it_advance_loop (S (rv_count rv)) rv (runs_before (t ++ pad) q) m = Ok (runs_before (t ++ pad) m)) /\ In L (map fst t).
Proof.
  intros Q. pose proof (@table_index q ltac:(lia)) as HI. pose proof R as (RC & RL & RV).
  destruct (@vget_lt _ (map fst (t ++ pad)) (runs_before (t ++ pad) q)) as (L & GL & NL); [rewrite map_length; exact HI|].
  destruct (@vget_lt _ (map snd (t ++ pad)) (runs_before (t ++ pad) q)) as (v & GV & NV); [rewrite map_length; exact HI|].
  pose proof (@runs_before_lt_iff _ (t ++ pad) q Sorted _ L NL) as HL.
  exists L, v. rewrite RL, RV, GL, GV. split; [reflexivity|]. split; [reflexivity|]. split; [lia|]. split; [|split].
  - intros x X1 X2. rewrite <- (@lookup_app _ t pad 0 x NE ltac:(lia)), lookup_runs_before.
    replace (runs_before (t ++ pad) x) with (runs_before (t ++ pad) q); [exact NV|].
    pose proof (@runs_before_mono _ (t ++ pad) q x Sorted ltac:(lia)).
    pose proof (@runs_before_lt_iff _ (t ++ pad) x Sorted _ L NL). lia.
  - intros m M1 M2. apply (@padded_advance _ rv t pad R Pad Sorted).
    + pose proof (@table_index m M2) as HM. rewrite RC. rewrite app_length in HM. lia.
    + apply runs_before_mono; [exact Sorted|lia].
    + apply table_index. exact M2.
  - destruct (Nat.lt_ge_cases (runs_before (t ++ pad) q) (length t)) as [B|B].
    + rewrite map_app, nth_error_app1 in NL by (rewrite map_length; exact B). exact (nth_error_In _ _ NL).
    + exfalso. destruct (exists_last NE) as (t0 & z & ->). clear HI NL GL GV NV HL.
      assert (N : nth_error (map fst ((t0 ++ [z]) ++ pad)) (length t0) = Some (fst z)) by (rewrite <- app_assoc, map_app, nth_error_app2, map_length, Nat.sub_diag by (rewrite map_length; lia); reflexivity).
      pose proof (@runs_before_lt_iff _ _ q Sorted _ _ N) as HN. rewrite app_length in B. cbn in B.
      unfold final_limit in Cover. rewrite map_app in Cover. cbn [map] in Cover. rewrite last_last in Cover. lia.
Qed.
End Table.

Definition font_at (rv : runs_view Z) (t pad : table Z) (it : biter) (q : Z) : Prop := it = IFont rv (runs_before (t ++ pad) q).
Lemma font_follows rv t pad : reads rv t pad -> (length pad <= 1)%nat -> sorted (t ++ pad) -> t <> [] -> pe <= final_limit t 0 -> pe < final_limit (t ++ pad) 0 ->
  follows (font_at rv t pad) (fun v => exists f, v = VFont f) (fun x v => exists f, v = VFont f /\ lookup t x = Some f) (fun m => In m (map fst t)).
Proof.
  intros R P S NE C RO it q -> Q. destruct (@table_follow _ rv t pad R P S NE C RO q Q) as (L & v & A & B & D & E & F & G).
  exists L, (VFont v). cbn [b_limit b_value b_advance it_get_limit it_get_value]. unfold it_get_limit, it_get_value. rewrite A, B.
  split; [reflexivity|]. split; [reflexivity|]. split; [eauto|]. split; [exact D|]. split; [|split; [|auto]].
  - intros x X1 X2. exists v. split; [reflexivity|]. apply E; lia.
  - intros m M1 M2. unfold it_advance_to. rewrite (F m) by lia. exists (IFont rv (runs_before (t ++ pad) m)). split; reflexivity.
Qed.

(** An optional table of styles. *)
Definition style_at (o : option (runs_view bool)) (t pad : table bool) (count : Z) (it : biter) (q : Z) : Prop :=
  match o with
  | Some rv => it = IBool {| mi_runs := Some rv; mi_runIndex := Z.of_nat (runs_before (t ++ pad) q); mi_default := false |}
  | None => it = IBool {| mi_runs := None; mi_runIndex := count; mi_default := false |}
  end.
Definition style_table (o : option (runs_view bool)) (t : table bool) : option (table bool) := match o with Some _ => Some t | None => None end.
Lemma style_follows o t pad count : match o with Some rv => reads rv t pad /\ (length pad <= 1)%nat /\ sorted (t ++ pad) /\ t <> [] /\ pe <= final_limit t 0 /\ pe < final_limit (t ++ pad) 0 | None => pe <= count end ->
  follows (style_at o t pad count) (fun v => exists b, v = VBool b) (fun x v => exists b, v = VBool b /\ style_is (style_table o t) x b)
    (fun m => m = pe \/ (o <> None /\ In m (map fst t))).
Proof.
  destruct o as [rv|]; cbn [style_table style_is style_at].
  - intros (R & P & S & NE & C & RO) it q -> Q. destruct (@table_follow _ rv t pad R P S NE C RO q Q) as (L & v & A & B & D & E & F & G).
    exists L, (VBool v). cbn [b_limit b_value b_advance]. unfold mi_get_limit, mi_get_value, mi_advance_to. cbn [mi_runs mi_runIndex mi_default].
    rewrite Nat2Z.id, A, B. split; [reflexivity|]. split; [reflexivity|]. split; [eauto|]. split; [exact D|]. split; [|split; [|intros _; right; split; [discriminate|exact G]]].
    + intros x X1 X2. exists v. split; [reflexivity|]. apply E; lia.
    + intros m M1 M2. rewrite (F m) by lia. cbn [obind omap]. eexists. split; reflexivity.
  - intros C it q -> Q. exists count, (VBool false). cbn [b_limit b_value b_advance]. unfold mi_get_limit, mi_get_value, mi_advance_to. cbn [mi_runs mi_runIndex mi_default omap].
    split; [reflexivity|]. split; [reflexivity|]. split; [eauto|]. split; [lia|]. split; [|split; [|left; lia]].
    + intros x _ _. exists false. split; reflexivity.
    + intros m _ _. eexists. split; reflexivity.
Qed.

(** *** Levels *)
Lemma skip_level_spec v : forall rest i rest' i', skip_level v rest i = (rest', i') ->
  exists k, (k <= length rest)%nat /\ i' = i + Z.of_nat k /\ rest' = skipn k rest /\ (forall j, (j < k)%nat -> nth_error rest j = Some v) /\
  (forall x r, rest = x :: r -> x = v -> (0 < k)%nat) /\ (forall x r, rest' = x :: r -> x <> v).
Proof.
  induction rest as [|x rest IH]; intros i rest' i' H; cbn [skip_level] in H.
  - inversion H; subst. exists 0%nat. split; [lia|]. split; [lia|]. split; [reflexivity|]. split; [lia|]. split; intros; discriminate.
  - destruct (Z.eqb_spec x v) as [->|D].
    + destruct (IH _ _ _ H) as (k & A & B & C & E & _ & G). exists (S k). cbn [length skipn]. split; [lia|]. split; [lia|]. split; [exact C|]. split.
      * intros [|j] J; [reflexivity|]. cbn. apply E. lia.
      * split; [lia|exact G].
    + inversion H; subst. exists 0%nat. split; [lia|]. split; [lia|]. split; [reflexivity|]. split; [lia|]. split; [intros y r E1 E2; inversion E1; congruence|intros y r E1; inversion E1; congruence].
Qed.

Section Level.
Variable lv : list Z.
Hypothesis Len : Z.of_nat (length lv) = pe - ps.
Definition level_at (it : biter) (q : Z) : Prop :=
  exists l, it = ILevel l /\ ps < lv_limit l <= pe /\ lv_rest l = skipn (Z.to_nat (lv_limit l - ps)) lv /\
    (q < lv_limit l \/ q = pe) /\ (forall x, ps <= x -> q <= x < lv_limit l -> nth_error lv (Z.to_nat (x - ps)) = Some (lv_value l)) /\
    nth_error lv (Z.to_nat (lv_limit l - ps)) <> Some (lv_value l).
Definition level_edge (m : Z) : Prop := m = pe \/ (ps < m < pe /\ nth_error lv (Z.to_nat (m - 1 - ps)) <> nth_error lv (Z.to_nat (m - ps))).
Lemma level_follows : follows level_at (fun v => exists l, v = VLevel l) (fun x v => exists l, v = VLevel l /\ nth_error lv (Z.to_nat (x - ps)) = Some l) level_edge.
Proof.
  intros it q (l & -> & B1 & B2 & B3 & B4 & B5) Q. exists (lv_limit l), (VLevel (lv_value l)). cbn [b_limit b_value b_advance].
  split; [reflexivity|]. split; [reflexivity|]. split; [eauto|]. split; [lia|]. split; [|split].
  - intros x X1 X2. exists (lv_value l). split; [reflexivity|]. apply B4; lia.
  - intros m M1 M2. unfold lv_advance_to. destruct (lv_rest l) as [|v rest] eqn:E.
    + assert (lv_limit l = pe).
      { destruct (Z.eq_dec (lv_limit l) pe); [assumption|]. assert (X : length (skipn (Z.to_nat (lv_limit l - ps)) lv) = 0%nat) by (rewrite <- B2; reflexivity).
        rewrite skipn_length in X. lia. }
      cbn [length lv_advance_loop]. rewrite E. cbn [omap obind]. eexists. split; [reflexivity|]. exists l. split; [reflexivity|]. split; [exact B1|].
      split; [rewrite E; exact B2|]. split; [lia|]. split; [|exact B5]. intros x X1 X2. apply B4; lia.
    + cbn [length lv_advance_loop]. rewrite E. destruct (Z.leb_spec (lv_limit l) m) as [LE|GT].
      * destruct (skip_level v (v :: rest) (lv_limit l)) as [rest' i'] eqn:SK.
        destruct (skip_level_spec _ _ _ SK) as (k & K1 & K2 & K3 & K4 & K5 & K6). specialize (K5 v rest eq_refl eq_refl).
        assert (LN : length (v :: rest) = (length lv - Z.to_nat (lv_limit l - ps))%nat) by (rewrite B2, skipn_length; reflexivity).
        assert (G : i' <= pe) by lia.
        assert (NX : forall x, ps <= x -> m <= x < i' -> nth_error lv (Z.to_nat (x - ps)) = Some v).
        { intros x X1 X2. specialize (K4 (Z.to_nat (x - lv_limit l)) ltac:(lia)). rewrite B2, nth_error_skipn in K4. rewrite <- K4. f_equal. lia. }
        assert (RS : rest' = skipn (Z.to_nat (i' - ps)) lv) by (rewrite K3, B2, skipn_add; f_equal; lia).
        set (l' := {| lv_rest := rest'; lv_value := v; lv_limit := i' |}).
        assert (ST : lv_advance_loop (length rest) l' m = Ok l').
        { subst l'. destruct (length rest); cbn [lv_advance_loop lv_rest lv_limit]; destruct rest' as [|y ys]; try reflexivity; destruct (Z.leb_spec i' m); try lia; reflexivity. }
        rewrite ST. cbn [omap obind]. eexists. split; [reflexivity|]. exists l'. split; [reflexivity|]. cbn [lv_limit lv_rest lv_value l'].
        split; [lia|]. split; [exact RS|]. split; [lia|]. split; [exact NX|].
        rewrite <- (Nat.add_0_r (Z.to_nat (i' - ps))), <- nth_error_skipn, <- RS. destruct rest' as [|y ys]; [discriminate|]. intros YE. inversion YE. exact (K6 y ys eq_refl H0).
      * cbn [omap obind]. eexists. split; [reflexivity|]. exists l. split; [reflexivity|]. split; [exact B1|]. split; [rewrite E; exact B2|]. split; [lia|].
        split; [|exact B5]. intros x X1 X2. apply B4; lia.
  - intros _. destruct (Z.eq_dec (lv_limit l) pe) as [D|D]; [left; exact D|right]. split; [lia|]. rewrite B4 by lia. congruence.
Qed.
Lemma level_bounded : bounded level_at.
Proof. intros it q L (l & -> & B & _) H. cbn in H. inversion H. lia. Qed.
Lemma level_make : ps < pe -> exists it, lv_make lv ps = Ok it /\ forall q, q <= ps -> level_at (ILevel it) q.
Proof.
  intros LT. unfold lv_make. destruct lv as [|v rest] eqn:E; [cbn in Len; lia|]. cbn [vget nth_error obind].
  change (vget (v :: rest) 0) with (Ok v). cbn [obind].
  destruct (skip_level v (v :: rest) ps) as [rest' i'] eqn:SK. destruct (skip_level_spec _ _ _ SK) as (k & K1 & K2 & K3 & K4 & K5 & K6).
  specialize (K5 v rest eq_refl eq_refl). eexists. split; [reflexivity|]. intros q Q. eexists. split; [reflexivity|]. cbn [lv_limit lv_rest lv_value].
  split; [lia|]. rewrite E. assert (RS : rest' = skipn (Z.to_nat (i' - ps)) (v :: rest)) by (rewrite K3; f_equal; lia). split; [exact RS|]. split; [lia|]. split; [intros x X1 X2; apply K4; lia|].
  rewrite <- (Nat.add_0_r (Z.to_nat (i' - ps))), <- nth_error_skipn, <- RS. destruct rest' as [|y ys]; [discriminate|]. intros YE. inversion YE. exact (K6 y ys eq_refl H0).
Qed.
End Level.

(** *** Scripts *)
Section Script.
Variable items : list item.
Hypothesis Dec : decoded items.
Hypothesis Bytes : bytes items = pe - ps.
Hypothesis Pos : 0 <= ps < pe.

Definition remaining (s : siter) (L : list (Z * Z * Z)) : Prop := exists fuel, all_runs script fuel s = Ok L.
Lemma remaining_nil s : remaining s [] -> exists s', si_next script s = Ok (None, s') /\ remaining s' [].
Proof.
  intros ([|fuel] & H); [discriminate|]. cbn [all_runs] in H. destruct (si_next script s) as [[[r|] s']| |] eqn:E; cbn [obind] in H; try discriminate.
  - destruct (all_runs script fuel s'); cbn in H; discriminate.
  - exists s'. split; [reflexivity|]. unfold si_next in E. destruct (si_length s <=? si_limit s) eqn:C.
    + inversion E; subst. exists 1%nat. cbn [all_runs]. unfold si_next. rewrite C. reflexivity.
    + destruct (next_loop _ _ _ _ _) as [[]| |]; discriminate.
Qed.
Lemma remaining_cons s r L : remaining s (r :: L) -> exists s', si_next script s = Ok (Some r, s') /\ remaining s' L.
Proof.
  intros ([|fuel] & H); [discriminate|]. cbn [all_runs] in H. destruct (si_next script s) as [[[r'|] s']| |] eqn:E; cbn [obind] in H; try discriminate.
  destruct (all_runs script fuel s') eqn:E2; cbn in H; inversion H; subst. exists s'. split; [reflexivity|]. exists fuel. exact E2.
Qed.

(** Runs (start, limit, script) laid end to end. *)
Fixpoint laid (a b : Z) (L : list (Z * Z * Z)) : Prop :=
  match L with [] => a = b | (s, e, _) :: L' => s = a /\ s < e /\ laid e b L' end.
Lemma laid_le : forall L a b, laid a b L -> a <= b.
Proof. induction L as [|[[s e] c] L IH]; intros a b H; cbn in H; [lia|]. destruct H as (-> & H1 & H2). apply IH in H2. lia. Qed.
Lemma laid_out_laid : forall gs a, Forall (fun g => fst g <> []) gs -> decoded (concat (map fst gs)) -> laid a (a + bytes (concat (map fst gs))) (laid_out a gs).
Proof.
  induction gs as [|[g c] gs IH]; intros a N D; cbn [map concat laid_out laid fst] in *.
  - cbn. lia.
  - inversion N; subst. apply Forall_app in D. destruct D as [D1 D2]. split; [reflexivity|]. cbn [fst] in *.
    pose proof (bytes_pos D1 H1). split; [lia|].
    replace (a + bytes (g ++ concat (map fst gs))) with (a + bytes g + bytes (concat (map fst gs))); [apply IH; assumption|].
    assert (BA : bytes (g ++ concat (map fst gs)) = bytes g + bytes (concat (map fst gs))).
    { clear. induction g as [|x l IHl]; cbn; [reflexivity|]. unfold bytes in *. rewrite IHl. lia. }
    lia.
Qed.

Let runs := laid_out 0 (script_groups script items).
Lemma runs_laid : laid 0 (pe - ps) runs.
Proof.
  unfold runs. rewrite <- Bytes. pose proof (@laid_out_laid (script_groups script items) 0 (script_groups_nonempty script items)) as H.
  rewrite (script_groups_concat script items) in H. exact (H Dec).
Qed.

(** The current run is the one after [dn]; [rest] are still to come. *)
Definition script_at (it : biter) (q : Z) : Prop :=
  exists s dn c rest, it = IScript s /\ st_start s = ps /\ remaining (st_iter s) rest /\ runs = dn ++ (c, st_limit s, st_value s) :: rest /\
    (q < ps + st_limit s \/ q = pe) /\ (ps = 0 -> dn = [] \/ c <= q).
Definition script_value (x : Z) (v : bval) : Prop :=
  exists s, v = VScript s /\ (exists a b, In (a, b, s) runs) /\ (ps = 0 \/ length runs = 1%nat -> script_is script items ps x s).

Lemma laid_mid : forall dn a b c e v rest, laid a b (dn ++ (c, e, v) :: rest) -> a <= c /\ c < e /\ e <= b /\ laid e b rest /\ (dn = [] -> c = a).
Proof.
  induction dn as [|[[s1 e1] v1] dn IH]; intros a b c e v rest H; cbn [app laid] in H; destruct H as (-> & H1 & H2).
  - pose proof (@laid_le _ _ _ H2). split; [lia|]. split; [lia|]. split; [lia|]. split; [exact H2|]. intros; reflexivity.
  - destruct (IH e1 b c e v rest H2) as (A & B & C & D & _). split; [lia|]. split; [lia|]. split; [lia|]. split; [exact D|]. discriminate.
Qed.

Definition script_edge (m : Z) : Prop := exists a b scr, In (a, b, scr) runs /\ m = ps + b.
Lemma script_follows : follows script_at (fun v => exists s, v = VScript s) script_value script_edge.
Proof.
  intros it q (s & dn & c & rest & -> & B1 & B2 & B3 & B4 & B5) Q. pose proof runs_laid as RL. rewrite B3 in RL. destruct (@laid_mid _ _ _ _ _ _ _ RL) as (C1 & C2 & C3 & C4 & C5).
  exists (st_limit s + ps), (VScript (st_value s)). cbn [b_limit b_value b_advance]. rewrite B1.
  split; [reflexivity|]. split; [reflexivity|]. split; [eauto|]. split; [lia|]. split; [|split].
  - intros x X1 X2. exists (st_value s). split; [reflexivity|].
    assert (IN : In (c, st_limit s, st_value s) runs) by (rewrite B3; apply in_app_iff; right; left; reflexivity).
    split; [eauto|]. intros H. exists c, (st_limit s). split; [exact IN|]. split; [|lia].
    destruct H as [H|H].
    + destruct (B5 H) as [D|D]; [rewrite (C5 D); lia|lia].
    + rewrite B3, app_length in H. cbn in H. rewrite C5; [lia|]. destruct dn; [reflexivity|cbn in H; lia].
  - intros m M1 M2. unfold st_advance_to. destruct (Z.leb_spec (st_limit s) m) as [C|C].
    + destruct rest as [|[[a b] v] rest].
      * destruct (remaining_nil B2) as (s' & E & R'). rewrite E. cbn [obind omap]. eexists. split; [reflexivity|].
        cbn in C4. eexists _, dn, c, []. split; [reflexivity|]. cbn [st_start st_iter st_limit st_value].
        split; [exact B1|]. split; [exact R'|]. split; [exact B3|]. split; [lia|].
        intros H. destruct (B5 H); [left; assumption|right; lia].
      * destruct (remaining_cons B2) as (s' & E & R'). rewrite E. cbn [obind omap]. eexists. split; [reflexivity|].
        cbn in C4. destruct C4 as (-> & C41 & C42).
        eexists _, (dn ++ [(c, st_limit s, st_value s)]), (st_limit s), rest. split; [reflexivity|]. cbn [st_start st_iter st_limit st_value].
        split; [exact B1|]. split; [exact R'|]. split; [rewrite B3, <- app_assoc; reflexivity|]. split; [lia|]. intros H. right. lia.
    + cbn [obind omap]. eexists. split; [reflexivity|]. eexists s, dn, c, rest. split; [reflexivity|].
      split; [exact B1|]. split; [exact B2|]. split; [exact B3|]. split; [lia|].
      intros H. destruct (B5 H); [left; assumption|right; lia].
  - intros _. exists c, (st_limit s), (st_value s). split; [rewrite B3; apply in_elt|lia].
Qed.
Lemma script_make : exists s, st_make script items ps = Ok s /\ forall q, q <= ps -> script_at (IScript s) q.
Proof.
  pose proof runs_laid as RL.
  assert (RM : remaining (si_make items) runs) by (exists (S (length items)); exact (script_runs_ok script Dec)).
  unfold st_make. destruct runs as [|[[a b] v] rest] eqn:E; [cbn in RL; lia|].
  destruct (remaining_cons RM) as (s' & E2 & R'). rewrite E2. cbn [obind]. eexists. split; [reflexivity|]. intros q Q.
  cbn in RL. destruct RL as (RL1 & RL2 & RL3).
  eexists _, [], a, rest. split; [reflexivity|]. cbn [st_start st_iter st_limit st_value]. split; [reflexivity|]. split; [exact R'|].
  split; [exact E|]. split; [lia|]. left. reflexivity.
Qed.
End Script.
End Iterators.
