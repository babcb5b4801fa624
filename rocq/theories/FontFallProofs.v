From Coq Require Import ZifyBool ZifyNat.
From Verif Require Import Base BaseFacts BuilderModel BuilderSpec FontModel FontSpec FontProofs FontHistProofs.
Open Scope Z_scope.

Section Fall.
Variables (limit : nat) (map_file : nat -> name -> option Z) (loads : Z -> bool) (covers : Z -> Z -> bool) (combining lower : Z -> bool).
Notation run := (registrations limit map_file).
Notation draws := (draws loads covers).
Notation try_load := (try_load loads).
Notation sub := (get_sub_font loads covers combining lower).

(** ** Registries in which every registered family has faces *)
Record usable (r : registry) : Prop := {
  us_well : well limit r;
  us_slots : forall h g w s, get_fam r h = Ok g -> fa_init g = true -> 0 <= w < 9 -> 0 <= s < 2 ->
    exists f, slot (fa_lookup g) w s = Ok f /\ face_valid f = true /\ 0 <= fh_handle f < Z.of_nat (length (rg_faces r))
}.
Lemma usable_from ds r es : run rg_empty ds = Ok (r, es) -> distinct (map fd_name (faces_in ds es)) <= 65535 ->
  (forall d, succeeded ds es d -> fy_faces d <> Some []) -> usable r.
Proof.
  intros E C NE. destruct (from_empty _ _ _ _ _ E) as (W & _). constructor; [exact W|]. intros h g w s G I Hw Hs. unfold get_fam in G. apply zget_ok in G. destruct G as [G0 G1].
  destruct (init_source _ _ _ _ _ _ _ _ (well_empty limit) E G1 I) as [(f0 & N0 & _)|(d & S & L)]; [destruct (Z.to_nat h); discriminate N0|]. rewrite Z2Nat.id in L by exact G0.
  destruct (registrations_at _ _ _ _ _ _ E S) as (r1 & r2 & W1 & W2 & R & _). destruct (register_spec _ _ _ _ _ _ W1 R) as (_ & _ & RD & _). inversion RD; subst.
  destruct (serves _ _ _ _ _ _ fs w s E S) as (d0 & f1 & _ & A & B & k & d1 & _ & _ & K3 & K4); auto. { intros ->. eapply NE; eauto. }
  unfold get_face_data_handle, get_family in A. rewrite L in A. rewrite (@nth_zget _ _ _ _ G0 G1 : get_fam r h = Ok g) in A. cbn [obind] in A. exists f1. split; [exact A|]. split; [exact B|].
  rewrite K3. cbn [fh_handle]. assert (k < length (rg_faces r))%nat by (apply nth_error_Some; congruence). lia.
Qed.
Lemma loadable r f : 0 <= fh_handle f < Z.of_nat (length (rg_faces r)) -> try_load r f = Ok (loads (fh_handle f)).
Proof. intros H. unfold FontModel.try_load. destruct (@zget_lt _ _ _ H) as (x & E & _). rewrite E. reflexivity. Qed.
Definition handles (r : registry) (hs : list Z) : Prop := Forall (fun h => 0 <= h < Z.of_nat (length (rg_families r))) hs.
Lemma fam_get r h : 0 <= h < Z.of_nat (length (rg_families r)) -> exists g, get_fam r h = Ok g.
Proof. intros H. destruct (@zget_lt _ _ _ H) as (g & E & _). eauto. Qed.
Lemma fam_facts r h g : well limit r -> get_fam r h = Ok g -> handles r (fa_linked g) /\ handles r (fa_fallback g) /\ length (fa_scripts g) = limit /\ shaped_table (fa_lookup g).
Proof.
  intros W G. unfold get_fam in G. apply zget_ok in G. destruct G as [_ G]. pose proof (wl_fams _ _ W) as F. rewrite Forall_forall in F. destruct (F _ (nth_error_In _ _ G)) as [A B C D _].
  apply Forall_app in C. unfold handles. tauto.
Qed.

(** ** Scripts *)
Lemma linked_face_spec r w s script : usable r -> 0 <= w < 9 -> 0 <= s < 2 -> 0 <= script < Z.of_nat limit -> forall hs, handles r hs ->
  exists gs, Forall2 (fun h x => get_fam r h = Ok x) hs gs /\
   ((exists g f, first_of (fun x => has_script x script) gs g /\ linked_face r hs w s script = Ok (Some f) /\ slot (fa_lookup g) w s = Ok f /\ fa_init g = true) \/
    (Forall (fun x => ~ has_script x script) gs /\ linked_face r hs w s script = Ok None)).
Proof.
  intros U Hw Hs Sc hs H. induction H as [|h hs Hh H IH]; cbn [linked_face].
  - exists []. split; [constructor|]. right. split; [constructor|reflexivity].
  - destruct IH as (gs & F & IH). destruct (fam_get _ _ Hh) as (g & G). exists (g :: gs). split; [constructor; assumption|]. rewrite G. cbn [obind].
    destruct (fa_init g) eqn:I.
    + destruct (fam_facts _ _ _ (us_well _ U) G) as (_ & _ & LS & _). destruct (@zget_lt _ (fa_scripts g) script) as (b & B & _); [lia|]. rewrite B. cbn [obind]. destruct b.
      * left. destruct (us_slots _ U _ _ w s G I Hw Hs) as (f & S & _). exists g, f. rewrite S. split; [|split; [reflexivity|split; [reflexivity|exact I]]].
        exists [], gs. split; [reflexivity|]. split; [split; assumption|constructor].
      * assert (NH : ~ has_script g script) by (intros [_ X]; congruence). destruct IH as [(g1 & f & (a & b & -> & P & Q) & IH1 & IH2 & IH3)|[IH1 IH2]].
        -- left. exists g1, f. split; [|auto]. exists (g :: a), b. split; [reflexivity|]. split; [exact P|constructor; assumption].
        -- right. split; [constructor; assumption|exact IH2].
    + cbn [obind]. assert (NH : ~ has_script g script) by (intros [X _]; congruence). destruct IH as [(g1 & f & (a & b & -> & P & Q) & IH1 & IH2 & IH3)|[IH1 IH2]].
      * left. exists g1, f. split; [|auto]. exists (g :: a), b. split; [reflexivity|]. split; [exact P|constructor; assumption].
      * right. split; [constructor; assumption|exact IH2].
Qed.
Lemma script_face_spec r h fam w s script : usable r -> get_fam r h = Ok fam -> fa_init fam = true -> 0 <= w < 9 -> 0 <= s < 2 -> 0 <= script < Z.of_nat limit ->
  exists g f, serves_script r fam script g /\ slot (fa_lookup g) w s = Ok f /\ get_font_for_script r h w s script = Ok f /\ face_valid f = true /\ 0 <= fh_handle f < Z.of_nat (length (rg_faces r)).
Proof.
  intros U G I Hw Hs Sc. unfold get_font_for_script. rewrite G. cbn [obind]. destruct (fam_facts _ _ _ (us_well _ U) G) as (HL & _ & LS & _).
  destruct (@zget_lt _ (fa_scripts fam) script) as (b & B & _); [lia|]. rewrite B. cbn [obind]. destruct (us_slots _ U _ _ w s G I Hw Hs) as (f & S & V & R). destruct b.
  - exists fam, f. split; [left; auto|]. auto.
  - destruct (linked_face_spec r w s script U Hw Hs Sc _ HL) as (gs & F & [(g & f1 & A1 & A2 & A3 & A4)|[A1 A2]]).
    + rewrite A2. cbn [obind]. exists g, f1. split; [right; split; [congruence|exists gs; auto]|]. split; [exact A3|]. split; [reflexivity|].
      destruct A1 as (a & b & -> & _). apply Forall2_app_inv_r in F. destruct F as (h1 & h2 & _ & F & _). inversion F; subst. destruct (us_slots _ U _ _ w s ltac:(eassumption) A4 Hw Hs) as (f2 & X & Y & Z). assert (f2 = f1) by congruence. subst. auto.
    + rewrite A2. cbn [obind]. exists fam, f. split; [right; split; [congruence|exists gs; auto]|]. auto.
Qed.

(** ** Faces for a character *)
Lemma fallback_spec r w s c : usable r -> 0 <= w < 9 -> 0 <= s < 2 -> forall hs, handles r hs ->
  (exists f, fallback_face loads covers r hs w s c = Ok (Some f) /\ first_of (fun x => draws x c) (faces_of r hs w s) f) \/
  (fallback_face loads covers r hs w s c = Ok None /\ Forall (fun x => ~ draws x c) (faces_of r hs w s)).
Proof.
  intros U Hw Hs hs H. induction H as [|h hs Hh H IH]; cbn [fallback_face faces_of flat_map].
  - right. split; [reflexivity|constructor].
  - destruct (fam_get _ _ Hh) as (g & G). rewrite G. cbn [obind]. destruct (fa_init g) eqn:I; cbn [negb]; [|exact IH].
    destruct (us_slots _ U _ _ w s G I Hw Hs) as (f & S & V & R). rewrite S. cbn [obind]. rewrite (loadable r f R). cbn [obind].
    destruct (loads (fh_handle f) && covers (fh_handle f) c) eqn:D.
    + left. exists f. split; [reflexivity|]. exists [], (faces_of r hs w s). split; [reflexivity|]. split; [unfold FontSpec.draws; lia|constructor].
    + assert (ND : ~ draws f c) by (unfold FontSpec.draws; lia). destruct IH as [(f1 & A & a & b & B & P & Q)|[A B]].
      * left. exists f1. split; [exact A|]. exists (f :: a), b. fold (faces_of r hs w s). rewrite B. split; [reflexivity|]. split; [exact P|constructor; assumption].
      * right. split; [exact A|]. constructor; assumption.
Qed.
Definition candidates r base hs w s := base :: faces_of r hs w s.
Lemma compatible_spec r base w s c hs : usable r -> 0 <= w < 9 -> 0 <= s < 2 -> handles r hs -> face_valid base = true -> 0 <= fh_handle base < Z.of_nat (length (rg_faces r)) ->
  (loads (fh_handle base) = true ->
    (exists f, find_compatible_font loads covers r base hs w s c = Ok (Some f) /\ first_of (fun x => draws x c) (candidates r base hs w s) f) \/
    (find_compatible_font loads covers r base hs w s c = Ok None /\ Forall (fun x => ~ draws x c) (candidates r base hs w s))) /\
  (loads (fh_handle base) = false -> find_compatible_font loads covers r base hs w s c = Ok None).
Proof.
  intros U Hw Hs H V R. unfold find_compatible_font. rewrite V. cbn [negb]. rewrite (loadable r base R). cbn [obind]. split; intros L; rewrite L; cbn [negb]; [|reflexivity].
  destruct (covers (fh_handle base) c) eqn:C.
  - left. exists base. split; [reflexivity|]. exists [], (faces_of r hs w s). split; [reflexivity|]. split; [split; assumption|constructor].
  - assert (ND : ~ draws base c) by (intros [_ X]; congruence). destruct (fallback_spec r w s c U Hw Hs hs H) as [(f & A & a & b & B & P & Q)|[A B]].
    + left. exists f. split; [exact A|]. exists (base :: a), b. unfold candidates. rewrite B. split; [reflexivity|]. split; [exact P|constructor; assumption].
    + right. split; [exact A|]. constructor; assumption.
Qed.
Lemma first_face_spec r base w s hs : usable r -> 0 <= w < 9 -> 0 <= s < 2 -> handles r hs -> face_valid base = true -> 0 <= fh_handle base < Z.of_nat (length (rg_faces r)) -> forall chars,
  (loads (fh_handle base) = true ->
    (exists pre i c post f, chars = pre ++ (i, c) :: post /\ first_face loads covers r base hs w s chars = Ok (Some (f, post)) /\
       first_of (fun x => draws x c) (candidates r base hs w s) f /\ Forall (fun p => Forall (fun x => ~ draws x (snd p)) (candidates r base hs w s)) pre) \/
    (first_face loads covers r base hs w s chars = Ok None /\ Forall (fun p => Forall (fun x => ~ draws x (snd p)) (candidates r base hs w s)) chars)) /\
  (loads (fh_handle base) = false -> first_face loads covers r base hs w s chars = Ok None).
Proof.
  intros U Hw Hs H V R chars. induction chars as [|[i c] chars [IH1 IH2]]; cbn [first_face].
  - split; [intros _; right; split; [reflexivity|constructor]|reflexivity].
  - destruct (compatible_spec r base w s c hs U Hw Hs H V R) as [C1 C2]. split; intros L.
    + destruct (C1 L) as [(f & F & FO)|[F NO]]; rewrite F; cbn [obind].
      * left. exists [], i, c, chars, f. split; [reflexivity|]. split; [reflexivity|]. split; [exact FO|constructor].
      * destruct (IH1 L) as [(pre & j & x & post & f & -> & A & B & D)|[A B]].
        -- left. exists ((i, c) :: pre), j, x, post, f. split; [reflexivity|]. split; [exact A|]. split; [exact B|constructor; assumption].
        -- right. split; [exact A|constructor; assumption].
    + rewrite (C2 L). cbn [obind]. exact (IH2 L).
Qed.
Lemma extend_spec f off lim : forall post, 
  (Forall (fun p => covers (fh_handle f) (snd p) = true) post /\ extend covers f off lim post = lim) \/
  (exists a j y b, post = a ++ (j, y) :: b /\ Forall (fun p => covers (fh_handle f) (snd p) = true) a /\ covers (fh_handle f) y = false /\ extend covers f off lim post = off + j).
Proof.
  induction post as [|[j y] post IH]; cbn [extend]; [left; split; [constructor|reflexivity]|]. destruct (covers (fh_handle f) y) eqn:C.
  - destruct IH as [[A B]|(a & k & z & b & -> & A & B & D)]; [left; split; [constructor; assumption|exact B]|]. right. exists ((j, y) :: a), k, z, b. split; [reflexivity|]. split; [constructor; assumption|auto].
  - right. exists [], j, y, post. split; [reflexivity|]. split; [constructor|auto].
Qed.

(** ** Indices *)
Lemma increasing_app : forall pre i c post a n, increasing_from a (pre ++ (i, c) :: post) n -> a <= i < n /\ (pre <> [] -> a < i) /\ Forall (fun p => a <= fst p < i) pre /\ increasing_from i ((i, c) :: post) n.
Proof.
  induction pre as [|[j y] pre IH]; intros i c post a n H; cbn [app increasing_from] in *.
  - destruct H as (-> & k & K & H). split; [lia|]. split; [congruence|]. split; [constructor|]. split; [reflexivity|]. exists k. auto.
  - destruct H as (-> & k & K & H). destruct (IH _ _ _ _ _ H) as (A & B & C & D). split; [lia|]. split; [intros _; lia|]. split; [|exact D].
    constructor; [cbn; lia|]. eapply Forall_impl; [|exact C]. cbv beta. intros; lia.
Qed.
Lemma increasing_tail i c post n : increasing_from i ((i, c) :: post) n -> Forall (fun p => i < fst p < n) post.
Proof.
  intros (_ & k & K & H). revert k K H. induction post as [|[j y] post IH]; intros k K H; constructor.
  - cbn. cbn [increasing_from] in H. destruct H as (-> & m & M & _). lia.
  - cbn [increasing_from] in H. destruct H as (-> & m & M & H). apply (IH m); [lia|exact H].
Qed.

(** ** Case runs *)
Lemma case_run_spec off lim : forall chars state a n, increasing_from a chars n -> 0 <= a -> off + n <= lim ->
  let '(l, upper) := case_run combining lower state chars off lim in
  (state <> None -> state = Some upper) /\
  ((l = lim /\ one_case combining lower chars (negb upper)) \/
   (exists pre i c post, chars = pre ++ (i, c) :: post /\ l = off + i /\ one_case combining lower pre (negb upper) /\ combining c = false /\ lower c = upper /\ (state = None -> pre <> []))).
Proof.
  induction chars as [|[i c] chars IH]; intros state a n H A L; cbn [case_run].
  - split; [destruct state; congruence|]. left. split; [reflexivity|constructor].
  - cbn [increasing_from] in H. destruct H as (-> & k & K & H). destruct (combining c) eqn:CB.
    + specialize (IH state k n H ltac:(lia) L). destruct (case_run combining lower state chars off lim) as [l upper]. destruct IH as [I1 [[I2 I3]|(pre & i & x & post & -> & I2 & I3 & I4 & I5 & I6)]].
      * split; [exact I1|]. left. split; [exact I2|]. constructor; [cbn; congruence|exact I3].
      * split; [exact I1|]. right. exists ((a, c) :: pre), i, x, post. split; [reflexivity|]. split; [exact I2|]. split; [constructor; [cbn; congruence|exact I3]|]. split; [exact I4|]. split; [exact I5|]. congruence.
    + cbv zeta. set (run0 := match state with Some b => b | None => negb (lower c) end). destruct (Bool.eqb run0 (negb (lower c))) eqn:EQ.
      * apply Bool.eqb_prop in EQ. specialize (IH (Some run0) k n H ltac:(lia) L). destruct (case_run combining lower (Some run0) chars off lim) as [l upper]. destruct IH as [I1 I2]. specialize (I1 ltac:(congruence)). assert (I1' : run0 = upper) by congruence.
        assert (LC : lower c = negb upper) by (rewrite <- I1', EQ, Bool.negb_involutive; reflexivity).
        split; [unfold run0 in I1'; destruct state; congruence|]. destruct I2 as [[I2 I3]|(pre & i & x & post & -> & I2 & I3 & I4 & I5 & I6)].
        -- left. split; [exact I2|]. constructor; [cbn; auto|exact I3].
        -- right. exists ((a, c) :: pre), i, x, post. split; [reflexivity|]. split; [exact I2|]. split; [constructor; [cbn; auto|exact I3]|]. split; [exact I4|]. split; [exact I5|]. congruence.
      * split; [unfold run0 in *; destruct state; [congruence|rewrite Bool.eqb_reflx in EQ; discriminate]|]. right. exists [], a, c, chars. split; [reflexivity|]. split; [reflexivity|]. split; [constructor|]. split; [exact CB|].
        split; [destruct run0, (lower c); cbn in EQ; congruence|]. intros ->. unfold run0 in EQ. rewrite Bool.eqb_reflx in EQ. discriminate.
Qed.
Lemma case_limit chars off lim n : increasing_from 0 chars n -> 0 < n -> off + n = lim -> off < fst (case_run combining lower None chars off lim) <= lim.
Proof.
  intros H N L. pose proof (case_run_spec off lim chars None 0 n H ltac:(lia) ltac:(lia)) as C. destruct (case_run combining lower None chars off lim) as [l u]. cbn [fst].
  destruct C as [_ [[-> _]|(pre & i & c & post & -> & -> & _ & _ & _ & NE)]]; [lia|]. specialize (NE eq_refl). destruct (increasing_app _ _ _ _ _ _ H) as (X & Y & _). specialize (Y NE). lia.
Qed.

(** ** The whole function *)
Definition casing (small : bool) chars off lim : Z := if small then fst (case_run combining lower None chars off lim) else lim.
Lemma sub_spec r h fam w s size chars off lim script small sb sp : usable r -> get_fam r h = Ok fam -> fa_init fam = true -> 0 <= w < 9 -> 0 <= s < 2 -> 0 <= script < Z.of_nat limit ->
  exists g base font off', serves_script r fam script g /\ slot (fa_lookup g) w s = Ok base /\ face_valid base = true /\ sub r h w s size chars off lim script small sb sp = Ok (font, off') /\
   let cands := candidates r base (fa_fallback fam) w s in
   (loads (fh_handle base) = true ->
     (exists pre i c post, chars = pre ++ (i, c) :: post /\ Forall (fun p => Forall (fun x => ~ draws x (snd p)) cands) pre /\ first_of (fun x => draws x c) cands (sf_face font) /\
        ((Forall (fun p => covers (fh_handle (sf_face font)) (snd p) = true) post /\ off' = casing small chars off lim) \/
         (exists a j y b, post = a ++ (j, y) :: b /\ Forall (fun p => covers (fh_handle (sf_face font)) (snd p) = true) a /\ covers (fh_handle (sf_face font)) y = false /\ off' = off + j))) \/
     (Forall (fun p => Forall (fun x => ~ draws x (snd p)) cands) chars /\ sf_face font = base /\ off' = casing small chars off lim)) /\
   (loads (fh_handle base) = false -> sf_face font = base /\ off' = casing small chars off lim) /\
   sf_size font = size /\ sf_weight font = w /\ sf_style font = s /\ sf_sub font = sb /\ sf_super font = sp /\ sf_small font = small /\ sf_syn_sub font = sb /\ sf_syn_super font = sp /\
   sf_syn_small font = (small && negb (snd (case_run combining lower None chars off lim)))%bool.
Proof.
  intros U G I Hw Hs Sc. destruct (script_face_spec r h fam w s script U G I Hw Hs Sc) as (g & base & SV & SL & GB & V & R). destruct (fam_facts _ _ _ (us_well _ U) G) as (_ & HF & _ & _).
  destruct (first_face_spec r base w s (fa_fallback fam) U Hw Hs HF V R chars) as [FF1 FF2]. unfold get_sub_font.
  set (cs := if small then let '(l, upper) := case_run combining lower None chars off lim in (l, negb upper) else (lim, false)).
  assert (CS : cs = (casing small chars off lim, (small && negb (snd (case_run combining lower None chars off lim)))%bool)).
  { unfold cs, casing. destruct small; [|reflexivity]. destruct (case_run combining lower None chars off lim); reflexivity. }
  rewrite CS. cbv iota beta. rewrite GB. cbn [obind]. rewrite G. cbn [obind]. destruct (loads (fh_handle base)) eqn:LB.
  - destruct (FF1 eq_refl) as [(pre & i & c & post & f & -> & F & FO & NP)|[F NP]]; rewrite F; cbn [obind]; exists g, base; eexists; eexists; (split; [exact SV|]); (split; [exact SL|]); (split; [exact V|]); (split; [reflexivity|]); cbn [sf_face sf_size sf_weight sf_style sf_sub sf_super sf_small sf_syn_sub sf_syn_super sf_syn_small]; cbv zeta.
    + split; [|split; [congruence|repeat split]]. intros _. left. exists pre, i, c, post. split; [reflexivity|]. split; [exact NP|]. split; [exact FO|]. apply extend_spec.
    + split; [|split; [congruence|repeat split]]. intros _. right. auto.
  - rewrite (FF2 eq_refl). cbn [obind]. exists g, base. eexists. eexists. split; [exact SV|]. split; [exact SL|]. split; [exact V|]. split; [reflexivity|]. cbv zeta. cbn.
    split; [congruence|]. repeat split.
Qed.
Lemma sub_advances r h fam w s size chars off lim script small sb sp font off' : usable r -> get_fam r h = Ok fam -> fa_init fam = true -> 0 <= w < 9 -> 0 <= s < 2 -> 0 <= script < Z.of_nat limit ->
  off < lim -> decoded chars (lim - off) -> sub r h w s size chars off lim script small sb sp = Ok (font, off') -> off < off' <= lim.
Proof.
  intros U G I Hw Hs Sc LT D E. destruct (sub_spec r h fam w s size chars off lim script small sb sp U G I Hw Hs Sc) as (g & base & font1 & off1 & _ & _ & _ & E1 & A & B & _).
  rewrite E in E1. inversion E1; subst font1 off1. clear E1. assert (CL : off < casing small chars off lim <= lim).
  { unfold casing. destruct small; [|lia]. apply case_limit with (lim - off); [exact D|lia|lia]. }
  cbv zeta in A. destruct (loads (fh_handle base)) eqn:L; [|destruct (B eq_refl) as [_ ->]; exact CL].
  destruct (A eq_refl) as [(pre & i & c & post & -> & _ & _ & [[_ ->]|(a & j & y & b & -> & _ & _ & ->)])|(_ & _ & ->)]; try exact CL.
  unfold decoded in D.
  replace (pre ++ (i, c) :: a ++ (j, y) :: b) with ((pre ++ (i, c) :: a) ++ (j, y) :: b) in D by (rewrite <- app_assoc; reflexivity).
  destruct (increasing_app _ _ _ _ _ _ D) as (X & Y & _). assert (0 < j) by (apply Y; destruct pre; discriminate). lia.
Qed.
Lemma first_of_unique {A} (P : A -> Prop) l x y : first_of P l x -> first_of P l y -> x = y.
Proof.
  intros (a & b & -> & PX & NA) (a' & b' & E & PY & NA'). revert a' E NA'. induction a as [|u a IH]; intros [|v a'] E NA'; cbn [app] in E; inversion E; subst.
  - reflexivity.
  - inversion NA'; subst. contradiction.
  - inversion NA; subst. contradiction.
  - inversion NA; inversion NA'; subst. eapply IH; eauto.
Qed.
Lemma serves_unique r fam script g g' : serves_script r fam script g -> serves_script r fam script g' -> g = g'.
Proof.
  intros [[A1 ->]|(A1 & gs & F & A2)] [[B1 ->]|(B1 & gs' & F' & B2)]; try congruence.
  assert (gs = gs'). { clear - F F'. revert gs' F'. induction F; intros gs' F'; inversion F'; subst; [reflexivity|]. f_equal; [congruence|auto]. }
  subst gs'. destruct A2 as [A2|[A2 ->]], B2 as [B2|[B2 ->]]; auto.
  - eapply first_of_unique; eauto.
  - destruct A2 as (a & b & -> & P & _). rewrite Forall_forall in B2. exfalso. eapply B2; [|exact P]. apply in_app_iff. right. left. reflexivity.
  - destruct B2 as (a & b & -> & P & _). rewrite Forall_forall in A2. exfalso. eapply A2; [|exact P]. apply in_app_iff. right. left. reflexivity.
Qed.
Lemma sub_covered r h fam w s size chars off lim script small sb sp font off' g base : usable r -> get_fam r h = Ok fam -> fa_init fam = true -> 0 <= w < 9 -> 0 <= s < 2 -> 0 <= script < Z.of_nat limit ->
  decoded chars (lim - off) -> sub r h w s size chars off lim script small sb sp = Ok (font, off') ->
  serves_script r fam script g -> slot (fa_lookup g) w s = Ok base -> loads (fh_handle base) = true ->
  In (sf_face font) (candidates r base (fa_fallback fam) w s) /\
  forall i c, In (i, c) chars -> off + i < off' -> (exists f, In f (candidates r base (fa_fallback fam) w s) /\ draws f c) -> draws (sf_face font) c.
Proof.
  intros U G I Hw Hs Sc D E SV SL LB. destruct (sub_spec r h fam w s size chars off lim script small sb sp U G I Hw Hs Sc) as (g1 & base1 & font1 & off1 & SV1 & SL1 & _ & E1 & A & _).
  assert (g1 = g) by (eapply serves_unique; eauto). subst g1. assert (base1 = base) by congruence. subst base1. rewrite E in E1. inversion E1; subst font1 off1. clear E1. cbv zeta in A. specialize (A LB).
  destruct A as [(pre & i0 & c0 & post & -> & NP & FO & X)|(NP & FB & _)].
  - destruct FO as (ca & cb & CE & [P1 P2] & _). split; [rewrite CE; apply in_app_iff; right; left; reflexivity|]. intros i c IN LT (f & FI & FD). split; [exact P1|].
    assert (DEC : In (i, c) pre \/ (i, c) = (i0, c0) \/ In (i, c) post) by (apply in_app_iff in IN; cbn in IN; intuition congruence). destruct DEC as [IP|[IE|IP]].
    + exfalso. rewrite Forall_forall in NP. specialize (NP _ IP). rewrite Forall_forall in NP. exact (NP f FI FD).
    + inversion IE; subst. exact P2.
    + destruct X as [[X _]|(a & j & y & b & -> & X & _ & ->)]; [rewrite Forall_forall in X; exact (X _ IP)|].
      apply in_app_iff in IP. destruct IP as [IP|IP]; [rewrite Forall_forall in X; exact (X _ IP)|]. exfalso. unfold decoded in D.
      replace (pre ++ (i0, c0) :: a ++ (j, y) :: b) with ((pre ++ (i0, c0) :: a) ++ (j, y) :: b) in D by (rewrite <- app_assoc; reflexivity).
      destruct (increasing_app _ _ _ _ _ _ D) as (_ & _ & _ & T). destruct IP as [IP|IP]; [inversion IP; lia|]. apply increasing_tail in T. rewrite Forall_forall in T. specialize (T _ IP). cbn in T. lia.
  - split; [rewrite FB; left; reflexivity|]. intros i c IN _ (f & FI & FD). exfalso. rewrite Forall_forall in NP. specialize (NP _ IN). rewrite Forall_forall in NP. exact (NP f FI FD).
Qed.
End Fall.

(** ** Repeated calls *)
Section Tile.
Variables (limit : nat) (loads : Z -> bool) (covers : Z -> Z -> bool) (combining lower : Z -> bool).
(** The decoded text between two offsets. *)
Variable text : Z -> Z -> list (Z * Z).
Hypothesis Text : forall a b, a < b -> decoded (text a b) (b - a).
Variables (r : registry) (h w s script : Z) (fam : family).
Hypotheses (U : usable limit r) (G : get_fam r h = Ok fam) (I : fa_init fam = true) (Hw : 0 <= w < 9) (Hs : 0 <= s < 2) (Sc : 0 <= script < Z.of_nat limit).
Notation sub := (get_sub_font loads covers combining lower r h w s).

Lemma contract size a lim sc sb sp : a < lim -> exists font off', sub size (text a lim) a lim script sc sb sp = Ok (font, off') /\ a < off' <= lim.
Proof.
  intros LT. destruct (sub_spec limit (fun _ _ => None) loads covers combining lower r h fam w s size (text a lim) a lim script sc sb sp U G I Hw Hs Sc) as (_ & _ & font & off' & _ & _ & _ & E & _).
  exists font, off'. split; [exact E|]. eapply sub_advances; eauto. exact (fun _ _ => None).
Qed.
Lemma tiles size lim sc sb sp : forall fuel off, off <= lim -> lim - off < Z.of_nat fuel ->
  exists segs, sub_fonts loads covers combining lower fuel r h w s size text off lim script sc sb sp = Ok segs /\ tiled off segs lim /\
    Forall (fun x => let '(a, b, font) := x in sub size (text a lim) a lim script sc sb sp = Ok (font, b)) segs.
Proof.
  induction fuel as [|fuel IH]; intros off LE F; [lia|]. cbn [sub_fonts]. destruct (Z.ltb_spec off lim) as [LT|GE].
  - destruct (contract size off lim sc sb sp LT) as (font & off' & E & LO). rewrite E. cbn [obind]. destruct (IH off') as (segs & E2 & T & A); [lia|lia|]. rewrite E2. cbn [obind].
    exists ((off, off', font) :: segs). split; [reflexivity|]. split; [cbn; auto with zarith|constructor; assumption].
  - exists []. split; [reflexivity|]. split; [cbn; lia|constructor].
Qed.
End Tile.
