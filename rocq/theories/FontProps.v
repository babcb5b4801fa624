(** C38–C41, C58, C60: the font registry. *)
From Coq Require Import ZifyBool ZifyNat.
From Verif Require Import Base BaseFacts BuilderModel BuilderSpec FontModel FontSpec FontProofs FontHistProofs FontFallProofs FontCacheProofs.
Open Scope Z_scope.

(** ** C38: handles are stable *)
Theorem C38_stable : forall limit map_file ds r es ds' r' es', reached limit map_file ds r es -> registrations limit map_file r ds' = Ok (r', es') ->
  (forall n, get_family r n <> INVALID -> get_family r' n = get_family r n) /\
  (forall d w s, succeeded ds es d -> get_face_data_handle r' (get_family r (fy_name d)) w s = get_face_data_handle r (get_family r (fy_name d)) w s).
Proof. intros *. apply stable. Qed.
Print Assumptions C38_stable.

Theorem C38_already : forall limit map_file ds r es d d', reached limit map_file ds r es -> succeeded ds es d -> fy_name d' = fy_name d ->
  register_family limit map_file r d' = Ok (r, RAlready).
Proof. intros *. apply already. Qed.
Print Assumptions C38_already.

Theorem C38_already_only_if : forall limit map_file ds r es d r', reached limit map_file ds r es -> register_family limit map_file r d = Ok (r', RAlready) ->
  distinct (fy_name d :: family_names ds) <= 65536 -> r' = r /\ exists d0, succeeded ds es d0 /\ fy_name d0 = fy_name d.
Proof. intros *. apply already_only_if. Qed.
Print Assumptions C38_already_only_if.

(** Different families have different valid handles; unknown ones have none. *)
Theorem C38_distinct : forall limit map_file ds r es, reached limit map_file ds r es -> distinct (family_names ds) <= 65535 ->
  (forall n m, get_family r n <> INVALID -> get_family r n = get_family r m -> n = m) /\
  (forall d, succeeded ds es d -> get_family r (fy_name d) <> INVALID) /\
  (forall n, ~ In n (family_names ds) -> get_family r n = INVALID).
Proof.
  intros limit mf ds r es E C. split; [intros n m; eapply handles_distinct; eauto|]. split; [|intros n; eapply unknown_invalid; eauto].
  intros d S. destruct (succeeded_fam _ _ _ _ _ _ E S) as (f & L & _). eapply handle_valid; eauto.
Qed.
Print Assumptions C38_distinct.

(** Families and faces used in the examples. *)
Definition mf (k : nat) (u : name) : option Z := Some (Z.of_nat k).
Definition face (n : Z) (w s : Z) : face_desc := {| fd_name := [n]; fd_uri := [n; n]; fd_weight := w; fd_style := s |}.
Definition fam (n : Z) (scripts : list Z) (linked fallback : list name) (fs : list face_desc) : family_desc :=
  {| fy_name := [n]; fy_scripts := scripts; fy_linked := linked; fy_fallback := fallback; fy_faces := Some fs |}.
Definition history : list family_desc :=
  [fam 1 [2; 3] [[2]] [[3]] [face 10 3 0; face 11 6 0; face 12 6 0; face 13 3 1]; fam 2 [5] [] [] [face 20 8 1; face 21 0 0]; fam 3 [] [] [] [face 30 3 0; face 11 0 0];
   fam 1 [] [] [] [face 40 3 0]].
Definition result (ds : list family_desc) : registry * list reg_result := match registrations 10 mf rg_empty ds with Ok x => x | _ => (rg_empty, []) end.
Example C38_example : reached 10 mf history (fst (result history)) (snd (result history)) /\
  snd (result history) = [RNone; RNone; RNone; RAlready] /\
  map (get_family (fst (result history))) [[1]; [2]; [3]; [4]] = [0; 1; 2; INVALID] /\
  documented history (snd (result history)) /\ succeeded history (snd (result history)) (fam 2 [5] [] [] [face 20 8 1; face 21 0 0]).
Proof.
  split; [vm_compute; reflexivity|]. split; [vm_compute; reflexivity|]. split; [vm_compute; reflexivity|]. split.
  - split; [|vm_compute; discriminate]. intros d (i & D & _) F. do 4 (destruct i as [|i]; [vm_compute in D; inversion D; subst; discriminate|]). destruct i; discriminate D.
  - exists 1%nat. split; reflexivity.
Qed.

(** The documentation of [get_family] promises an invalid handle for a family that has
    not been initialised; one that was only mentioned has a valid handle. *)
Theorem C38_reserved_refuted : exists ds r es n, reached 10 mf ds r es /\ (forall d, succeeded ds es d -> fy_name d <> n) /\ get_family r n <> INVALID.
Proof.
  exists [fam 1 [] [[2]] [] [face 10 3 0]], (fst (result [fam 1 [] [[2]] [] [face 10 3 0]])), [RNone], [2]. split; [vm_compute; reflexivity|]. split; [|vm_compute; discriminate].
  intros d ([|i] & D & _); [cbn in D; inversion D; subst; discriminate|destruct i; discriminate D].
Qed.
Print Assumptions C38_reserved_refuted.

(** With more than 65536 names two families share a handle. *)
Definition many (k : nat) : list name := map (fun i => [Z.of_nat i]) (seq 0 k).
Lemma many_nodup k : NoDup (many k).
Proof. unfold many. apply FinFun.Injective_map_NoDup; [intros a b H; inversion H; lia|apply seq_NoDup]. Qed.
Theorem C38_wrap_refuted : exists ds r es n m, reached 10 mf ds r es /\ es = [RNone] /\ n <> m /\ get_family r n = get_family r m /\ get_family r n <> INVALID.
Proof.
  assert (exists k, Z.of_nat k = 65537) as (k & KV) by (exists (Z.to_nat 65537); apply Z2Nat.id; discriminate).
  assert (exists j, Z.of_nat j = 65536) as (j & JV) by (exists (Z.to_nat 65536); apply Z2Nat.id; discriminate).
  set (d := fam (-1) [] (many k) [] [face 10 3 0]).
  destruct (run_defined 10 mf [d] rg_empty (well_empty 10)) as ([r es] & E).
  { constructor; [|constructor]. intros fs F. inversion F; subst. repeat constructor; cbn; lia. }
  pose proof E as E0. cbn [registrations] in E. apply obind_ok_inv in E. destruct E as ([r1 e] & E1 & E). inversion E; subst r1 es; clear E.
  destruct (register_spec _ _ _ _ _ _ (well_empty 10) E1) as (W & _ & RD & _).
  assert (NOINIT : e <> RAlready /\ e <> RThrew /\ e <> RNoFaces).
  { clear - E1. unfold register_family in E1. destruct (get_or_add_family 10 rg_empty (fy_name d)) as [r1 h] eqn:EA.
    assert (G0 : get_fam r1 h = Ok (fa_empty 10)) by (unfold get_or_add_family in EA; cbn [lookup rg_empty rg_family_names] in EA; inversion EA; reflexivity).
    rewrite G0 in E1. cbn [obind fa_init fa_empty] in E1. change (fy_scripts d) with (@nil Z) in E1. cbv iota beta in E1. cbn [negb] in E1.
    destruct (add_families 10 _ (fy_linked d)) as [r3 l3]. destruct (add_families 10 r3 (fy_fallback d)) as [r4 l4]. apply obind_ok_inv in E1. destruct E1 as (f & _ & E1).
    change (fy_faces d) with (Some [face 10 3 0]) in E1. cbv iota in E1. apply obind_ok_inv in E1. destruct E1 as ([[r5 t] df] & _ & E1). inversion E1. repeat split; discriminate. }
  destruct NOINIT as (N1 & N2 & N3). inversion RD as [| | |h f fs hs _ _ _ _ _ _ _ LK _ _ X]; subst; try contradiction.
  assert (LEN : (k <= length (rg_family_names r))%nat).
  { replace k with (length (many k)) by (unfold many; rewrite map_length, seq_length; reflexivity). rewrite <- (map_length fst (rg_family_names r)).
    apply NoDup_incl_length; [apply many_nodup|]. change (fy_linked d) with (many k) in LK. intros x IN. clear - LK IN. induction LK; [destruct IN|]. destruct IN as [->|IN]; [|auto].
    apply lookup_in in H. apply (in_map fst) in H. exact H. }
  destruct (nth_error (rg_family_names r) 0) as [[n hn]|] eqn:A; [|apply nth_error_None in A; lia].
  destruct (nth_error (rg_family_names r) j) as [[m hm]|] eqn:B; [|apply nth_error_None in B; lia].
  destruct (@numbered_nth _ _ (rg_families r) 0%nat hn (wl_handles _ _ W)) as [_ HN]; [rewrite nth_error_map, A; reflexivity|].
  destruct (@numbered_nth _ _ (rg_families r) j hm (wl_handles _ _ W)) as [_ HM]; [rewrite nth_error_map, B; reflexivity|].
  assert (HM0 : hm = 0) by (rewrite HM; unfold u16; rewrite JV; reflexivity). assert (HN0 : hn = 0) by (rewrite HN; reflexivity).
  assert (LN : lookup n (rg_family_names r) = Some 0) by (rewrite <- HN0; apply in_lookup; [exact (wl_names _ _ W)|exact (nth_error_In _ _ A)]).
  assert (LM : lookup m (rg_family_names r) = Some 0) by (rewrite <- HM0; apply in_lookup; [exact (wl_names _ _ W)|exact (nth_error_In _ _ B)]).
  exists [d], r, [RNone], n, m. split; [exact E0|]. split; [reflexivity|]. split.
  - intros ->. pose proof (wl_names _ _ W) as ND. rewrite NoDup_nth_error in ND. assert (0%nat = j); [|lia]. apply ND; [rewrite map_length; lia|]. rewrite !nth_error_map, A, B. reflexivity.
  - unfold get_family. rewrite LN, LM. split; [reflexivity|discriminate].
Qed.
Print Assumptions C38_wrap_refuted.

(** ** C39: every weight and style is served *)
Theorem C39_serves : forall limit map_file ds r es d fs, reached limit map_file ds r es -> succeeded ds es d -> fy_faces d = Some fs -> fs <> [] ->
  distinct (map fd_name (faces_in ds es)) <= 65535 -> forall w s, 0 <= w < 9 -> 0 <= s < 2 ->
  exists d0 f, answers fs w s d0 /\ get_face_data_handle r (get_family r (fy_name d)) w s = Ok f /\ face_valid f = true /\
    (* the face of that name, as first described *)
    exists k d1, nth_error (firsts (faces_in ds es)) k = Some d1 /\ fd_name d1 = fd_name d0 /\
      f = {| fh_handle := Z.of_nat k; fh_weight := fd_weight d1; fh_style := fd_style d1 |} /\
      nth_error (rg_faces r) k = Some (fd_name d1, map_file k (fd_uri d1)).
Proof. intros. eapply serves; eauto. Qed.
Print Assumptions C39_serves.
Theorem C39_defined : forall limit map_file ds, Forall (fun d => forall fs, fy_faces d = Some fs -> descs_ok fs) ds -> exists r es, reached limit map_file ds r es.
Proof. intros limit map_file ds H. destruct (run_defined limit map_file ds rg_empty (well_empty limit) H) as ([r es] & E). exists r, es. exact E. Qed.
Print Assumptions C39_defined.
Example C39_example : let r := fst (result history) in
  (forall d fs, In d history -> fy_faces d = Some fs -> descs_ok fs) /\
  map (fun w => map (fun s => match get_face_data_handle r 0 w s with Ok f => fh_handle f | _ => -1 end) [0; 1]) [0; 3; 6] = [[0; 0]; [0; 3]; [2; 0]] /\
  (* a face shared with another family keeps its first weight *)
  get_face_data_handle r 2 0 0 = Ok {| fh_handle := 1; fh_weight := 6; fh_style := 0 |}.
Proof.
  cbv zeta. split; [|split; vm_compute; reflexivity]. intros d fs D F. repeat (destruct D as [<-|D]; [inversion F; subst; repeat constructor; cbn; lia|]). destruct D.
Qed.
(** A registration with an empty array of faces reports success. *)
Theorem C39_empty_faces_refuted : exists ds r es d f, reached 10 mf ds r es /\ succeeded ds es d /\ get_face_data_handle r (get_family r (fy_name d)) 3 0 = Ok f /\ face_valid f = false.
Proof.
  exists [fam 1 [] [] [] []], (fst (result [fam 1 [] [] [] []])), [RNone], (fam 1 [] [] [] []). eexists. split; [vm_compute; reflexivity|]. split; [exists O; split; reflexivity|]. split; vm_compute; reflexivity.
Qed.
Print Assumptions C39_empty_faces_refuted.

(** ** C58: failed registrations *)
Theorem C58_no_faces : forall limit map_file ds r es d r', reached limit map_file ds r es -> register_family limit map_file r d = Ok (r', RNoFaces) ->
  rg_faces r' = rg_faces r /\ rg_face_names r' = rg_face_names r /\
  get_fam r' (get_family r' (fy_name d)) = Ok (fa_empty limit) /\
  (forall i f, nth_error (rg_families r') i = Some f -> nth_error (rg_families r) i = Some f \/ f = fa_empty limit).
Proof. intros *. apply no_faces_case. Qed.
Print Assumptions C58_no_faces.
(** As long as no script code was out of range: what was not registered has no content,
    and what was registered has the scripts it asked for and no others. *)
Theorem C58_failed_partial : forall limit map_file ds r es, reached limit map_file ds r es -> ~ In RThrew es ->
  (forall n, distinct (family_names ds) <= 65535 -> get_family r n <> INVALID -> ~ (exists d, succeeded ds es d /\ fy_name d = n) -> get_fam r (get_family r n) = Ok (fa_empty limit)) /\
  (forall d c, succeeded ds es d -> 0 <= c < Z.of_nat limit ->
     exists f, get_fam r (get_family r (fy_name d)) = Ok f /\ zget (fa_scripts f) c = Ok (match fy_scripts d with [] => true | cs => existsb (Z.eqb c) cs end)).
Proof.
  intros limit map_file ds r es E NT. split.
  - intros n C V NS. unfold get_family in *. destruct (lookup n (rg_family_names r)) as [h|] eqn:K; [|congruence]. eapply clean_history; eauto.
  - intros d c S R. eapply scripts_exact; eauto.
Qed.
Print Assumptions C58_failed_partial.
Definition no_faces (n : Z) (linked : list name) : family_desc := {| fy_name := [n]; fy_scripts := [1]; fy_linked := linked; fy_fallback := []; fy_faces := None |}.
Example C58_example : let ds := [no_faces 1 [[2]]; fam 1 [4] [] [] [face 10 3 0]] in
  reached 10 mf ds (fst (result ds)) (snd (result ds)) /\ snd (result ds) = [RNoFaces; RNone] /\
  match get_fam (fst (result ds)) 0 with Ok f => fa_scripts f | _ => [] end = [false; false; false; false; true; false; false; false; false; false].
Proof. vm_compute. repeat split. Qed.
(** A script code out of range throws after the codes before it were stored: the family
    registered afterwards under that name has them too. *)
Theorem C58_threw_refuted : exists ds r es d c f, reached 10 mf ds r es /\ es = [RThrew; RNone] /\ succeeded ds es d /\ ~ In c (fy_scripts d) /\ fy_scripts d <> [] /\
  get_fam r (get_family r (fy_name d)) = Ok f /\ zget (fa_scripts f) c = Ok true.
Proof.
  pose (ds := [fam 1 [3; 99] [] [] [face 10 3 0]; fam 1 [4] [] [] [face 10 3 0]]). exists ds, (fst (result ds)), [RThrew; RNone], (fam 1 [4] [] [] [face 10 3 0]), 3. eexists.
  split; [vm_compute; reflexivity|]. split; [reflexivity|]. split; [exists 1%nat; split; reflexivity|]. split; [cbn; lia|]. split; [discriminate|]. split; vm_compute; reflexivity.
Qed.
Print Assumptions C58_threw_refuted.

(** ** C40: fallback *)
Section Fallback.
Context (limit : nat) (map_file : nat -> name -> option Z) (loads : Z -> bool) (covers : Z -> Z -> bool) (combining lower : Z -> bool).
Notation sub := (get_sub_font loads covers combining lower).

(** The call is defined, advances, and stays within the limit. *)
Theorem C40_advances : forall ds r es d w s size chars off lim script small sb sp,
  reached limit map_file ds r es -> documented ds es -> succeeded ds es d -> 0 <= w < 9 -> 0 <= s < 2 -> 0 <= script < Z.of_nat limit -> off < lim -> decoded chars (lim - off) ->
  exists font off', sub r (get_family r (fy_name d)) w s size chars off lim script small sb sp = Ok (font, off') /\ off < off' <= lim /\
    sf_size font = size /\ sf_weight font = w /\ sf_style font = s /\ sf_sub font = sb /\ sf_super font = sp /\ sf_small font = small.
Proof.
  intros ds r es d w s size chars off lim script small sb sp E [D1 D2] S Hw Hs Sc LT D. pose proof (usable_from _ _ loads covers combining lower _ _ _ E D2 D1) as U. destruct (succeeded_fam _ _ _ _ _ _ E S) as (fam & _ & G & I).
  destruct (sub_spec limit map_file loads covers combining lower r _ fam w s size chars off lim script small sb sp U G I Hw Hs Sc) as (g & base & font & off' & _ & _ & _ & EQ & _ & _ & F1 & F2 & F3 & F4 & F5 & F6 & _).
  exists font, off'. split; [exact EQ|]. split; [exact (sub_advances limit map_file loads covers combining lower r _ fam w s size chars off lim script small sb sp font off' U G I Hw Hs Sc LT D EQ)|]. auto 10.
Qed.
(** The face: that of the family serving the script, or of a fallback family.  The
    characters up to the new offset which some candidate draws are drawn. *)
Theorem C40_covered : forall ds r es d fam g base w s size chars off lim script small sb sp font off',
  reached limit map_file ds r es -> documented ds es -> succeeded ds es d -> 0 <= w < 9 -> 0 <= s < 2 -> 0 <= script < Z.of_nat limit -> decoded chars (lim - off) ->
  sub r (get_family r (fy_name d)) w s size chars off lim script small sb sp = Ok (font, off') ->
  get_fam r (get_family r (fy_name d)) = Ok fam -> serves_script r fam script g -> slot (fa_lookup g) w s = Ok base -> loads (fh_handle base) = true ->
  let candidates := base :: faces_of r (fa_fallback fam) w s in
  In (sf_face font) candidates /\
  forall i c, In (i, c) chars -> off + i < off' -> (exists f, In f candidates /\ draws loads covers f c) -> draws loads covers (sf_face font) c.
Proof.
  intros ds r es d fam g base w s size chars off lim script small sb sp font off' E [D1 D2] S Hw Hs Sc D EQ G SV SL LB. pose proof (usable_from _ _ loads covers combining lower _ _ _ E D2 D1) as U.
  destruct (succeeded_fam _ _ _ _ _ _ E S) as (fam1 & _ & G1 & I). assert (fam1 = fam) by congruence. subst fam1.
  exact (sub_covered limit map_file loads covers combining lower r _ fam w s size chars off lim script small sb sp font off' g base U G I Hw Hs Sc D EQ SV SL LB).
Qed.
(** Without small capitals, exactly: the first candidate that draws the first drawable
    character, for as long as it has the characters. *)
Theorem C40_choice : forall ds r es d fam g base w s size chars off lim script sb sp font off',
  reached limit map_file ds r es -> documented ds es -> succeeded ds es d -> 0 <= w < 9 -> 0 <= s < 2 -> 0 <= script < Z.of_nat limit ->
  sub r (get_family r (fy_name d)) w s size chars off lim script false sb sp = Ok (font, off') ->
  get_fam r (get_family r (fy_name d)) = Ok fam -> serves_script r fam script g -> slot (fa_lookup g) w s = Ok base -> loads (fh_handle base) = true ->
  let candidates := base :: faces_of r (fa_fallback fam) w s in
  let drawn c := exists f, In f candidates /\ draws loads covers f c in
  (exists pre i c post, chars = pre ++ (i, c) :: post /\ Forall (fun p => ~ drawn (snd p)) pre /\ first_of (fun x => draws loads covers x c) candidates (sf_face font) /\
     ((Forall (fun p => covers (fh_handle (sf_face font)) (snd p) = true) post /\ off' = lim) \/
      (exists a j y b, post = a ++ (j, y) :: b /\ Forall (fun p => covers (fh_handle (sf_face font)) (snd p) = true) a /\ covers (fh_handle (sf_face font)) y = false /\ off' = off + j))) \/
  (Forall (fun p => ~ drawn (snd p)) chars /\ sf_face font = base /\ off' = lim).
Proof.
  intros ds r es d fam g base w s size chars off lim script sb sp font off' E [D1 D2] S Hw Hs Sc EQ G SV SL LB. pose proof (usable_from _ _ loads covers combining lower _ _ _ E D2 D1) as U.
  destruct (succeeded_fam _ _ _ _ _ _ E S) as (fam1 & _ & G1 & I). assert (fam1 = fam) by congruence. subst fam1.
  destruct (sub_spec limit map_file loads covers combining lower r _ fam w s size chars off lim script false sb sp U G I Hw Hs Sc) as (g1 & base1 & font1 & off1 & SV1 & SL1 & _ & EQ1 & A & _).
  assert (g1 = g) by (eapply serves_unique; eauto). subst g1. assert (base1 = base) by congruence. subst base1. rewrite EQ in EQ1. inversion EQ1; subst font1 off1. cbv zeta in *. specialize (A LB).
  assert (ND : forall l, Forall (fun p : Z * Z => Forall (fun x => ~ draws loads covers x (snd p)) (candidates r base (fa_fallback fam) w s)) l ->
               Forall (fun p => ~ exists f, In f (base :: faces_of r (fa_fallback fam) w s) /\ draws loads covers f (snd p)) l).
  { intros l F. eapply Forall_impl; [|exact F]. cbv beta. intros p P (f & FI & FD). rewrite Forall_forall in P. exact (P f FI FD). }
  destruct A as [(pre & i & c & post & CE & NP & FO & X)|(NP & FB & OF)].
  - left. exists pre, i, c, post. split; [exact CE|]. split; [apply ND; exact NP|]. split; [exact FO|exact X].
  - right. split; [apply ND; exact NP|]. auto.
Qed.
(** Such a family and face exist. *)
Theorem C40_base : forall ds r es d w s script, reached limit map_file ds r es -> documented ds es -> succeeded ds es d -> 0 <= w < 9 -> 0 <= s < 2 -> 0 <= script < Z.of_nat limit ->
  exists fam g base, get_fam r (get_family r (fy_name d)) = Ok fam /\ serves_script r fam script g /\ slot (fa_lookup g) w s = Ok base /\ face_valid base = true /\
    (forall g', serves_script r fam script g' -> g' = g).
Proof.
  intros ds r es d w s script E [D1 D2] S Hw Hs Sc. pose proof (usable_from _ _ loads covers combining lower _ _ _ E D2 D1) as U. destruct (succeeded_fam _ _ _ _ _ _ E S) as (fam & _ & G & I).
  destruct (script_face_spec limit map_file loads covers combining lower r _ fam w s script U G I Hw Hs Sc) as (g & base & A & B & _ & C & _). exists fam, g, base. repeat (split; [assumption|]). intros g' A'. eapply serves_unique; eauto.
Qed.
(** Repeated calls tile the text. *)
Theorem C40_tiles : forall ds r es d w s size text off lim script small sb sp,
  reached limit map_file ds r es -> documented ds es -> succeeded ds es d -> 0 <= w < 9 -> 0 <= s < 2 -> 0 <= script < Z.of_nat limit -> off <= lim ->
  (forall a b, a < b -> decoded (text a b) (b - a)) ->
  exists segs, sub_fonts loads covers combining lower (S (Z.to_nat (lim - off))) r (get_family r (fy_name d)) w s size text off lim script small sb sp = Ok segs /\ tiled off segs lim /\
    Forall (fun x => let '(a, b, font) := x in sub r (get_family r (fy_name d)) w s size (text a lim) a lim script small sb sp = Ok (font, b)) segs.
Proof.
  intros ds r es d w s size text off lim script small sb sp E [D1 D2] S Hw Hs Sc LE T. pose proof (usable_from _ _ loads covers combining lower _ _ _ E D2 D1) as U. destruct (succeeded_fam _ _ _ _ _ _ E S) as (fam & _ & G & I).
  eapply tiles; eauto. lia.
Qed.
(** It meets what the layout builder is proved to need of it. *)
Theorem C40_builder : forall ds r es text (family : Z -> family_desc) (weight style size : Z -> Z),
  reached limit map_file ds r es -> documented ds es -> (forall a b, a < b -> decoded (text a b) (b - a)) ->
  (forall f, succeeded ds es (family f) /\ 0 <= weight f < 9 /\ 0 <= style f < 2) ->
  exists f, sub_font_ok f /\
    forall base a lim script small sb sp, 0 <= script < Z.of_nat limit -> a < lim ->
      sub r (get_family r (fy_name (family base))) (weight base) (style base) (size base) (text a lim) a lim script small sb sp = Ok (f base a lim script small sb sp).
Proof.
  intros ds r es text family weight style size E [D1 D2] T F. pose proof (usable_from _ _ loads covers combining lower _ _ _ E D2 D1) as U.
  exists (fun base a lim script small sb sp =>
    match (if (0 <=? script) && (script <? Z.of_nat limit) then sub r (get_family r (fy_name (family base))) (weight base) (style base) (size base) (text a lim) a lim script small sb sp else UB) with
    | Ok x => x
    | _ => ({| sf_face := no_face; sf_size := 0; sf_weight := 0; sf_style := 0; sf_sub := sb; sf_super := sp; sf_small := small; sf_syn_sub := sb; sf_syn_super := sp; sf_syn_small := false |}, lim)
    end). split.
  - intros base a lim script small sb sp LT. destruct ((0 <=? script) && (script <? Z.of_nat limit)) eqn:R; [|cbn; lia]. destruct (F base) as (S & Hw & Hs). destruct (succeeded_fam _ _ _ _ _ _ E S) as (fam & _ & G & I).
    destruct (contract limit loads covers combining lower text T r _ (weight base) (style base) script fam U G I Hw Hs ltac:(lia) (size base) a lim small sb sp LT) as (font & off' & EQ & B). rewrite EQ. exact B.
  - intros base a lim script small sb sp R LT. replace ((0 <=? script) && (script <? Z.of_nat limit)) with true by lia. destruct (F base) as (S & Hw & Hs). destruct (succeeded_fam _ _ _ _ _ _ E S) as (fam & _ & G & I).
    destruct (contract limit loads covers combining lower text T r _ (weight base) (style base) script fam U G I Hw Hs R (size base) a lim small sb sp LT) as (font & off' & EQ & _). rewrite EQ. reflexivity.
Qed.
End Fallback.
Print Assumptions C40_advances.
Print Assumptions C40_covered.
Print Assumptions C40_choice.
Print Assumptions C40_base.
Print Assumptions C40_tiles.
Print Assumptions C40_builder.

(** Faces 0 to 3 are those of family 1; face 4 of family 2; face 6 of family 3. *)
Definition ex_covers (f c : Z) : bool := match f with 0 => c <? 100 | 4 => c <? 150 | 6 => c <? 200 | _ => false end.
Definition ex_chars : list (Z * Z) := [(0, 300); (1, 97); (2, 98); (3, 160); (5, 99)].
Example C40_example : let r := fst (result history) in
  decoded ex_chars 6 /\
  omap (fun x => (fh_handle (sf_face (fst x)), snd x)) (get_sub_font (fun _ => true) ex_covers (fun _ => false) (fun _ => false) r 0 3 0 12 ex_chars 10 16 2 false false false) = Ok (0, 13) /\
  omap (fun x => (fh_handle (sf_face (fst x)), snd x)) (get_sub_font (fun _ => true) ex_covers (fun _ => false) (fun _ => false) r 0 3 0 12 [(0, 160); (2, 99)] 13 16 2 false false false) = Ok (6, 16) /\
  (* script 5 belongs to the linked family *)
  omap (fun x => (fh_handle (sf_face (fst x)), snd x)) (get_sub_font (fun _ => true) ex_covers (fun _ => false) (fun _ => false) r 0 3 0 12 ex_chars 10 16 5 false false false) = Ok (4, 13).
Proof.
  cbv zeta. split; [|repeat split; vm_compute; reflexivity]. unfold decoded, ex_chars. cbn. split; [reflexivity|]. exists 1. split; [lia|]. split; [reflexivity|]. exists 2. split; [lia|]. split; [reflexivity|]. exists 3. split; [lia|].
  split; [reflexivity|]. exists 5. split; [lia|]. split; [reflexivity|]. exists 6. split; [lia|reflexivity].
Qed.
(** If the face of the family itself does not load, the fallback families are not asked. *)
Theorem C40_base_unloadable_refuted : exists ds r es d f (loads : Z -> bool) covers c font off',
  reached 10 mf ds r es /\ documented ds es /\ succeeded ds es d /\
  get_sub_font loads covers (fun _ => false) (fun _ => false) r (get_family r (fy_name d)) 3 0 12 [(0, c)] 0 1 2 false false false = Ok (font, off') /\
  In f (faces_of r [2] 3 0) /\ match get_fam r (get_family r (fy_name d)) with Ok g => fa_fallback g | _ => [] end = [2] /\
  draws loads covers f c /\ ~ draws loads covers (sf_face font) c.
Proof.
  exists history, (fst (result history)), (snd (result history)), (fam 1 [2; 3] [[2]] [[3]] [face 10 3 0; face 11 6 0; face 12 6 0; face 13 3 1]), {| fh_handle := 6; fh_weight := 3; fh_style := 0 |}, (fun k => k =? 6), (fun _ _ => true), 97.
  eexists. eexists. split; [apply C38_example|]. split; [apply C38_example|]. split; [exists 0%nat; split; reflexivity|]. split; [vm_compute; reflexivity|]. split; [vm_compute; auto|]. split; [vm_compute; reflexivity|].
  split; [split; reflexivity|]. intros [A _]. vm_compute in A. discriminate.
Qed.
Print Assumptions C40_base_unloadable_refuted.
(** A fallback family that was registered without faces: the face array is read out of
    bounds. *)
Theorem C40_empty_fallback_refuted : exists ds r es d, reached 10 mf ds r es /\ succeeded ds es d /\
  get_sub_font (fun _ => true) (fun _ _ => false) (fun _ => false) (fun _ => false) r (get_family r (fy_name d)) 3 0 12 [(0, 97)] 0 1 2 false false false = UB.
Proof.
  pose (ds := [fam 1 [] [] [[2]] [face 10 3 0]; fam 2 [] [] [] []]). exists ds, (fst (result ds)), [RNone; RNone], (fam 1 [] [] [[2]] [face 10 3 0]).
  split; [vm_compute; reflexivity|]. split; [exists O; split; reflexivity|]. vm_compute. reflexivity.
Qed.
Print Assumptions C40_empty_fallback_refuted.

(** ** C60: small capitals *)
Theorem C60_case_run : forall combining lower chars off lim l upper, off < lim -> decoded chars (lim - off) -> case_run combining lower None chars off lim = (l, upper) ->
  off < l <= lim /\
  ((l = lim /\ one_case combining lower chars (negb upper)) \/
   (exists pre i c post, chars = pre ++ (i, c) :: post /\ l = off + i /\ one_case combining lower pre (negb upper) /\ combining c = false /\ lower c = upper)).
Proof.
  intros combining lower chars off lim l upper LT D E. pose proof (case_limit 0 mf (fun _ => true) (fun _ _ => true) combining lower chars off lim (lim - off) D ltac:(lia) ltac:(lia)) as C. rewrite E in C. split; [exact C|].
  pose proof (case_run_spec 0 mf (fun _ => true) (fun _ _ => true) combining lower off lim chars None 0 (lim - off) D ltac:(lia) ltac:(lia)) as S. rewrite E in S. destruct S as [_ [S|(pre & i & c & post & A & B & F & G & H & _)]]; [left; exact S|]. right. exists pre, i, c, post. auto.
Qed.
Print Assumptions C60_case_run.
(** A segment chosen for synthesised small capitals may hold upper case letters: the
    search for the end of the face does not stop at the end of the case run. *)
Theorem C60_mixed_refuted : exists ds r es d font off', reached 10 mf ds r es /\ documented ds es /\ succeeded ds es d /\
  get_sub_font (fun _ => true) (fun _ c => c <? 200) (fun _ => false) (fun c => 96 <? c) r (get_family r (fy_name d)) 3 0 12 [(0, 97); (1, 65); (2, 300)] 0 3 2 true false false = Ok (font, off') /\
  sf_syn_small font = true /\ off' = 2 /\ ~ one_case (fun _ => false) (fun c => 96 <? c) [(0, 97); (1, 65)] true.
Proof.
  exists history, (fst (result history)), (snd (result history)), (fam 2 [5] [] [] [face 20 8 1; face 21 0 0]). eexists. eexists. split; [apply C38_example|]. split; [apply C38_example|]. split; [apply C38_example|].
  split; [vm_compute; reflexivity|]. split; [reflexivity|]. split; [reflexivity|]. intros H. unfold one_case in H. inversion H as [|? ? _ H2]; subst. inversion H2 as [|? ? H3 _]; subst. specialize (H3 eq_refl). discriminate.
Qed.
Print Assumptions C60_mixed_refuted.

(** ** C41: font data at the requested size *)
Section Sizes.
Context (ft_advance : Z -> Z -> Z -> Z) (space_glyph : Z -> Z) (can_load : Z -> bool).
(** After any history of a thread: FreeType is set to the size asked for, and so is
    HarfBuzz unless this is the first request for the face. *)
Theorem C41_size_partial : forall os h size eff, eff <> 0 -> can_load h = true ->
  exists d, snd (cache_step ft_advance space_glyph can_load (cache_steps ft_advance space_glyph can_load [] os) (QGet h size eff)) = AData (Some d) /\
    dt_ft d = eff /\ (last_size os h None <> None -> dt_hb d = eff).
Proof. intros. apply served_size; assumption. Qed.
(** The advances are those of the size last asked for. *)
Theorem C41_advances : forall os h g eff, last_size os h None = Some eff -> eff <> 0 -> can_load h = true ->
  snd (cache_step ft_advance space_glyph can_load (cache_steps ft_advance space_glyph can_load [] os) (QAdvance h g)) = AAdvance (Some (ft_advance h eff g)).
Proof. intros. apply served_advance; assumption. Qed.
End Sizes.
Print Assumptions C41_size_partial.
Print Assumptions C41_advances.
Definition ex_adv (h n g : Z) : Z := n * 10 + g.
Definition ex_ops : list cache_op := [QGet 1 12 12; QAdvance 1 5; QGet 1 20 20; QAdvance 1 5; QGet 2 8 8; QGet 1 12 12].
Example C41_example : let c := cache_steps ex_adv (fun _ => 3) (fun _ => true) [] ex_ops in
  last_size ex_ops 1 None = Some 12 /\ snd (cache_step ex_adv (fun _ => 3) (fun _ => true) c (QAdvance 1 5)) = AAdvance (Some 125) /\
  snd (cache_step ex_adv (fun _ => 3) (fun _ => true) c (QGet 2 9 9)) = AData (Some {| dt_ft := 9; dt_hb := 9; dt_space := 83 |}).
Proof. vm_compute. repeat split. Qed.
(** The first request: HarfBuzz took its scale before the size was set. *)
Theorem C41_first_scale_refuted : exists h size eff d, eff <> 0 /\ snd (cache_step ex_adv (fun _ => 3) (fun _ => true) [] (QGet h size eff)) = AData (Some d) /\ dt_hb d <> eff.
Proof. exists 1, 12, 12. eexists. split; [discriminate|]. split; [reflexivity|]. discriminate. Qed.
Print Assumptions C41_first_scale_refuted.
(** An effective size of zero (size 1, subscript): the size of the first request stays. *)
Theorem C41_zero_size_refuted : exists os h d, snd (cache_step ex_adv (fun _ => 3) (fun _ => true) (cache_steps ex_adv (fun _ => 3) (fun _ => true) [] os) (QGet h 1 0)) = AData (Some d) /\ dt_ft d <> 0.
Proof. exists [QGet 1 12 12], 1. eexists. split; [reflexivity|]. discriminate. Qed.
Print Assumptions C41_zero_size_refuted.
(** The stored advance of the space stays that of the first request. *)
Theorem C41_space_refuted : exists os h size eff d, eff <> 0 /\
  snd (cache_step ex_adv (fun _ => 3) (fun _ => true) (cache_steps ex_adv (fun _ => 3) (fun _ => true) [] os) (QGet h size eff)) = AData (Some d) /\ dt_space d <> ex_adv h eff 3.
Proof. exists [QGet 1 12 12], 1, 20, 20. eexists. split; [discriminate|]. split; [reflexivity|]. discriminate. Qed.
Print Assumptions C41_space_refuted.
