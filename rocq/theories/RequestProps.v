(** C89: what is asked of the shaper. *)
From Coq Require Import Lia Bool.
From Verif Require Import Base BaseFacts BuilderModel FontModel RequestModel RequestSpec RequestProofs.
Open Scope Z_scope.

Definition request_of script_tag language to_upper (b : hb_buffer) (q : run_request) : outcome (hb_buffer * list hb_feature) :=
  shape_request script_tag language to_upper b (rq_font q) (rq_paragraph q) (rq_offset q) (rq_count q) (rq_length q) (rq_script q) (rq_reversed q) (rq_vertical q).
(** A run of a paragraph of well-formed text of a size that fits. *)
Definition proper_run (to_upper : Z -> list (Z * Z) -> list (Z * Z)) (q : run_request) (before run after : list (Z * Z)) : Prop :=
  stands_in q before run after /\ well_formed before /\ well_formed run /\ well_formed after /\ well_formed (to_upper (rq_script q) run) /\
  bytes run < 2 ^ 31 /\ bytes (to_upper (rq_script q) run) < 2 ^ 31.

(** The font's own small capitals, lowered and raised letters are asked for exactly where they are wanted and not imitated, once each, for every
    character of the run, and nothing else is asked of the font. *)
Theorem C89_features : forall script_tag language to_upper b0 q before run after, proper_run to_upper q before run after ->
  exists b fs, request_of script_tag language to_upper b0 q = Ok (b, fs) /\
    (forall l, asks (tag_of l) fs (hf_items b) <-> wanted l (rq_font q) = true /\ imitated l (rq_font q) = false) /\
    NoDup (map ff_tag fs) /\ (forall f, In f fs -> Forall (applies f) (hf_items b) /\ ff_value f = 1 /\ exists l, ff_tag f = tag_of l).
Proof.
  intros script_tag language to_upper b0 q before run after (SI & WB & WR & WA & WU & LR & LU).
  assert (K : forall (b : hb_buffer) cs, hf_items b = numbered 0 cs -> well_formed cs -> bytes cs < 2 ^ 31 ->
    (forall l, asks (tag_of l) (features_of (rq_font q) (bytes cs)) (hf_items b) <-> wanted l (rq_font q) = true /\ imitated l (rq_font q) = false) /\
    NoDup (map ff_tag (features_of (rq_font q) (bytes cs))) /\
    (forall f, In f (features_of (rq_font q) (bytes cs)) -> Forall (applies f) (hf_items b) /\ ff_value f = 1 /\ exists l, ff_tag f = tag_of l)).
  { intros b cs EI WC LC. assert (A : forall f, In f (features_of (rq_font q) (bytes cs)) -> Forall (applies f) (hf_items b) /\ ff_value f = 1 /\ exists l, ff_tag f = tag_of l).
    { intros f I. destruct (features_all _ _ _ I) as (V & S & E & T). split; [|split; [exact V|exact T]]. rewrite EI. eapply Forall_impl; [|apply numbered_range, WC]. cbv beta. intros i R. unfold applies. rewrite V, S, E.
      pose proof (bytes_nonneg _ WC). unfold wrap32. rewrite Z.mod_small by lia. lia. }
    split; [|split; [apply features_nodup|exact A]]. intros l. rewrite <- features_tags with (count := bytes cs). unfold asks. split.
    - intros (f & I & T & _). exists f. auto.
    - intros (f & I & T). exists f. split; [exact I|]. split; [exact T|]. apply A, I. }
  unfold request_of. destruct (sf_syn_small (rq_font q)) eqn:SM.
  - do 2 eexists. split; [exact (ask_upper script_tag language to_upper b0 q before run after WB WR WU WA SI SM)|]. apply K; [reflexivity|exact WU|exact LU].
  - do 2 eexists. split; [exact (ask_plain script_tag language to_upper b0 q before run after WB WR WA SI SM)|]. apply K; [reflexivity|exact WR|exact LR].
Qed.
Print Assumptions C89_features.

(** With the fonts that are chosen for a text: each kind of letter that the text wants is provided in exactly one way, by the font or by
    imitation, and no kind that it does not want is provided. Lowered and raised letters are always imitated. *)
Theorem C89_one_way : forall loads covers combining lower r h w s size chars off limit script small sb sp font off',
  get_sub_font loads covers combining lower r h w s size chars off limit script small sb sp = Ok (font, off') ->
  let asked l := match l with SmallCapitals => small | Lowered => sb | Raised => sp end in
  (forall l, wanted l font = asked l /\ (imitated l font = true -> asked l = true)) /\
  (forall l, l <> SmallCapitals -> imitated l font = asked l) /\
  forall script_tag language to_upper b0 q before run after b fs, proper_run to_upper q before run after -> rq_font q = font -> request_of script_tag language to_upper b0 q = Ok (b, fs) ->
    forall l, if asked l then (asks (tag_of l) fs (hf_items b) <-> imitated l font = false) else ~ asks (tag_of l) fs (hf_items b) /\ imitated l font = false.
Proof.
  intros loads covers combining lower r h w s size chars off limit script small sb sp font off' G asked.
  assert (F : (forall l, wanted l font = asked l /\ (imitated l font = true -> asked l = true)) /\ (forall l, l <> SmallCapitals -> imitated l font = asked l)).
  { unfold get_sub_font in G.
    destruct (if small then let '(l, upper) := case_run combining lower None chars off limit in (l, negb upper) else (limit, false)) as [lim' syn] eqn:C.
    assert (SY : syn = true -> small = true) by (intros ->; destruct small; [reflexivity|congruence]).
    destruct (get_font_for_script r h w s script) as [base| |]; cbn [obind] in G; try discriminate.
    destruct (get_fam r h) as [fam| |]; cbn [obind] in G; try discriminate.
    destruct (first_face loads covers r base (fa_fallback fam) w s chars) as [[[f rest]|]| |]; cbn [obind] in G; try discriminate; injection G as <- <-;
    (split; [intros [| |]; split; cbn; auto|intros [| |]; cbn; auto; congruence]). }
  split; [apply F|]. split; [apply F|].
  intros script_tag language to_upper b0 q before run after b fs P EF R l.
  destruct (C89_features script_tag language to_upper b0 q before run after P) as (b' & fs' & R' & A & _). rewrite R in R'. injection R' as <- <-. specialize (A l). rewrite EF in A.
  destruct F as [F _]. destruct (F l) as [F1 F2]. rewrite F1 in A. destruct (asked l); [tauto|]. split; [rewrite A; intros [X _]; discriminate X|]. destruct (imitated l font); [discriminate (F2 eq_refl)|reflexivity].
Qed.
Print Assumptions C89_one_way.

(** The shaper is given the run's characters, each with its place in the run, and up to five characters of the paragraph on both sides, which decide
    the forms of joining letters. Missing: imitated small capitals, which are shaped without their surroundings. *)
Theorem C89_text_partial : forall script_tag language to_upper b0 q before run after, proper_run to_upper q before run after ->
  exists b fs, request_of script_tag language to_upper b0 q = Ok (b, fs) /\ hf_glyphs b = false /\
    (if imitated SmallCapitals (rq_font q) then holds (to_upper (rq_script q) run) (hf_items b)
     else holds run (hf_items b) /\ hf_pre b = firstn 5 (rev (map fst before)) /\ hf_post b = firstn 5 (map fst after)).
Proof.
  intros script_tag language to_upper b0 q before run after (SI & WB & WR & WA & WU & LR & LU). unfold request_of. cbn [imitated]. destruct (sf_syn_small (rq_font q)) eqn:SM.
  - do 2 eexists. split; [exact (ask_upper script_tag language to_upper b0 q before run after WB WR WU WA SI SM)|]. split; [reflexivity|]. apply numbered_holds.
  - do 2 eexists. split; [exact (ask_plain script_tag language to_upper b0 q before run after WB WR WA SI SM)|]. split; [reflexivity|]. split; [apply numbered_holds|]. split; reflexivity.
Qed.
Print Assumptions C89_text_partial.

(** It is told the direction of the text, its script and language, and whether the run starts or ends the paragraph. *)
Theorem C89_said : forall script_tag language to_upper b0 q before run after, proper_run to_upper q before run after ->
  exists b fs, request_of script_tag language to_upper b0 q = Ok (b, fs) /\
    (hf_bot b = true <-> before = []) /\ (hf_eot b = true <-> after = []) /\ hf_script b = script_tag (rq_script q) /\ hf_language b = language /\
    match hf_direction b with
    | DirLTR => rq_vertical q = false /\ rq_reversed q = false | DirRTL => rq_vertical q = false /\ rq_reversed q = true
    | DirTTB => rq_vertical q = true /\ rq_reversed q = false | DirBTT => rq_vertical q = true /\ rq_reversed q = true
    end.
Proof.
  intros script_tag language to_upper b0 q before run after (SI & WB & WR & WA & WU & LR & LU). unfold request_of.
  assert (D : match direction_of (rq_reversed q) (rq_vertical q) with
    | DirLTR => rq_vertical q = false /\ rq_reversed q = false | DirRTL => rq_vertical q = false /\ rq_reversed q = true
    | DirTTB => rq_vertical q = true /\ rq_reversed q = false | DirBTT => rq_vertical q = true /\ rq_reversed q = true end) by (destruct (rq_vertical q), (rq_reversed q); cbn; auto).
  destruct (sf_syn_small (rq_font q)) eqn:SM.
  - do 2 eexists. split; [exact (ask_upper script_tag language to_upper b0 q before run after WB WR WU WA SI SM)|]. cbn [hf_bot hf_eot hf_script hf_language hf_direction]. rewrite !Z.eqb_eq, !bytes_zero by assumption. repeat split; auto.
  - do 2 eexists. split; [exact (ask_plain script_tag language to_upper b0 q before run after WB WR WA SI SM)|]. cbn [hf_bot hf_eot hf_script hf_language hf_direction]. rewrite !Z.eqb_eq, !bytes_zero by assumption. repeat split; auto.
Qed.
Print Assumptions C89_said.

(** One buffer serves for all runs: each is shaped as if it were the only one, whatever the shaper left in the buffer. *)
Theorem C89_alone : forall script_tag language to_upper shape b0 qs,
  (forall q, In q qs -> exists before run after, proper_run to_upper q before run after) ->
  exists rs, shape_requests script_tag language to_upper shape b0 qs = Ok rs /\
    Forall2 (fun q r => forall b, request_of script_tag language to_upper b q = Ok r) qs rs.
Proof.
  intros script_tag language to_upper shape b0 qs P.
  assert (E : exists rs, shape_requests script_tag language to_upper shape b0 qs = Ok rs).
  { revert b0. induction qs as [|q qs IH]; intros b0; [eexists; reflexivity|]. destruct (P q (or_introl eq_refl)) as (before & run & after & PR).
    destruct (C89_features script_tag language to_upper b0 q before run after PR) as (b & fs & R & _). unfold request_of in R. cbn [shape_requests]. rewrite R. cbn [obind].
    destruct (IH (fun q' I => P q' (or_intror I)) (leave_glyphs (shape b fs))) as [rs E]. rewrite E. cbn [obind]. eexists. reflexivity. }
  destruct E as [rs E]. exists rs. split; [exact E|]. exact (requests_alone _ _ _ _ _ _ _ E).
Qed.
Print Assumptions C89_alone.

Definition face0 : face_handle := {| fh_handle := 0; fh_weight := 3; fh_style := 0 |}.
Definition small_font (syn : bool) : ssfont := {| sf_face := face0; sf_size := 16; sf_weight := 3; sf_style := 0; sf_sub := true; sf_super := false; sf_small := true; sf_syn_sub := true; sf_syn_super := false; sf_syn_small := syn |}.
(** "ab", sharp s, "c": the middle two. *)
Definition some_run (syn : bool) : run_request := RunRequest (small_font syn) [(97, 1); (98, 1); (223, 2); (99, 1)] 1 3 5 25 true false.
Definition sharp (_ : Z) (cs : list (Z * Z)) : list (Z * Z) := flat_map (fun c => if fst c =? 223 then [(83, 1); (83, 1)] else [(fst c - 32, 1)]) cs.
Example some_run_proper : forall syn, proper_run sharp (some_run syn) [(97, 1)] [(98, 1); (223, 2)] [(99, 1)].
Proof. intros syn. repeat split; try reflexivity; unfold well_formed; cbn; repeat constructor; cbn; lia. Qed.
Definition any_buffer : hb_buffer := HbBuffer 0 0 DirLTR true true [(1, 1)] [2] [3] true.
Example some_run_asked : request_of (fun s => s) 7 sharp any_buffer (some_run false) =
  Ok (HbBuffer 25 7 DirRTL false false [(98, 0); (223, 1)] [97] [99] false, [HbFeature SMCP 1 0 3]).
Proof. reflexivity. Qed.

(** Imitated small capitals are shaped without the characters around them: the shaper is told of no characters on either side although
    there are some, and that the text neither starts nor ends here, so letters that join or kern across the boundary are given the wrong forms. *)
Theorem C89_surroundings_refuted : exists script_tag language to_upper b0 q before run after b fs, proper_run to_upper q before run after /\ before <> [] /\ after <> [] /\
  request_of script_tag language to_upper b0 q = Ok (b, fs) /\ hf_pre b = [] /\ hf_post b = [].
Proof.
  exists (fun s => s), 7, sharp, any_buffer, (some_run true), [(97, 1)], [(98, 1); (223, 2)], [(99, 1)]. do 2 eexists. split; [apply some_run_proper|]. split; [discriminate|]. split; [discriminate|]. split; [reflexivity|]. split; reflexivity.
Qed.
Print Assumptions C89_surroundings_refuted.
