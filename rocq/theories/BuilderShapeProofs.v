(** Shaping the segments of a paragraph gives its glyphs and its runs. *)
From Coq Require Import Permutation ZifyBool ZifyNat.
From Verif Require Import Base BaseFacts ValueRunsModel ValueRunsSpec ValueRunsProofs ScriptRunModel ScriptRunSpec ScriptRunProofs.
From Verif Require Import LayoutModel LayoutSpec LayoutProofs BuilderModel BuilderSpec BuilderVisualProofs BuilderBreakProofs BuilderTileProofs BuilderItemProofs.
Open Scope Z_scope.
Set Implicit Arguments.

Lemma nondecreasing_join l1 : forall l2, nondecreasing l1 -> nondecreasing l2 -> (forall a b, In a l1 -> In b l2 -> a <= b) -> nondecreasing (l1 ++ l2).
Proof.
  induction l1 as [|a l1 IH]; intros l2 N1 N2 H; [exact N2|]. destruct (nondecreasing_cons _ _ N1) as [_ N1'].
  specialize (IH l2 N1' N2 ltac:(intros; apply H; [right|]; assumption)).
  cbn [app]. destruct (l1 ++ l2) as [|b l] eqn:E; [exact Logic.I|]. split; [|exact IH].
  destruct l1 as [|b' l1]; cbn in E.
  - apply H; [left; reflexivity|]. rewrite E. left. reflexivity.
  - inversion E; subst. cbn in N1. tauto.
Qed.
Lemma increasing_snoc l : forall a x, increasing (a :: l) -> last l a < x -> increasing (a :: l ++ [x]).
Proof.
  induction l as [|b l IH]; intros a x I L.
  - cbn in *. tauto.
  - cbn [app]. destruct I as [I1 I2]. split; [exact I1|]. apply IH; [exact I2|]. destruct l; [exact L|].
    destruct (exists_last (l := z :: l) ltac:(discriminate)) as (l' & y & E). rewrite E in *.
    rewrite last_last. change (b :: l' ++ [y]) with ((b :: l') ++ [y]) in L. rewrite last_last in L. exact L.
Qed.
Lemma nondecreasing_shift k : forall l, nondecreasing l -> nondecreasing (map (fun c => c + k) l).
Proof.
  induction l as [|a [|b l] IH]; intros H; [exact Logic.I|exact Logic.I|]. destruct H as [H1 H2]. split; [lia|]. exact (IH H2).
Qed.
Lemma count_below_app c g1 g2 : count_below c (g1 ++ g2) = (count_below c g1 + count_below c g2)%nat.
Proof. unfold count_below. rewrite filter_app, app_length. reflexivity. Qed.

Section Shape.
Variables (info : ssfont -> font_info) (text : list Z) (hb_shape : ssfont -> Z -> bool -> Z -> Z -> list hb_glyph) (vertical : bool).
Variable sub_font : Z -> Z -> Z -> Z -> bool -> bool -> bool -> ssfont * Z.
Hypothesis ShaperOk : shaper_ok hb_shape.
Hypothesis SubOk : sub_font_ok sub_font.
Notation sglyphs := (shaped_glyphs info text vertical).
Notation segg := (segment_glyphs info text hb_shape vertical).
Notation segsg := (segments_glyphs info text hb_shape vertical).
Notation after := (across_after hb_shape vertical).
Notation paraof := (para_of info text hb_shape vertical).

Lemma hb_pass_spec font start : forall l cursor, Forall (fun g => 0 <= start + hb_cluster g < Z.of_nat (length text)) l ->
  exists gs, let L := sglyphs font start cursor l in
  hb_pass info text vertical font start cursor l = Ok (gs, map lg_sec L, fold_left (fun c g => c + sec_adv vertical g) l cursor) /\
  map hb_id gs = map lg_id L /\ map (fun g => hb_cluster g + start) gs = map lg_char L /\ hb_widths vertical gs = map lg_width L /\
  next_off vertical gs = next_off vertical l.
Proof.
  induction l as [|g l IH]; intros cursor F.
  - exists []. repeat split; reflexivity.
  - inversion F as [|? ? Hg F']; subst. destruct (IH (cursor + sec_adv vertical g) F') as (gs & A & B & C & D & E).
    destruct (@zget_in _ text (start + hb_cluster g) Hg) as (b & Z0). cbn [hb_pass]. rewrite Z0. cbn [obind]. rewrite A. cbn [obind].
    eexists. split; [reflexivity|]. cbn [shaped_glyphs map fold_left].
    assert (T : is_tab text (start + hb_cluster g) = (b =? TAB)) by (unfold is_tab; rewrite Z0; reflexivity).
    rewrite T. destruct (b =? TAB); cbn [hb_id hb_cluster lg_id lg_char lg_width lg_sec hb_widths andb].
    + split; [rewrite B; reflexivity|]. split; [rewrite C; reflexivity|]. split; [|reflexivity].
      rewrite D. f_equal. change (match gs with [] => 0 | h :: _ => prim_off vertical h end) with (next_off vertical gs). rewrite E.
      unfold along, off_along, prim_adv, prim_off. destruct vertical; cbn [negb hb_yadv hb_xadv hb_xoff hb_yoff]; lia.
    + split; [rewrite B; reflexivity|]. split; [rewrite C; reflexivity|]. split; [|reflexivity].
      rewrite D. f_equal. change (match gs with [] => 0 | h :: _ => prim_off vertical h end) with (next_off vertical gs). rewrite E.
      unfold along, off_along, prim_adv, prim_off. destruct vertical; lia.
Qed.

Lemma sglyphs_chars font start : forall l cursor, map lg_char (sglyphs font start cursor l) = map (fun g => hb_cluster g + start) l.
Proof. induction l as [|g l IH]; intros cursor; cbn [shaped_glyphs map lg_char]; [reflexivity|]. rewrite IH. reflexivity. Qed.

Lemma segg_chars across s : se_start s < se_end s ->
  nondecreasing (map lg_char (segg across s)) /\ Forall (fun g => se_start s <= lg_char g < se_end s) (segg across s).
Proof.
  intros L. destruct (@ShaperOk (se_font s) (se_script s) (Z.odd (se_level s)) (se_start s) (se_end s - se_start s) ltac:(lia)) as [B N].
  fold (hb_of hb_shape s) in B, N. split.
  - unfold segment_glyphs. assert (E : map lg_char (if Z.odd (se_level s) then rev (sglyphs (se_font s) (se_start s) across (hb_of hb_shape s)) else sglyphs (se_font s) (se_start s) across (hb_of hb_shape s))
      = map (fun c => c + se_start s) (map hb_cluster (if Z.odd (se_level s) then rev (hb_of hb_shape s) else hb_of hb_shape s))).
    { rewrite map_map. destruct (Z.odd (se_level s)); [rewrite !map_rev|]; rewrite sglyphs_chars; reflexivity. }
    rewrite E. apply nondecreasing_shift. exact N.
  - assert (F : Forall (fun g => se_start s <= lg_char g < se_end s) (sglyphs (se_font s) (se_start s) across (hb_of hb_shape s))).
    { apply Forall_forall. intros g G. apply (in_map lg_char) in G. rewrite sglyphs_chars in G. apply in_map_iff in G. destruct G as (h & <- & H).
      rewrite Forall_forall in B. specialize (B h H). lia. }
    unfold segment_glyphs. destruct (Z.odd (se_level s)); [|exact F]. apply Forall_rev. exact F.
Qed.

Lemma segsg_app : forall s1 s2 c, segsg c (s1 ++ s2) = segsg c s1 ++ segsg (fold_left after s1 c) s2.
Proof. induction s1 as [|s s1 IH]; intros s2 c; [reflexivity|]. cbn [app segments_glyphs fold_left]. rewrite IH, app_assoc. reflexivity. Qed.

Lemma merge_from_snoc x : forall ss f e, exists pre f' e', merge_from f e ss = pre ++ [(f', e')] /\
  e' = last (map se_end ss) e /\
  merge_from f e (ss ++ [x]) = pre ++ (if same_font f' (se_font x) then [(f', se_end x)] else [(f', e'); (se_font x, se_end x)]).
Proof.
  induction ss as [|s ss IH]; intros f e.
  - exists [], f, e. cbn. split; [reflexivity|]. split; [reflexivity|]. destruct (same_font f (se_font x)); reflexivity.
  - assert (LA : forall d, last (map se_end (s :: ss)) d = last (map se_end ss) (se_end s)).
    { intros d. clear. cbn [map]. destruct ss as [|z ss] using rev_ind; [reflexivity|]. rewrite map_app. cbn [map]. rewrite last_last.
      change (se_end s :: map se_end ss ++ [se_end z]) with ((se_end s :: map se_end ss) ++ [se_end z]). apply last_last. }
    cbn [app merge_from]. destruct (same_font f (se_font s)).
    + destruct (IH f (se_end s)) as (pre & f' & e' & A & B & C). exists pre, f', e'. rewrite LA. auto.
    + destruct (IH (se_font s) (se_end s)) as (pre & f' & e' & A & B & C). exists ((f, e) :: pre), f', e'. rewrite LA, A, C. auto.
Qed.
Lemma merged_snoc ss x : ss = [] /\ merged (ss ++ [x]) = [(se_font x, se_end x)] \/
  exists pre f' e', ss <> [] /\ merged ss = pre ++ [(f', e')] /\ e' = last (map se_end ss) 0 /\
  merged (ss ++ [x]) = pre ++ (if same_font f' (se_font x) then [(f', se_end x)] else [(f', e'); (se_font x, se_end x)]).
Proof.
  destruct ss as [|s ss]; [left; split; reflexivity|right]. destruct (merge_from_snoc x ss (se_font s) (se_end s)) as (pre & f' & e' & A & B & C).
  exists pre, f', e'. split; [discriminate|]. split; [exact A|]. split; [|exact C].
  rewrite B. cbn [map]. destruct ss as [|z ss] using rev_ind; [reflexivity|]. rewrite map_app. cbn [map]. rewrite last_last.
  change (se_end s :: map se_end ss ++ [se_end z]) with ((se_end s :: map se_end ss) ++ [se_end z]). symmetry. apply last_last.
Qed.

Lemma chain_end : forall ss a b, segments_tile a b ss -> ss <> [] -> last (map se_end ss) 0 = b.
Proof.
  unfold segments_tile. induction ss as [|s ss IH]; intros a b C NE; [congruence|]. cbn [map chain] in C. destruct C as (_ & _ & C).
  destruct ss as [|s2 ss]; [cbn in *; lia|]. exact (IH _ _ C ltac:(discriminate)).
Qed.

Section Paragraph.
Variables ps pe : Z.
Hypothesis Pos : 0 <= ps.
Hypothesis Read : pe <= Z.of_nat (length text).

(** The segments so far end at [off] and the arrays are theirs. *)
Definition shaping (ss : list segment) (off : Z) (s : shaped) : Prop :=
  let p := paraof ss in
  segments_tile ps off ss /\ para_ok ps off p /\
  sh_glyphs s = map lg_id (pa_glyphs p) /\ sh_chars s = map lg_char (pa_glyphs p) /\ sh_width s = map lg_width (pa_glyphs p) /\
  sh_sec s = map lg_sec (pa_glyphs p) /\ sh_cursor s = pa_end_sec p /\ sh_runs s = map (lrun_of p) (pa_runs p).

Lemma shaping_nil : shaping [] ps sh_empty.
Proof.
  repeat split; try reflexivity; cbn; auto. Qed.

Lemma shaping_step ss off s x : shaping ss off s -> se_start x = off -> off < se_end x -> se_end x <= pe ->
  exists s', shape_logical_run info text hb_shape vertical s (se_font x) off (se_end x - off) (se_script x) (Z.odd (se_level x)) = Ok s' /\
  shaping (ss ++ [x]) (se_end x) (add_logical_run s' (se_font x) (se_end x)).
Proof.
  intros (T & OK & G1 & G2 & G3 & G4 & G5 & G6) <- L E. unfold shape_logical_run.
  destruct (@ShaperOk (se_font x) (se_script x) (Z.odd (se_level x)) (se_start x) (se_end x - se_start x) ltac:(lia)) as [B _].
  fold (hb_of hb_shape x) in *.
  pose proof OK as (P0 & N & F & I & LA).
  assert (GE : ps <= se_start x) by (apply chain_le in T; exact T).
  destruct (@hb_pass_spec (se_font x) (se_start x) (hb_of hb_shape x) (sh_cursor s)) as (gs & A & B1 & B2 & B3 & _).
  { eapply Forall_impl; [|exact B]. cbn. intros g Hg. lia. }
  rewrite A. cbn [obind]. eexists. split; [reflexivity|].
  assert (NEW : pa_glyphs (paraof (ss ++ [x])) = pa_glyphs (paraof ss) ++ segg (pa_end_sec (paraof ss)) x).
  { cbn [para_of pa_glyphs pa_end_sec]. rewrite segsg_app. cbn [segments_glyphs]. rewrite app_nil_r. reflexivity. }
  destruct (@segg_chars (pa_end_sec (paraof ss)) x L) as [SN SF].
  assert (T' : segments_tile ps (se_end x) (ss ++ [x])).
  { unfold segments_tile in *. rewrite map_app. apply chain_app with (b := se_start x); [exact T|]. cbn. lia. }
  assert (GL : Forall (fun g => ps <= lg_char g < se_end x) (pa_glyphs (paraof (ss ++ [x])))).
  { rewrite NEW. apply Forall_app. split; [eapply Forall_impl; [|exact F]|eapply Forall_impl; [|exact SF]]; cbn; intros g Hg; lia. }
  assert (RUNS : increasing (ps :: map snd (pa_runs (paraof (ss ++ [x])))) /\ last (map snd (pa_runs (paraof (ss ++ [x])))) ps = se_end x).
  { cbn [para_of pa_runs] in *. destruct (merged_snoc ss x) as [[-> ->]|(pre & f' & e' & NE & M1 & M2 & ->)].
    - cbn. cbn in T. lia.
    - rewrite (@chain_end _ _ _ T NE) in M2. subst e'. rewrite M1, map_app in I. cbn [map snd] in I.
      destruct (same_font f' (se_font x)); rewrite map_app; cbn [map snd].
      + split; [|apply last_last]. apply increasing_snoc.
        * destruct (increasing_app (ps :: map snd pre) [se_start x] I) as (I1 & _). exact I1.
        * destruct (increasing_app (ps :: map snd pre) [se_start x] I) as (_ & _ & I2). 
          assert (last (map snd pre) ps < se_start x); [|lia]. apply I2; [|left; reflexivity].
          clear. destruct pre as [|z pre] using rev_ind; [left; reflexivity|]. rewrite map_app. cbn [map]. rewrite last_last. right. apply in_app_iff. right. left. reflexivity.
      + change [se_start x; se_end x] with ([se_start x] ++ [se_end x]). rewrite app_assoc. split; [|apply last_last].
        apply increasing_snoc; [exact I|]. rewrite last_last. exact L. }
  split; [exact T'|]. split.
  { split; [exact Pos|]. split; [|split; [exact GL|exact RUNS]]. rewrite NEW, map_app. apply nondecreasing_join; [exact N|exact SN|].
    intros a b Ia Ib. apply in_map_iff in Ia. destruct Ia as (g & <- & Ig). apply in_map_iff in Ib. destruct Ib as (h & <- & Ih).
    rewrite Forall_forall in F, SF. specialize (F g Ig). specialize (SF h Ih). lia. }
  rewrite G5 in *. set (c0 := pa_end_sec (paraof ss)) in *. 
  assert (ORD : forall A (f : lglyph -> A), (if Z.odd (se_level x) then rev (map f (sglyphs (se_font x) (se_start x) c0 (hb_of hb_shape x))) else map f (sglyphs (se_font x) (se_start x) c0 (hb_of hb_shape x)))
     = map f (segg c0 x)).
  { intros A0 f. unfold segment_glyphs. destruct (Z.odd (se_level x)); [rewrite map_rev|]; reflexivity. }
  unfold add_logical_run. cbn [sh_glyphs sh_chars sh_width sh_sec sh_cursor sh_runs].
  rewrite NEW, !map_app. cbv zeta in B1, B2, B3. rewrite B1, B2, B3, !ORD, G1, G2, G3, G4.
  do 4 (split; [rewrite ?map_app; reflexivity|]). split.
  { unfold c0. cbn [para_of pa_end_sec]. rewrite fold_left_app. reflexivity. }
  assert (LEN : length (map lg_id (pa_glyphs (paraof ss)) ++ map lg_id (segg c0 x)) = count_below (se_end x) (pa_glyphs (paraof (ss ++ [x])))).
  { rewrite count_below_all by (eapply Forall_impl; [|exact GL]; cbn; intros; lia). rewrite NEW, <- map_app, map_length. reflexivity. }
  assert (OLD : forall fe, snd fe <= se_start x -> lrun_of (paraof (ss ++ [x])) fe = lrun_of (paraof ss) fe).
  { intros fe Hfe. unfold lrun_of. f_equal. rewrite NEW, count_below_app, (@count_below_none (snd fe) (segg c0 x)); [lia|]. eapply Forall_impl; [|exact SF]. cbn. intros; lia. }
  rewrite G6, LEN. cbn [para_of pa_runs]. destruct (merged_snoc ss x) as [[-> ->]|(pre & f' & e' & NE & M1 & M2 & M3)].
  - reflexivity.
  - rewrite (@chain_end _ _ _ T NE) in M2. subst e'. rewrite M3, M1.
    assert (OLDPRE : map (lrun_of (paraof ss)) pre = map (lrun_of (paraof (ss ++ [x]))) pre).
    { apply map_ext_in. intros fe Hfe. symmetry. apply OLD.
      assert (I2 : In (snd fe) (map snd (merged ss))) by (rewrite M1, map_app; apply in_app_iff; left; apply in_map; exact Hfe).
      cbn [para_of pa_runs] in I. rewrite M1, map_app in I. cbn [map snd] in I. destruct (increasing_app (ps :: map snd pre) [se_start x] I) as (_ & _ & I3).
      specialize (I3 (snd fe) (se_start x) ltac:(right; apply in_map; exact Hfe) ltac:(left; reflexivity)). lia. }
    rewrite map_app, rev_app_distr. cbn [map rev app]. cbn [lrun_of lr_font fst snd].
    change (ssfont_eqb f' (se_font x)) with (same_font f' (se_font x)). destruct (same_font f' (se_font x)).
    + rewrite rev_involutive, map_app. cbn [map]. unfold lrun_of in OLDPRE at 1. rewrite <- OLDPRE. unfold lrun_of. cbn [fst snd]. reflexivity.
    + rewrite map_app. cbn [map]. rewrite (OLD (f', se_start x)) by (cbn; lia). rewrite <- OLDPRE, <- app_assoc. reflexivity.
Qed.

(** What a segment must satisfy, given what is known of the text. *)
Variable attrs : Z -> Z -> Z -> Z -> bool -> bool -> bool -> Prop. (* position, font, script, level, styles *)
Variable edges : Z -> Prop.
Definition seg_good (x : segment) : Prop :=
  exists base sc sb sp limit, se_end x <= limit /\ limit <= pe /\ edges limit /\ sub_font base (se_start x) limit (se_script x) sc sb sp = (se_font x, se_end x) /\
  forall y, se_start x <= y < limit -> attrs y base (se_script x) (se_level x) sc sb sp.

Lemma shape_segment_spec base scr level sc sb sp limit : limit <= pe -> edges limit ->
  forall fuel ss s off, shaping ss off s -> Forall seg_good ss -> off <= limit \/ limit <= off -> (limit - off <= Z.of_nat fuel) ->
  (forall y, off <= y < limit -> attrs y base scr level sc sb sp) ->
  exists ss' s', shape_segment info text hb_shape vertical sub_font fuel s off limit base scr level sc sb sp = Ok (s', Z.max off limit) /\
    shaping ss' (Z.max off limit) s' /\ Forall seg_good ss'.
Proof.
  intros LP EL. induction fuel as [|fuel IH]; intros ss s off SH SO _ FU AT; cbn [shape_segment].
  - destruct (Z.ltb_spec off limit); [lia|]. exists ss, s. rewrite Z.max_l by lia. auto.
  - destruct (Z.ltb_spec off limit) as [LT|GE]; [|exists ss, s; rewrite Z.max_l by lia; auto].
    pose proof (@SubOk base off limit scr sc sb sp LT) as PR.
    destruct (sub_font base off limit scr sc sb sp) as [font off'] eqn:SF. cbn [snd] in PR.
    set (x := {| se_start := off; se_end := off'; se_font := font; se_script := scr; se_level := level |}).
    destruct (@shaping_step ss off s x SH eq_refl ltac:(cbn; lia) ltac:(cbn; lia)) as (s' & E & SH').
    cbn [x se_font se_end se_script se_level] in E, SH'. rewrite E. cbn [obind].
    destruct (IH (ss ++ [x]) (add_logical_run s' font off') off' SH') as (ss' & s'' & E2 & SH2 & SO2).
    + apply Forall_app. split; [exact SO|]. constructor; [|constructor]. exists base, sc, sb, sp, limit. cbn [x se_end se_start se_font se_script se_level].
      split; [lia|]. split; [exact LP|]. split; [exact EL|]. split; [exact SF|exact AT].
    + lia.
    + lia.
    + intros y Y. apply AT. lia.
    + replace (Z.max off limit) with (Z.max off' limit) by lia. exists ss', s''. auto.
Qed.
End Paragraph.
End Shape.
