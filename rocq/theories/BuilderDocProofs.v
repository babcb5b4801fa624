(** Paragraphs and the whole text: the builder stores exactly the lines the
    specification asks for. *)
From Coq Require Import Permutation ZifyBool ZifyNat.
From Verif Require Import Base BaseFacts ValueRunsModel ValueRunsSpec ValueRunsProofs ScriptRunModel ScriptRunSpec ScriptRunProofs.
From Verif Require Import LayoutModel LayoutSpec LayoutProofs LayoutGeomProofs BuilderModel BuilderSpec BuilderVisualProofs BuilderBreakProofs BuilderTileProofs BuilderItemProofs BuilderShapeProofs.
Open Scope Z_scope.
Set Implicit Arguments.

Lemma laid_out_codes : forall gs a x y s, In (x, y, s) (laid_out a gs) -> In s (map snd gs).
Proof.
  induction gs as [|[g c] gs IH]; intros a x y s H; [destruct H|]. cbn [laid_out map snd] in *.
  destruct H as [H|H]; [inversion H; left; reflexivity|right; exact (IH _ _ _ _ H)].
Qed.
Lemma length_laid_out : forall gs a, length (laid_out a gs) = length gs.
Proof. induction gs as [|[g c] gs IH]; intros a; cbn; [reflexivity|]. rewrite IH. reflexivity. Qed.
Lemma sorted_app_final {T} (t pad : table T) d : pad <> [] -> final_limit (t ++ pad) d = final_limit pad d.
Proof.
  intros N. unfold final_limit. rewrite map_app. destruct (exists_last N) as (l & x & ->). rewrite map_app. cbn [map]. rewrite app_assoc, !last_last. reflexivity.
Qed.

Lemma nth_error_firstn' {A} (l : list A) : forall n i, (i < n)%nat -> nth_error (firstn n l) i = nth_error l i.
Proof. induction l as [|x l IH]; intros [|n] [|i] L; cbn; try reflexivity; try lia. apply IH. lia. Qed.

Section Doc.
Variables (e : engine) (text : list Z) (vertical : bool) (opp : Z -> Z -> Prop) (so : sources) (tabWidth : Z) (pixels : bool) (area count : Z).
Hypothesis EO : engine_ok e opp count.
Hypothesis SO : sources_ok so count.
Hypothesis ReadText : single_byte_at text count.
Lemma text_long : count < Z.of_nat (length text).
Proof.
  destruct ReadText as (b & B & _). unfold zget in B. destruct (Z.ltb_spec count 0) as [L|L]; [discriminate|]. apply vget_ok in B. assert (N : nth_error text (Z.to_nat count) <> None) by congruence. apply nth_error_Some in N. lia.
Qed.

Notation attributes' := (attributes e so).
Notation good' := (good_line e text opp tabWidth pixels area).
Notation paraof := (para_of (en_info e) text (en_shape e) vertical).

(** The tables can be read at [pe] too. *)
Definition room {T} (t pad : table T) (pe : Z) : Prop := pe < final_limit (t ++ pad) 0.
Definition style_room (s : style_source) (pe : Z) : Prop := match st_view s with None => True | Some _ => room (st_table s) (st_pad s) pe end.
Definition sources_room (pe : Z) : Prop :=
  room (so_table so) (so_pad so) pe /\ style_room (so_small so) pe /\ style_room (so_sub so) pe /\ style_room (so_super so) pe.

Definition iters_at (its : biter * biter * biter * biter) (q : Z) : Prop :=
  let '(itf, i1, i2, i3) := its in
  font_at (so_view so) (so_table so) (so_pad so) itf q /\
  style_at (st_view (so_small so)) (st_table (so_small so)) (st_pad (so_small so)) count i1 q /\
  style_at (st_view (so_sub so)) (st_table (so_sub so)) (st_pad (so_sub so)) count i2 q /\
  style_at (st_view (so_super so)) (st_table (so_super so)) (st_pad (so_super so)) count i3 q.

Definition style_kind (pe : Z) (s : style_source) : kind :=
  {| k_at := style_at (st_view s) (st_table s) (st_pad s) count; k_tag := fun v => exists b, v = VBool b;
     k_is := fun x v => exists b, v = VBool b /\ style_is (source_table s) x b;
     k_edge := fun m => m = pe \/ (st_view s <> None /\ In m (map fst (st_table s))) |}.
Lemma style_kind_good ps pe s : style_ok s count -> style_room s pe -> pe <= count -> good_kind (en_script e) ps pe (style_kind pe s).
Proof.
  intros O R P. unfold good_kind, style_kind. cbn [k_at k_tag k_is k_edge].
  assert (F := @style_follows (en_script e) ps pe (st_view s) (st_table s) (st_pad s) count).
  unfold style_table in F. unfold source_table. apply F. unfold style_ok, style_room in *. destruct (st_view s); [|exact P].
  destruct O as (O1 & O2 & O3 & O4 & _ & O5). rewrite O5. repeat split; auto; try (apply O1); lia.
Qed.

Section Para.
Variables ps pe : Z.
Hypothesis PB : 0 <= ps < pe.
Hypothesis PE : pe <= count.
Hypothesis IP : is_para e count ps pe.
Hypothesis Room : sources_room pe.
Let items := en_items e ps (pe - ps).
Let lv := firstn (Z.to_nat (pe - ps)) (en_levels e ps).

Definition kinds : list kind :=
  [ {| k_at := font_at (so_view so) (so_table so) (so_pad so); k_tag := fun v => exists f, v = VFont f;
       k_is := fun x v => exists f, v = VFont f /\ lookup (so_table so) x = Some f; k_edge := fun m => In m (map fst (so_table so)) |};
    {| k_at := script_at (en_script e) ps pe items; k_tag := fun v => exists s, v = VScript s; k_is := script_value (en_script e) ps items; k_edge := script_edge (en_script e) ps items |};
    {| k_at := level_at ps pe lv; k_tag := fun v => exists l, v = VLevel l;
       k_is := fun x v => exists l, v = VLevel l /\ nth_error lv (Z.to_nat (x - ps)) = Some l; k_edge := level_edge ps pe lv |};
    style_kind pe (so_small so); style_kind pe (so_sub so); style_kind pe (so_super so) ].

Lemma contracts : (forall a b, ps <= a -> a < b -> b <= pe -> bidi_partition a b (en_runs e ps a (b - a))) /\
     (forall a, ps <= a < pe -> a < snd (en_next e a pe) <= pe) /\
     (forall x, is_preceding (fun o => opp ps (ps + o)) x (en_preceding e ps (pe - ps) x)) /\
     (forall o, opp ps o -> o <= pe) /\
     (forall o a, opp ps o -> ps <= a < o -> snd (en_next e a pe) <= o) /\
     Z.of_nat (length lv) = pe - ps /\ decoded items /\ bytes items = pe - ps.
Proof.
  destruct EO as (_ & _ & _ & C). destruct (C ps pe IP) as (C1 & C2 & C3 & C4 & C5 & C6 & C7 & C8).
  do 5 (split; [assumption|]). split; [|split; assumption]. unfold lv. rewrite firstn_length. lia.
Qed.

Lemma kinds_good : Forall (good_kind (en_script e) ps pe) kinds.
Proof.
  destruct contracts as (_ & _ & _ & _ & _ & LL & D & B). destruct SO as (S1 & S2 & S3 & S4). destruct Room as (R1 & R2 & R3 & R4).
  destruct S1 as (T1 & T2 & T3 & T4 & _ & T5).
  unfold kinds. constructor; [|constructor; [|constructor; [|constructor; [|constructor; [|constructor; [|constructor]]]]]].
  - apply font_follows; auto; lia.
  - apply (@script_follows (en_script e) ps pe items D B PB).
  - apply (@level_follows (en_script e) ps pe lv LL).
  - apply style_kind_good; assumption.
  - apply style_kind_good; assumption.
  - apply style_kind_good; assumption.
Qed.

Lemma edge_of m : m <= pe -> Exists (fun K => k_edge K m) kinds -> edge e so ps pe m.
Proof.
  intros M X. apply Exists_exists in X. destruct X as (K & I & E). cbn [kinds In] in I.
  destruct I as [<-|[<-|[<-|[<-|[<-|[<-|[]]]]]]]; cbn [k_edge style_kind] in E.
  - right; left. exact E.
  - do 3 right; left. exact E.
  - destruct E as [E|[E1 E2]]; [left; exact E|]. do 4 right. split; [exact E1|]. intros D. apply E2. unfold lv. rewrite !nth_error_firstn' by lia. exact D.
  - destruct E as [E|[E1 E2]]; [left; exact E|]. right; right; left. exists (so_small so). split; [left; reflexivity|auto].
  - destruct E as [E|[E1 E2]]; [left; exact E|]. right; right; left. exists (so_sub so). split; [right; left; reflexivity|auto].
  - destruct E as [E|[E1 E2]]; [left; exact E|]. right; right; left. exists (so_super so). split; [right; right; left; reflexivity|auto].
Qed.
Lemma shape_calls_spec : forall calls q ss s,
  calls_ok ps pe kinds q calls -> q <= pe -> shaping (en_info e) text (en_shape e) vertical ps ss (Z.max q ps) s -> Forall (segment_ok e so ps pe) ss ->
  exists ss' s', shape_calls (en_info e) text (en_shape e) vertical (en_sub e) s (Z.max q ps) calls = Ok s' /\
    shaping (en_info e) text (en_shape e) vertical ps ss' pe s' /\ Forall (segment_ok e so ps pe) ss'.
Proof.
  induction calls as [|[m vs] calls IH]; intros q ss s C Q SH SOK.
  - cbn in C. subst q. exists ss, s. cbn [shape_calls]. replace (Z.max pe ps) with pe in * by lia. auto.
  - cbn [calls_ok] in C. destruct C as (C1 & C2 & CE & C3). pose proof (@edge_of m ltac:(lia) CE) as ED. unfold kinds in C2.
    repeat match goal with H : Forall2 _ (_ :: _) _ |- _ => inversion H; subst; clear H | H : Forall2 _ [] _ |- _ => inversion H; subst; clear H end.
    repeat match goal with H : call_value _ _ _ _ _ _ |- _ => destruct H as [(? & ->) ?] end.
    cbn [style_kind k_is] in *. cbn [shape_calls].
    destruct EO as (E1 & E2 & _).
    edestruct (@shape_segment_spec (en_info e) text (en_shape e) vertical (en_sub e) E1 E2 ps pe (proj1 PB) ltac:(pose proof text_long; lia)
       (fun y f s l a b c => attributes' ps pe y f s l a b c) (edge e so ps pe)) as (ss' & s' & E & SH' & SO'); cycle -1.
    + rewrite E. cbn [obind]. replace (Z.max (Z.max q ps) m) with (Z.max m ps) in * by lia.
      apply (IH m ss' s'); [exact C3|lia|exact SH'|exact SO'].
    + lia.
    + exact ED.
    + exact SH.
    + exact SOK.
    + lia.
    + lia.
    + intros y Y. unfold attributes. cbv zeta. fold items.
      repeat match goal with H : forall x, ps <= x < pe -> _ -> _ |- _ => specialize (H y ltac:(lia) ltac:(lia)) end.
      repeat match goal with H : exists f, VFont _ = _ /\ _ |- _ => destruct H as (? & HE & ?); inversion HE; subst; clear HE
        | H : exists f, VLevel _ = _ /\ _ |- _ => destruct H as (? & HE & ?); inversion HE; subst; clear HE
        | H : exists f, VBool _ = _ /\ _ |- _ => destruct H as (? & HE & ?); inversion HE; subst; clear HE end.
      match goal with H : script_value _ _ _ _ _ |- _ => destruct H as (? & HE & (sa & sb & SI) & SV); inversion HE; subst; clear HE end.
      rewrite length_laid_out in SV.
      split; [assumption|]. split.
      { match goal with H : nth_error lv _ = Some _ |- _ => unfold lv in H; exact (@nth_error_firstn _ _ _ _ _ H) end. }
      split; [assumption|]. split; [assumption|]. split; [assumption|]. split; [exact (@laid_out_codes _ _ _ _ _ SI)|exact SV].
Qed.

Lemma shape_paragraph_ok its q : iters_at its q -> -1 <= q <= ps ->
  exists ss its' cur, let p := paraof ss in
    shape_paragraph (en_script e) (en_info e) text (en_shape e) vertical (en_sub e) (en_levels e) (en_items e) its ps (pe - ps) = Ok (shaped_of p cur, its') /\
    segments_tile ps pe ss /\ Forall (segment_ok e so ps pe) ss /\ para_ok ps pe p /\ iters_at its' pe.
Proof.
  destruct its as [[[itf i1] i2] i3]. intros (I1 & I2 & I3 & I4) Q. destruct contracts as (_ & _ & _ & _ & _ & LL & D & B).
  unfold shape_paragraph. fold lv. fold items.
  destruct (@level_make (en_script e) ps pe lv LL ltac:(lia)) as (l & -> & LA). cbn [obind].
  destruct (@script_make (en_script e) ps pe items D B PB) as (st & -> & SA). cbn [obind].
  replace (ps + (pe - ps)) with pe by lia.
  rewrite (@intersect_start (en_script e) pe _ ps q) by lia.
  destruct (@intersect_ok (en_script e) ps pe kinds ltac:(discriminate) kinds_good) with (fuel := S (Z.to_nat pe)) (q := q) (its := [itf; IScript st; ILevel l; i1; i2; i3])
    as (calls & its' & -> & CO & F2).
  { eexists. split; [right; right; left; reflexivity|]. cbn [k_at]. eapply level_bounded; first [exact (en_script e)|eassumption]. }
  { lia. } { lia. }
  { unfold kinds. repeat constructor; cbn [k_at style_kind]; auto; [apply SA|apply LA]; lia. }
  cbn [obind].
  destruct (@shape_calls_spec calls q [] sh_empty CO ltac:(lia)) as (ss & s & E & SH & SOK).
  { replace (Z.max q ps) with ps by lia. apply shaping_nil. lia. }
  { constructor. }
  replace (Z.max q ps) with ps in E by lia. rewrite E. cbn [obind].
  unfold kinds in F2. repeat match goal with H : Forall2 _ (_ :: _) _ |- _ => inversion H; subst; clear H | H : Forall2 _ [] _ |- _ => inversion H; subst; clear H end.
  cbn [k_at style_kind] in *. destruct SH as (T & OK & G1 & G2 & G3 & G4 & G5 & G6).
  eexists ss, _, _. cbv zeta. split; [|split; [exact T|split; [exact SOK|split; [exact OK|]]]].
  - rewrite G1, G2, G3, G4, G5, G6. unfold shaped_of. reflexivity.
  - cbn [iters_at]. auto.
Qed.

(** *** Laying out a paragraph *)
Lemma check_runs_ok p cur : para_ok ps pe p -> forall n i ri, (i + n = length (pa_glyphs p))%nat -> (ri < length (pa_runs p))%nat ->
  check_runs n (shaped_of p cur) i ri = Ok tt.
Proof.
  intros (_ & _ & F & _ & L). induction n as [|n IH]; intros i ri E R; [reflexivity|]. cbn [check_runs shaped_of sh_runs].
  destruct (nth_error (pa_runs p) ri) as [fe|] eqn:N; [|apply nth_error_None in N; lia].
  rewrite (@vget_some _ (map (lrun_of p) (pa_runs p)) ri (lrun_of p fe)) by (rewrite nth_error_map, N; reflexivity). cbn [obind lrun_of lr_gend].
  apply IH; [lia|]. destruct (Nat.eqb_spec (count_below (snd fe) (pa_glyphs p)) i) as [G|G]; [|exact R].
  destruct (Nat.eq_dec (S ri) (length (pa_runs p))) as [D|D]; [exfalso|lia].
  destruct (pa_runs p) as [|z rs] using rev_ind; [cbn in R; lia|]. rewrite app_length in D. cbn in D.
  rewrite nth_error_app2 in N by lia. replace (ri - length rs)%nat with 0%nat in N by lia. cbn in N. inversion N; subst z.
  rewrite map_app in L. cbn [map] in L. rewrite last_last in L. rewrite L, count_below_all in G by (eapply Forall_impl; [|exact F]; cbn; intros; lia). lia.
Qed.

Notation bad_tab := (bad_tab text tabWidth pixels).
Lemma mul_spaces w k : mul_fixed w k = spaces w k.
Proof. unfold mul_fixed, spaces. rewrite Z.shiftr_div_pow2 by lia. reflexivity. Qed.
Lemma bad_tabs_bad p : bad_tabs text tabWidth pixels p -> bad_tab.
Proof.
  intros (g & old & _ & T & U). exists (lg_char g), old. split; [exact T|]. specialize (U 0). unfold tab_stop in U. rewrite <- mul_spaces.
  destruct (_ =? 0) eqn:Z0; [apply Z.eqb_eq; exact Z0|discriminate].
Qed.

Notation lines p bs := (wrapped_lines (en_code e) (en_info e) vertical (fun a b => en_runs e ps a (b - a)) p ps bs).

Lemma tabbed_all p ws : para_ok ps pe p -> tabbed text tabWidth pixels p (map lg_width (pa_glyphs p)) 0 (length (pa_glyphs p)) 0 ws ->
  same_but_tabs text p ws /\ all_tabs text tabWidth pixels p (with_widths p ws) /\
  (pixels = true -> 0 < tabWidth -> rightward p -> rightward (with_widths p ws)).
Proof.
  intros OK TB. pose proof TB as (LW & _ & NT & TS). split; [|split].
  - split; [exact LW|]. intros i g G T. rewrite NT; [rewrite nth_error_map, G; reflexivity|].
    intros (g' & G' & T'). rewrite G in G'. inversion G'; subst. contradiction.
  - intros gs1 g gs2 g0 E G0 T W. cbv zeta. intros BP. cbn [with_widths pa_glyphs] in E.
    set (i := length gs1) in *.
    assert (IL : (i < length (pa_glyphs p))%nat) by (apply nth_error_Some; congruence).
    assert (NG : nth_error (set_widths (pa_glyphs p) ws) i = Some g) by (rewrite E, nth_error_app2, Nat.sub_diag by (unfold i; lia); reflexivity).
    assert (NW : nth_error ws i = Some (lg_width g)) by (rewrite <- (@set_widths_widths (pa_glyphs p) ws LW), nth_error_map, NG; reflexivity).
    assert (NC : lg_char g0 = lg_char g).
    { assert (X : nth_error (map lg_char (set_widths (pa_glyphs p) ws)) i = Some (lg_char g)) by (rewrite nth_error_map, NG; reflexivity).
      rewrite set_widths_chars in X by exact LW. rewrite nth_error_map, G0 in X. cbn in X. congruence. }
    assert (SU : total gs1 = sumw ws 0 i).
    { rewrite total_sum. unfold sumw. rewrite Nat.sub_0_r. cbn [skipn]. f_equal. rewrite <- (@set_widths_widths (pa_glyphs p) ws LW), E, map_app.
      unfold i. rewrite <- (map_length lg_width gs1) at 1. rewrite firstn_app, firstn_all, Nat.sub_diag, firstn_O, app_nil_r. reflexivity. }
    destruct (TS i ltac:(lia)) as (old & nw & O1 & O2 & O3); [exists g0; split; [exact G0|rewrite NC; exact T]|].
    rewrite NW in O2. inversion O2; subst nw. rewrite nth_error_map, G0 in O1. cbn in O1. inversion O1; subst old.
    rewrite Z.add_0_l, <- SU in O3. rewrite <- mul_spaces in *.
    apply (@tab_stop_multiple (if pixels then tabWidth else mul_fixed (lg_width g0) tabWidth) (total gs1) 0 (lg_width g) BP W).
    unfold tab_stop in *. destruct pixels; exact O3.
  - intros PX TW RW. apply with_widths_rightward; [exact LW|]. rewrite PX in TB. eapply tabbed_rightward; [exact TW| | |exact TB]; [apply map_length|].
    apply Forall_map. exact RW.
Qed.

Lemma layout_paragraph_ok p cur d0 y : para_ok ps pe p ->
  returns bad_tab (fun r => exists bs hend, wrapped (good' ps pe) text p pe ps bs /\
      fst r = layout_of (d0 ++ lines p bs) y /\ highest (length (doc_runs d0)) (doc_runs (lines p bs)) (snd r) hend)
    (layout_paragraph (en_info e) text vertical (en_runs e) (en_code e) (en_next e) (en_hangs e) (en_preceding e)
       (shaped_of p cur) tabWidth pixels area ps (pe - ps) (layout_of d0 y)).
Proof.
  intros OK. destruct contracts as (C1 & C2 & C3 & C4 & C5 & _ & _ & _).
  assert (HI0 : highest (length (doc_runs d0)) (doc_runs []) 0 INT_MIN) by (split; reflexivity).
  assert (RT : exists m, pe <= m /\ single_byte_at text m) by (exists count; split; [lia|exact ReadText]).
  unfold layout_paragraph. destruct (Z.eqb_spec area 0) as [A0|A0].
  - assert (AT : returns bad_tab (fun ws => same_but_tabs text p ws /\ all_tabs text tabWidth pixels p (with_widths p ws) /\
        (pixels = true -> 0 < tabWidth -> rightward p -> rightward (with_widths p ws)))
      (apply_tab_widths_no_line_break text (shaped_of p cur) tabWidth pixels)).
    { unfold apply_tab_widths_no_line_break. cbn [shaped_of sh_chars sh_width]. rewrite map_length.
      fold (shaped_of p cur). rewrite (@check_runs_ok p cur OK (length (pa_glyphs p)) 0 0) by
        (try lia; pose proof OK as (_ & _ & _ & _ & L); destruct (pa_runs p); cbn in *; lia).
      cbn [obind]. eapply returns_impl.
      { eapply returns_weaken; [apply (@bad_tabs_bad p)|]. apply (@apply_tabs_spec text tabWidth pixels p ps pe OK RT cur (length (pa_glyphs p)) (map lg_width (pa_glyphs p)) 0 0); [lia|apply map_length]. }
      intros ws T. cbn [Nat.add] in T. exact (@tabbed_all p ws OK T). }
    eapply returns_bind; [exact AT|]. intros ws (SB & ATB & RWD). pose proof (proj1 SB) as LW.
    rewrite (@with_widths_shaped p ws LW). pose proof (@with_widths_ok p ps pe OK ws LW) as OK'.
    replace (ps + (pe - ps)) with pe by lia.
    destruct (@compute_line_of (en_info e) vertical (en_code e) (with_widths p ws) ps pe OK' (en_runs e) cur ps d0 [] y ps pe 0 INT_MIN) as (high' & hend' & E & HI');
      [lia|lia|lia|apply C1; lia|exact HI0|].
    rewrite app_nil_r in E. rewrite E. cbn [obind returns]. exists [(pe, ws)], hend'. cbn [wrapped wrapped_lines fst snd].
    split; [|split; [reflexivity|exact HI']].
    split; [lia|]. split; [exact SB|]. split; [|reflexivity]. unfold good_line. rewrite (proj2 (Z.eqb_eq area 0) A0). split; [exact RWD|]. split; [reflexivity|exact ATB].
  - replace (layout_of d0 y) with (layout_of (d0 ++ []) y) by (rewrite app_nil_r; reflexivity).
    eapply returns_impl.
    { eapply returns_weaken; [apply (@bad_tabs_bad p)|].
      apply (@break_lines_spec text tabWidth pixels area ps pe RT (en_next e) (en_hangs e) (en_preceding e) C2) with (good := good' ps pe).
      - intros x. destruct (C3 x) as [_ [[O L]|N]]; [|lia]. specialize (C4 _ O). lia.
      - exact C1.
      - intros p1 ls le ws OK1 LS BR. unfold good_line. rewrite (proj2 (Z.eqb_neq area 0) A0).
        assert (LW : length ws = length (pa_glyphs p1)).
        { destruct BR as (ws1 & g1 & w1 & g2 & g3 & c & b & le0 & _ & _ & _ & _ & _ & _ & (TB & _) & _). exact TB. }
        split; [|split; [|split]].
        + apply (@broken_rightward text tabWidth pixels p1 ps pe (en_next e) (en_hangs e) (en_preceding e) ws LW area ls le BR).
        + apply (@broken_fits text tabWidth pixels p1 ps pe OK1 (en_next e) (en_hangs e) (en_preceding e) ws LW area ls le LS BR C2 (opp ps) C3 C5 C4).
        + apply (@broken_breaks text tabWidth pixels p1 ps pe OK1 (en_next e) (en_hangs e) (en_preceding e) ws LW area ls le LS BR C2 (opp ps) C3 C5 C4).
        + apply (@broken_tabs text tabWidth pixels p1 ps pe OK1 (en_next e) (en_hangs e) (en_preceding e) ws LW area ls le LS BR C2 (opp ps) C3 C5 C4).
      - exact OK.
      - lia.
      - lia.
      - exact HI0. }
    intros [l high] (bs & hend & W & E & HI). exists bs, hend. cbn [fst snd] in *. cbn [app] in E, HI. split; [exact W|]. split; [exact E|exact HI].
Qed.
End Para.

(** ** The whole text *)
Lemma iters_start : let n := count in
  iters_at (IFont (so_view so) 0, IBool (mi_make (st_view (so_small so)) false n), IBool (mi_make (st_view (so_sub so)) false n), IBool (mi_make (st_view (so_super so)) false n)) (-1).
Proof.
  assert (RB : forall T (rv : runs_view T) t pad, table_ok rv t pad count -> runs_before (t ++ pad) (-1) = 0%nat).
  { intros T rv t pad (_ & _ & _ & NE & F & _). destruct t as [|[l v] t]; [congruence|]. cbn [app runs_before]. inversion F; subst. cbn in *.
    destruct (Z.leb_spec l (-1)); [lia|reflexivity]. }
  destruct SO as (S1 & S2 & S3 & S4). cbv zeta. unfold iters_at, font_at, style_at, mi_make. rewrite (RB _ _ _ _ S1).
  unfold style_ok in *. split; [reflexivity|]. split; [|split].
  - destruct (st_view (so_small so)); [rewrite (RB _ _ _ _ S2)|]; reflexivity.
  - destruct (st_view (so_sub so)); [rewrite (RB _ _ _ _ S3)|]; reflexivity.
  - destruct (st_view (so_super so)); [rewrite (RB _ _ _ _ S4)|]; reflexivity.
Qed.

Lemma vget_app1 {A} (l1 l2 : list A) i : (i < length l1)%nat -> vget (l1 ++ l2) i = vget l1 i.
Proof. intros H. unfold vget. rewrite nth_error_app1 by exact H. reflexivity. Qed.

(** The binary search of [get_value] stays within the table. *)
Lemma get_value_reads {T} (rv : runs_view T) (t pad : table T) x : table_ok rv t pad count -> x < count -> exists v, lookup t x = Some v /\ get_value rv x = Ok v.
Proof.
  intros ((RC & RL & RV) & _ & S & NE & _ & FL) X.
  assert (ST : sorted t).
  { unfold sorted in *. rewrite map_app in S. clear -S. induction (map fst t) as [|a l IH]; [constructor|]. cbn [app] in S. inversion S; subst.
    constructor; [apply IH; assumption|]. apply Forall_app in H2. tauto. }
  assert (RP : represents (vr_view (build t)) t) by apply view_build.
  destruct (@lookup_lt_final _ t 0 x NE ltac:(lia)) as (v & LV). exists v. split; [exact LV|].
  pose proof (@get_value_represents _ _ t x RP ST) as GV. rewrite LV in GV. cbn in GV.
  assert (IDX : (runs_before t x < length t)%nat) by (apply runs_before_lt_length with (d := 0); [exact NE|lia]).
  assert (EQ : forall fuel first cnt, (first + cnt <= length t)%nat -> run_search_loop rv fuel first cnt x = run_search_loop (vr_view (build t)) fuel first cnt x).
  { destruct RP as (_ & RL2 & _). induction fuel as [|fuel IH]; intros first cnt B; cbn [run_search_loop]; destruct (Nat.ltb_spec 0 cnt); try reflexivity.
    pose proof (Nat.div_lt cnt 2 ltac:(lia) ltac:(lia)).
    rewrite RL, RL2, map_app, vget_app1 by (rewrite map_length; lia).
    destruct (vget (map fst t) (first + cnt / 2)%nat); cbn [obind]; try reflexivity. destruct (_ <=? x); apply IH; lia. }
  unfold get_value in *. unfold get_run_containing_index in *. rewrite RC.
  pose proof (@search_represents _ _ t x RP ST) as SR. unfold get_run_containing_index in SR.
  destruct RP as (RC2 & _ & _). rewrite RC2 in SR, GV. rewrite EQ by lia. rewrite SR in *. cbn [obind] in *.
  rewrite RV, map_app, vget_app1 by (rewrite map_length; exact IDX).
  destruct (@view_build _ t) as (_ & _ & RV2). rewrite RV2 in GV. exact GV.
Qed.

Lemma ok_inj {A} (a b : A) : Ok a = Ok b -> a = b.
Proof. congruence. Qed.
Lemma append_empty d y f c h a : append_empty_line (layout_of d y) f c h a = layout_of (d ++ [{| sl_runs := [empty_run f c]; sl_height := h; sl_ascent := a |}]) y.
Proof. pose proof (@empty_line_step d y f c h a) as H. cbn [lstep] in H. exact (ok_inj H). Qed.

Lemma list_set_snoc {A} (l : list A) x y : list_set (l ++ [x]) (length l) y = l ++ [y].
Proof. induction l as [|z l IH]; cbn; [reflexivity|]. rewrite IH. reflexivity. Qed.

(** Setting the offset of the blank line just stored. *)
Lemma set_blank d y f pos sep :
  set_run_char_end_offset (layout_of (d ++ [{| sl_runs := [empty_run (en_code e (en_default e f)) pos]; sl_height := (fo_ascent (en_base_info e f) - fo_descent (en_base_info e f))%Q; sl_ascent := fo_ascent (en_base_info e f) |}]) y)
    (length (doc_runs d)) sep = Ok (layout_of (d ++ [blank e f pos sep]) y).
Proof.
  set (s0 := {| sl_runs := [empty_run _ _]; sl_height := _; sl_ascent := _ |}).
  assert (R' : nth_error (doc_runs (d ++ [s0])) (length (doc_runs d)) = Some (empty_run (en_code e (en_default e f)) pos)).
  { rewrite doc_runs_app, nth_error_app2, Nat.sub_diag by lia. reflexivity. }
  destruct (@runs_of_set 0 sep _ _ _ R') as (q & Q1 & Q2).
  unfold set_run_char_end_offset. cbn [layout_of lo_runs]. rewrite (vget_some _ _ Q1). cbn [obind].
  unfold vset. rewrite (proj2 (Nat.ltb_lt _ _)) by (apply nth_error_Some; congruence). cbn [obind].
  rewrite Q2. cbn [layout_of lo_runs lo_lines lo_glyphs lo_chars lo_pos lo_start_y].
  assert (DR : list_set (doc_runs (d ++ [s0])) (length (doc_runs d)) {| sr_font := sr_font (empty_run (en_code e (en_default e f)) pos); sr_start := sr_start (empty_run (en_code e (en_default e f)) pos);
     sr_end := sr_end (empty_run (en_code e (en_default e f)) pos); sr_offset := sep; sr_rtl := sr_rtl (empty_run (en_code e (en_default e f)) pos); sr_glyphs := sr_glyphs (empty_run (en_code e (en_default e f)) pos);
     sr_end_x := sr_end_x (empty_run (en_code e (en_default e f)) pos); sr_end_y := sr_end_y (empty_run (en_code e (en_default e f)) pos) |} = doc_runs (d ++ [blank e f pos sep])).
  { rewrite !doc_runs_app. apply list_set_snoc. }
  rewrite DR. f_equal. unfold layout_of, doc_glyphs, doc_lines. rewrite !doc_runs_app, !flat_map_app, !lines_of_app. reflexivity.
Qed.

Lemma room_ok : padded so \/ ends_separated e count -> forall off, para_start e count off -> off < count -> let '(plen, sep) := en_bound e off in sources_room (off + plen - sep).
Proof.
  intros C off PS O. destruct EO as (_ & _ & B & _). specialize (B off PS O). destruct (en_bound e off) as [plen sep] eqn:EB. destruct B as (B1 & B2 & B3 & _).
  assert (G : forall T (rv : runs_view T) t pad, table_ok rv t pad count -> (pad <> [] /\ (forall l, In l (map fst pad) -> final_limit t 0 < l)) \/ 0 < sep -> room t pad (off + plen - sep)).
  { intros T rv t pad (_ & _ & S & NE & _ & FL) D. unfold room.
    assert (GE : count <= final_limit (t ++ pad) 0).
    { destruct pad as [|p0 pad]; [rewrite app_nil_r; lia|]. rewrite <- FL. apply sorted_final; [exact S|]. rewrite map_app. apply in_app_iff. left. apply final_limit_In. exact NE. }
    destruct D as [[D1 D2]|D]; [|lia]. rewrite sorted_app_final by exact D1. pose proof (D2 _ (@final_limit_In _ pad 0 D1)). lia. }
  assert (SEP : ends_separated e count -> 0 < sep) by (intros H; specialize (H off PS O); rewrite EB in H; exact H).
  destruct SO as (S1 & S2 & S3 & S4).
  assert (GS : forall s, In s [so_small so; so_sub so; so_super so] -> style_ok s count -> style_room s (off + plen - sep)).
  { intros s IS SS. unfold style_ok, style_room in *. destruct (st_view s) eqn:V; [|trivial]. apply (G _ _ _ _ SS).
    destruct C as [(_ & P2 & _ & P4)|C]; [left|right; auto]. split; [apply P2; [exact IS|congruence]|]. intros l. apply P4. exact IS. }
  split; [|split; [|split]].
  - apply (G _ _ _ _ S1). destruct C as [(P1 & _ & P3 & _)|C]; [left; split; assumption|right; auto].
  - apply GS; [left; reflexivity|exact S2].
  - apply GS; [right; left; reflexivity|exact S3].
  - apply GS; [right; right; left; reflexivity|exact S4].
Qed.

Hypothesis Rooms : padded so \/ ends_separated e count.

Notation bad_tab := (bad_tab text tabWidth pixels).
Notation tlines := (text_lines e text vertical opp so tabWidth pixels area count).

Lemma paragraphs_ok y : forall fuel its d0 off q, para_start e count off -> 0 <= off <= count -> count - off <= Z.of_nat fuel -> iters_at its q -> -1 <= q <= off ->
  returns bad_tab (fun l => exists rest, tlines off rest /\ l = layout_of (d0 ++ rest) y)
    (paragraphs (en_script e) (en_info e) text (en_shape e) vertical (en_sub e) (en_runs e) (en_code e) (en_next e) (en_hangs e) (en_preceding e)
      (en_levels e) (en_items e) (en_bound e) (en_base_info e) (en_default e) fuel (so_view so) tabWidth pixels area count its (layout_of d0 y) off).
Proof.
  induction fuel as [|fuel IH]; intros its d0 off q PST O F IT Q; cbn [paragraphs]; destruct (Z.ltb_spec off count) as [LT|GE]; try lia.
  1,3: assert (off = count) by lia; subst; cbn [returns]; exists []; rewrite app_nil_r; split; [constructor|reflexivity].
  pose proof (@room_ok Rooms off PST LT) as RM. pose proof (proj1 (proj2 (proj2 EO)) off PST LT) as B. pose proof (@start_next e count off PST LT) as PSN.
  destruct (en_bound e off) as [plen sep] eqn:EB. destruct B as (B1 & B2 & B3 & B4). cbn [fst] in PSN.
  pose proof SO as (S1 & _). destruct (@get_value_reads _ _ _ _ off S1 LT) as (f & LF & GV).
  (* the paragraph and its separator *)
  assert (PARA : returns bad_tab (fun r => exists lines, (if 0 <? plen - sep then paragraph_lines e text vertical opp so tabWidth pixels area off (off + plen - sep) sep lines else lines = [blank e f off sep]) /\
       (exists q', iters_at (snd r) q' /\ -1 <= q' <= off + plen) /\
       set_run_char_end_offset (fst (fst r)) (snd (fst r)) sep = Ok (layout_of (d0 ++ lines) y))
     (if 0 <? plen - sep
      then do (s, its) <- shape_paragraph (en_script e) (en_info e) text (en_shape e) vertical (en_sub e) (en_levels e) (en_items e) its off (plen - sep);
           do (l, high) <- layout_paragraph (en_info e) text vertical (en_runs e) (en_code e) (en_next e) (en_hangs e) (en_preceding e) s tabWidth pixels area off (plen - sep) (layout_of d0 y);
           Ok (l, high, its)
      else do l' <- empty_line (en_code e) (en_base_info e) (en_default e) (so_view so) (layout_of d0 y) off off; Ok (l', length (lo_runs (layout_of d0 y)), its))).
  { destruct (Z.ltb_spec 0 (plen - sep)) as [L|L].
    - assert (IP : is_para e count off (off + plen - sep)) by (unfold is_para; rewrite EB; cbn [fst snd]; repeat split; try assumption; lia).
      assert (PB : 0 <= off < off + plen - sep) by lia. assert (PE : off + plen - sep <= count) by lia.
      set (pe := off + plen - sep) in *.
      destruct (@shape_paragraph_ok off pe PB PE IP RM its q IT ltac:(lia)) as (ss & its' & cur & E & T & SOK & OK & IT').
      replace (pe - off) with (plen - sep) in E by (unfold pe; lia). cbv zeta in E. rewrite E. cbn [obind].
      eapply returns_bind; [pose proof (@layout_paragraph_ok off pe PB PE IP (paraof ss) cur d0 y OK) as LP; replace (pe - off) with (plen - sep) in LP by (unfold pe; lia); exact LP|].
      intros [l high] (bs & hend & W & EL & HI). cbn [fst snd] in *. cbn [returns fst snd].
      destruct (@contracts off pe PB IP) as (C1 & _).
      exists (separated pe sep (wrapped_lines (en_code e) (en_info e) vertical (fun a b => en_runs e off a (b - a)) (paraof ss) off bs)).
      split; [|split].
      + exists ss, bs. cbv zeta. auto.
      + exists pe. split; [exact IT'|lia].
      + rewrite EL. apply (@separate d0 _ y high hend off pe sep); [lia| |exact HI].
        apply (@wrapped_tile (en_info e) vertical (en_code e) (good' off pe) text off pe _ C1 bs (paraof ss) off OK ltac:(lia) W).
    - unfold empty_line. rewrite GV. cbn [obind]. rewrite append_empty. cbn [returns fst snd]. exists [blank e f off sep].
      split; [reflexivity|]. split; [exists q; split; [exact IT|lia]|]. cbn [layout_of lo_runs]. rewrite length_runs_of. apply set_blank. }
  eapply returns_bind; [exact PARA|]. intros [[l high] its'] (lines & PL & (q' & IT' & Q') & SE). cbn [fst snd] in *. rewrite SE. cbn [obind].
  set (extra := if (off + plen =? count) && (0 <? sep) then [blank e f count 0] else []).
  assert (EX : (if (off + plen =? count) && (0 <? sep)
     then do l <- empty_line (en_code e) (en_base_info e) (en_default e) (so_view so) (layout_of (d0 ++ lines) y) off (off + plen);
          set_run_char_end_offset l (length (lo_runs l) - 1) 0
     else Ok (layout_of (d0 ++ lines) y)) = Ok (layout_of (d0 ++ lines ++ extra) y)).
  { unfold extra. destruct (Z.eqb_spec (off + plen) count) as [E|E]; cbn [andb]; [|rewrite app_nil_r; reflexivity].
    destruct (0 <? sep); [|rewrite app_nil_r; reflexivity]. unfold empty_line. rewrite GV. cbn [obind]. rewrite append_empty.
    rewrite E. cbn [layout_of lo_runs]. rewrite length_runs_of, doc_runs_app, app_length. cbn [doc_runs flat_map sl_runs app length].
    replace (length (doc_runs (d0 ++ lines)) + 1 - 1)%nat with (length (doc_runs (d0 ++ lines))) by lia.
    pose proof (set_blank (d0 ++ lines) y f count 0) as SB. rewrite app_assoc. exact SB. }
  rewrite EX. cbn [obind].
  eapply returns_impl; [apply (IH its' (d0 ++ lines ++ extra) (off + plen) q'); [exact PSN|lia|lia|exact IT'|exact Q']|].
  intros l' (rest & TL & ->). exists (lines ++ extra ++ rest). split; [|rewrite <- !app_assoc; reflexivity].
  eapply text_para; eauto.
Qed.

Theorem build_ok startY l0 : 0 <= count ->
  returns bad_tab (fun l => exists doc h, tlines 0 doc /\ (h == heights doc)%Q /\ l = layout_of doc (startY h))
    (build_text e text vertical (so_view so) (st_view (so_small so)) (st_view (so_sub so)) (st_view (so_super so)) tabWidth pixels area count startY l0).
Proof.
  intros C. unfold build_text, build_layout_info.
  replace (lo_clear l0) with (layout_of [] (lo_start_y l0)) by reflexivity.
  eapply returns_bind; [apply (@paragraphs_ok (lo_start_y l0) (Z.to_nat count) _ [] 0 (-1)); [constructor|lia|lia|exact iters_start|lia]|].
  intros l (doc & TL & ->). cbn [returns]. cbn [app]. eexists doc, _. split; [exact TL|].
  split; [|reflexivity]. apply text_height_of.
Qed.
End Doc.
