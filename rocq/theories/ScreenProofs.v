(** Proofs about what the screen shows. *)
From Coq Require Import Lqa.
From Verif Require Import Base BaseFacts PackingModel ValueRunsModel ValueRunsSpec FloatModel ColorModel FormattingModel FormattingIterModel
  FormattingIterSpec LayoutModel LayoutSpec LayoutProofs LayoutGeomProofs LayoutTableProofs DrawModel DrawSpec DrawProofs
  ClipModel ClipSpec ClipProofs ClipProps ScreenModel ScreenSpec.
Open Scope Z_scope.
Set Implicit Arguments.
Local Notation length := List.length.

Lemma white_bright : white = bright. Proof. vm_compute. reflexivity. Qed.
Lemma blue_box : blue = box_color. Proof. vm_compute. reflexivity. Qed.

Lemma Forall2_nth_l A B (R : A -> B -> Prop) l m : Forall2 R l m -> forall i x, nth_error l i = Some x -> exists z, nth_error m i = Some z /\ R x z.
Proof.
  induction 1 as [|x z l m H F IH]; intros [|i] x0 E; cbn in E; try discriminate.
  - injection E as <-. exists z. auto.
  - destruct (IH _ _ E) as (z' & E' & R'). exists z'. auto.
Qed.

(** ** Places *)
Lemma heights_app a b : (heights (a ++ b) == heights a + heights b)%Q.
Proof. induction a as [|s a IH]; cbn [heights app]; [ring|]. rewrite IH. ring. Qed.
Lemma place_runs_in i x y rs p : forall k, In p (place_runs i k x y rs) -> pl_line p = i /\ pl_x p = x /\ pl_y p = y.
Proof. induction rs as [|r rs IH]; intros k H; cbn in H; [contradiction|]. destruct H as [<-|H]; [cbn; auto|]. eapply IH. exact H. Qed.
Lemma places_line w a y d2 p : forall d1 k y0, (y0 == y + heights d1)%Q -> In p (places w a (length d1) k y0 d2) ->
  exists s d3 d4, d1 ++ d2 = d3 ++ s :: d4 /\ length d3 = pl_line p /\ pl_x p = align_x w a s /\ (pl_y p == y + heights d3 + sl_ascent s)%Q.
Proof.
  induction d2 as [|s d2 IH]; intros d1 k y0 Hy H; cbn [places] in H; [contradiction|]. apply in_app_or in H as [H|H].
  - apply place_runs_in in H as (H1 & H2 & H3). exists s, d1, d2. split; [reflexivity|]. split; [auto|]. split; [exact H2|]. rewrite H3, Hy. reflexivity.
  - replace (S (length d1)) with (length (d1 ++ [s])) in H by (rewrite app_length; cbn; lia).
    apply IH in H.
    + rewrite <- app_assoc in H. exact H.
    + rewrite heights_app, Hy. cbn [heights]. ring.
Qed.
Lemma places_line_of w a y d p : In p (places w a 0 0 y d) ->
  exists s d3 d4, d = d3 ++ s :: d4 /\ length d3 = pl_line p /\ pl_x p = align_x w a s /\ (pl_y p == y + heights d3 + sl_ascent s)%Q.
Proof. intros H. apply (@places_line w a y d p [] 0%nat y); [cbn; ring|exact H]. Qed.
Lemma places_nth w a y d k p : nth_error (places w a 0 0 y d) k = Some p -> pl_run p = k /\ nth_error (doc_runs d) k = Some (pl_of p).
Proof.
  intros H. split.
  - pose proof (map_nth_error pl_run _ _ H) as E. rewrite places_idx in E.
    assert (L : (k < length (doc_runs d))%nat).
    { rewrite <- (places_of w a d 0 0 y), map_length. assert (N : nth_error (places w a 0 0 y d) k <> None) by congruence. apply nth_error_Some in N. exact N. }
    rewrite (nth_error_nth' _ 0%nat) in E by (rewrite seq_length; exact L). rewrite seq_nth in E by exact L. cbn in E. congruence.
  - pose proof (map_nth_error pl_of _ _ H) as E. rewrite places_of in E. exact E.
Qed.
Lemma places_split w a y d p : In p (places w a 0 0 y d) -> nth_error (places w a 0 0 y d) (pl_run p) = Some p /\
  exists pre post, doc_runs d = pre ++ pl_of p :: post /\ length pre = pl_run p.
Proof.
  intros H. apply In_nth_error in H as (k & H). destruct (places_nth _ _ _ _ _ H) as (E & N). rewrite E. split; [exact H|].
  apply nth_error_split in N as (pre & post & E1 & E2). exists pre, post. auto.
Qed.

(** ** One rectangle *)
Lemma emit_shown x y w h u v uw vh image c pi clip :
  (forall first second, clip = Some (first, second) -> (first <= second)%Q) ->
  shown image x y w h u v uw vh pi
    (fun t c' => match clip with None => c' = c | Some (lo, hi) => lit lo hi x w c t c' end) (emit x y w h u v uw vh image c pi clip).
Proof.
  intros HC. unfold shown, emit. destruct image as [i|]; [|reflexivity].
  pose proof (@C46_tiles x y w h u v uw vh clip HC) as [A B]. cbv zeta in A, B.
  split; [|split].
  - apply Forall_forall. intros d H. apply in_map_iff in H as (r & <- & _). cbn. auto.
  - intros d t H Cv. apply in_map_iff in H as (r & <- & H). cbn in Cv. eapply A; eassumption.
  - intros t T1 T2. destruct (B t T1 T2) as (r & (l1 & l2 & E & Cv & No) & (F1 & F2 & F3 & F4 & F5) & Cl).
    set (mk := fun r => {| dr_rect := r; dr_image := i; dr_color := if r_white r then white else c; dr_pipe := pi |}).
    exists (mk r). split.
    { exists (map mk l1), (map mk l2). split; [rewrite E, map_app; reflexivity|]. split; [exact Cv|].
      rewrite <- map_app, Forall_map. exact No. }
    cbn. split; [rewrite F1; reflexivity|]. split; [rewrite F2; reflexivity|]. split; [rewrite F3; reflexivity|]. split; [rewrite F4; reflexivity|]. split; [exact F5|].
    destruct clip as [[lo hi]|]; [|rewrite Cl; reflexivity]. destruct Cl as (C1 & C2 & C3).
    split; [|split].
    + intros H1 H2. rewrite (C1 (conj H1 H2)). apply white_bright.
    + intros H1. destruct (r_white r); [right; split; [apply white_bright|exact (C2 H1 eq_refl)]|left; reflexivity].
    + intros H1. destruct (r_white r); [right; split; [apply white_bright|exact (C3 H1 eq_refl)]|left; reflexivity].
Qed.
Lemma shown_colors image x y w h u v uw vh pi (C C' : Q -> color -> Prop) ds : (forall t c, C t c -> C' t c) ->
  shown image x y w h u v uw vh pi C ds -> shown image x y w h u v uw vh pi C' ds.
Proof.
  intros HC. unfold shown. destruct image as [i|]; [|auto]. intros (A & B & D). split; [exact A|]. split; [exact B|].
  intros t T1 T2. destruct (D t T1 T2) as (d & D1 & D2 & D3 & D4 & D5 & D6 & D7). exists d.
  split; [exact D1|]. split; [exact D2|]. split; [exact D3|]. split; [exact D4|]. split; [exact D5|]. split; [exact D6|]. apply HC, D7.
Qed.
Lemma plain_outline plain x y w h c : outlines_only (emit_plain plain x y w h c POutline None).
Proof. repeat constructor. Qed.

(** ** Ranges *)
Section Doc.
Variables (d : sdoc) (y w : Q) (a : xalign).
Hypothesis RO : Forall run_ok (doc_runs d).
Hypothesis MO : Forall (fun r => qnondecreasing (run_xs r)) (doc_runs d).
Notation lay := (layout_of d y).
Notation ps := (places w a 0 0 y d).

Lemma place_range p s e : In p ps -> s <= e -> exists lo hi, get_position_range_in_run lay (pl_run p) s e = Ok (lo, hi) /\ (lo <= hi)%Q /\
  lo = caret lay p (cut (pl_of p) (if sr_rtl (pl_of p) then e else s)) /\ hi = caret lay p (cut (pl_of p) (if sr_rtl (pl_of p) then s else e)).
Proof.
  intros H SE. destruct (places_split _ _ _ _ _ H) as (_ & pre & post & E & L).
  assert (In (pl_of p) (doc_runs d)) as I by (rewrite E; apply in_or_app; right; left; reflexivity).
  rewrite Forall_forall in RO, MO.
  destruct (@t_C34_position_range d y pre (pl_of p) post E (RO _ I) (MO _ I) s e SE) as (lo & hi & E1 & _ & LH & _ & E2 & E3).
  rewrite L in *. exists lo, hi. split; [exact E1|]. split; [exact LH|]. unfold caret. fold (cut (pl_of p) s) in E2. fold (cut (pl_of p) e) in E3.
  destruct (sr_rtl (pl_of p)); rewrite E2, E3; auto.
Qed.
Lemma place_contains p s e : In p ps -> run_contains_char_range lay (pl_run p) s e = Ok ((sr_start (pl_of p) <? e) && (s <? sr_end (pl_of p))).
Proof.
  intros H. destruct (places_split _ _ _ _ _ H) as (_ & pre & post & E & L).
  destruct (@doc_run_view d y pre (pl_of p) post E) as (V & _). rewrite L in V. unfold run_contains_char_range. rewrite V. reflexivity.
Qed.
Lemma place_run_ok p : In p ps -> run_ok (pl_of p).
Proof.
  intros H. destruct (places_split _ _ _ _ _ H) as (_ & pre & post & E & L). rewrite Forall_forall in RO. apply RO. rewrite E. apply in_or_app. right. left. reflexivity.
Qed.

(** ** Boxes *)
Lemma highlight_ok plain px py s e : s <= e -> forall calls qs, Forall2 run_call_ok calls qs -> (forall p, In p qs -> In p ps) ->
  exists boxes, highlight plain lay px py s e calls = Ok (List.concat boxes) /\ Forall2 (box_drawn plain lay d y px py s e) qs boxes.
Proof.
  intros SE calls qs F. induction F as [|[[[i k] x] yy] p calls qs (-> & -> & Hx & Hy) F IH]; intros IN.
  - exists []. split; [reflexivity|constructor].
  - destruct IH as (boxes & E & FB); [intros q Hq; apply IN; right; exact Hq|].
    assert (P : In p ps) by (apply IN; left; reflexivity).
    cbn [highlight]. rewrite (@place_contains p s e P). cbn [obind].
    destruct (@place_run_ok p P) as (R1 & R2 & _).
    destruct (_ && _) eqn:Co.
    + destruct (@place_range p s e P SE) as (lo & hi & Er & LH & El & Eh). rewrite Er. cbn [obind].
      destruct (@places_line_of w a y d p P) as (sl & d3 & d4 & Ed & Ll & Ex & Ey).
      destruct (@doc_line_view d y d3 sl d4 Ed) as (_ & _ & V). rewrite <- Ll. rewrite V. cbn [obind li_ascent].
      destruct (line_height_of y d3 sl d4) as (h & Eh' & Hh). rewrite <- Ed in Eh'. rewrite Eh'. cbn [obind].
      rewrite E. cbn [obind]. eexists (_ :: boxes). split; [reflexivity|]. constructor; [|exact FB]. split.
      * intros Se. unfold emit_plain, emit. cbn [map emit_rect]. do 2 eexists. split; [reflexivity|].
        split; [rewrite <- Ll, Ed, nth_error_app2, Nat.sub_diag by lia; reflexivity|].
        cbn [dr_rect dr_image dr_color dr_pipe r_x r_w r_y r_h r_white]. split; [reflexivity|]. split; [exact blue_box|]. split; [reflexivity|].
        unfold lit_left, lit_right. rewrite <- El, <- Eh, Hx. split; [reflexivity|]. split; [ring|].
        split; [lra|]. split; [|exact Hh]. rewrite Hy, Ey, <- Ll, Ed. rewrite firstn_app, firstn_all, Nat.sub_diag. cbn [firstn]. rewrite app_nil_r. ring.
      * intros NS. repeat constructor. cbn [emit_plain emit dr_rect r_w].
        assert (CE : cut (pl_of p) s = cut (pl_of p) e).
        { unfold cut. apply andb_true_iff in Co as [Co1 Co2]. apply Z.ltb_lt in Co1, Co2.
          destruct (Z.eq_dec s e) as [->|]; [reflexivity|]. destruct (Z.eq_dec (sr_start (pl_of p)) (sr_end (pl_of p))) as [Q0|]; [rewrite Q0; lia|].
          exfalso. apply NS. exists (Z.max s (sr_start (pl_of p))). lia. }
        rewrite El, Eh. destruct (sr_rtl (pl_of p)); rewrite CE; ring.
    + cbn [obind]. rewrite E. cbn [obind]. exists ([] :: boxes). split; [reflexivity|]. constructor; [|exact FB]. split.
      * intros (c & C1 & C2). exfalso. apply andb_false_iff in Co as [Co|Co]; apply Z.ltb_ge in Co; lia.
      * constructor.
Qed.

(** ** Text *)
Definition range_ok (sel : option (Z * Z)) : Prop := match sel with Some (s, e) => s <= e | None => True end.

Lemma run_clip_ok px sel p : In p ps -> range_ok sel -> exists clip, run_clip lay px sel (pl_run p) = Ok clip /\
  (forall first second, clip = Some (first, second) -> (first <= second)%Q) /\
  forall x wd c t c', match clip with None => c' = c | Some (lo, hi) => lit lo hi x wd c t c' end -> run_colors lay px sel p x wd c t c'.
Proof.
  intros P SE. unfold run_clip, run_colors. destruct sel as [[s e]|].
  2: { exists None. split; [reflexivity|]. split; [discriminate|]. auto. }
  cbn in SE. rewrite (@place_contains p s e P). cbn [obind]. destruct (_ && _) eqn:Co.
  - destruct (@place_range p s e P SE) as (lo & hi & Er & LH & El & Eh). rewrite Er. cbn [obind].
    eexists. split; [reflexivity|]. split; [intros ? ? [= <- <-]; lra|].
    intros x wd c t c' L. apply andb_true_iff in Co as [Co1 Co2]. apply Z.ltb_lt in Co1, Co2. split.
    + intros H1 H2 NS. exfalso. apply NS. exists (Z.max s (sr_start (pl_of p))). lia.
    + intros _ X0. destruct L as (L1 & L2 & L3).
      assert (A1 : (lo + px == lit_left lay px s e p)%Q) by (unfold lit_left; rewrite <- El, X0; ring).
      assert (A2 : (hi + px == lit_right lay px s e p)%Q) by (unfold lit_right; rewrite <- Eh, X0; ring).
      split; [|split].
      * intros H1 H2. apply L1; lra.
      * intros H1. destruct L2 as [L2|(L2 & L4 & L5)]; [lra|left; exact L2|right]. split; [exact L2|]. lra.
      * intros H1. destruct L3 as [L3|(L3 & L4 & L5)]; [lra|left; exact L3|right]. split; [exact L3|]. lra.
  - exists None. split; [reflexivity|]. split; [discriminate|]. intros x wd c t c' ->. split; [reflexivity|].
    intros (z & C1 & C2). exfalso. apply andb_false_iff in Co as [Co|Co]; apply Z.ltb_ge in Co; lia.
Qed.

Variable vars : cvars.
Variable glyph_info : Z -> Z -> picture.
Variable stroke_info : Z -> Z -> Z -> stroke_type -> picture.
Variable plain : Z.

Lemma put_at i px0 py0 c clip (C : Q -> Q -> Q -> color -> Prop) :
  (forall first second, clip = Some (first, second) -> (first <= second)%Q) ->
  (forall x wd t c', match clip with None => c' = c | Some (lo, hi) => lit lo hi x wd c t c' end -> C x wd t c') ->
  picture_at vars i px0 py0 C (put vars i px0 py0 c clip).
Proof. intros H1 H2. unfold picture_at, put. eapply shown_colors; [|apply emit_shown; exact H1]. intros t c' H. apply H2, H. Qed.

Lemma paint_ok px py sel : range_ok sel -> forall calls cur clip p,
  nth_error ps cur = Some p -> run_clip lay px sel cur = Ok clip ->
  (forall line run, In (DRun line run) calls -> exists q, nth_error ps run = Some q) ->
  exists pieces, paint vars glyph_info stroke_info plain lay px py sel clip calls = Ok (List.concat pieces) /\
    Forall2 (fun rc ds => exists q, nth_error ps (fst rc) = Some q /\ call_drawn vars glyph_info stroke_info plain lay px py sel q (snd rc) ds) (under cur calls) pieces.
Proof.
  intros SE. induction calls as [|c calls IH]; intros cur clip p Np Ec HR.
  - exists []. split; [reflexivity|constructor].
  - assert (P : In p ps) by (eapply nth_error_In; exact Np). destruct (places_nth _ _ _ _ _ Np) as (Pk & _).
    destruct (@run_clip_ok px sel p P SE) as (clip' & Ec' & C1 & C2). rewrite Pk, Ec in Ec'. injection Ec' as <-.
    assert (HR' : forall line run, In (DRun line run) calls -> exists q, nth_error ps run = Some q) by (intros l r H; apply (HR l r); right; exact H).
    destruct c as [line run|font g x yy k|font g x yy c|strike x yy w0 h c].
    + destruct (HR line run (or_introl eq_refl)) as (q & Nq). destruct (places_nth _ _ _ _ _ Nq) as (Qk & _).
      destruct (@run_clip_ok px sel q (nth_error_In _ _ Nq) SE) as (clip' & Eq & _). rewrite Qk in Eq.
      destruct (IH run clip' q Nq Eq HR') as (pieces & E & F). cbn [paint under]. rewrite Eq. cbn [obind]. rewrite E.
      exists ([] :: pieces). split; [reflexivity|]. constructor; [|exact F]. exists q. split; [exact Nq|reflexivity].
    + destruct (IH cur clip p Np Ec HR') as (pieces & E & F). cbn [paint under]. rewrite E. cbn [obind].
      eexists (_ :: pieces). split; [reflexivity|]. constructor; [|exact F]. exists p. split; [exact Np|]. cbn [snd call_drawn].
      apply put_at; [discriminate|]. intros x0 wd t c' H. exact H.
    + destruct (IH cur clip p Np Ec HR') as (pieces & E & F). cbn [paint under]. rewrite E. cbn [obind].
      eexists ((_ ++ _) :: pieces). split; [cbn [List.concat]; rewrite <- app_assoc; reflexivity|]. constructor; [|exact F]. exists p. split; [exact Np|]. cbn [snd call_drawn].
      do 2 eexists. split; [reflexivity|]. split; [destruct (cv_glyph_outlines vars); [apply plain_outline|constructor]|].
      split; [intros ->; reflexivity|]. cbv zeta. apply put_at; [exact C1|]. intros x0 wd t c' H. unfold its_color. rewrite <- white_bright. apply C2. exact H.
    + destruct (IH cur clip p Np Ec HR') as (pieces & E & F). cbn [paint under]. rewrite E. cbn [obind].
      eexists (_ :: pieces). split; [reflexivity|]. constructor; [|exact F]. exists p. split; [exact Np|]. cbn [snd call_drawn].
      unfold emit_plain. eapply shown_colors; [|apply emit_shown; exact C1]. intros t c' H. apply C2. exact H.
Qed.

(** ** Debugging aids *)
Lemma run_outlines_ok px py : forall calls qs, Forall2 run_call_ok calls qs -> (forall p, In p qs -> In p ps) ->
  exists ds, run_outlines plain lay px py calls = Ok ds /\ outlines_only ds.
Proof.
  intros calls qs F. induction F as [|[[[i k] x] yy] p calls qs (-> & -> & Hx & Hy) F IH]; intros IN.
  - exists []. split; [reflexivity|constructor].
  - destruct IH as (ds & E & O); [intros q Hq; apply IN; right; exact Hq|].
    assert (P : In p ps) by (apply IN; left; reflexivity).
    destruct (places_split _ _ _ _ _ P) as (_ & pre & post & Ed & L).
    destruct (@doc_run_view d y pre (pl_of p) post Ed) as (V1 & V2 & V3 & _ & _ & V4 & _). rewrite L in *.
    cbn [run_outlines]. rewrite V3. cbn [obind]. unfold get_run_glyph_count, get_run_glyph_end_index. rewrite V1, V2. cbn [omap obind vrun_of ru_glyph_end].
    replace (count_glyphs pre + run_len (pl_of p) - count_glyphs pre)%nat with (run_len (pl_of p)) by lia.
    assert (Lx : length (run_xs (pl_of p)) = S (run_len (pl_of p))) by (unfold run_xs, run_len; rewrite app_length, map_length; cbn; lia).
    pose proof (V4 0%nat ltac:(lia)) as W0. rewrite Nat.mul_0_r, Nat.add_0_r in W0. rewrite W0. destruct (vget_lt (run_xs (pl_of p)) (i:=0%nat)) as (x0 & -> & _); [lia|]. cbn [obind].
    rewrite (V4 (run_len (pl_of p)) (le_n _)). destruct (vget_lt (run_xs (pl_of p)) (i:=run_len (pl_of p))) as (x1 & -> & _); [lia|]. cbn [obind].
    destruct (@places_line_of w a y d p P) as (sl & d3 & d4 & Ed' & Ll & Ex & Ey).
    destruct (@doc_line_view d y d3 sl d4 Ed') as (_ & _ & V). rewrite <- Ll. rewrite V. cbn [obind li_ascent].
    destruct (line_height_of y d3 sl d4) as (h & Eh' & Hh). rewrite <- Ed' in Eh'. rewrite Eh'. cbn [obind].
    rewrite E. cbn [obind]. eexists. split; [reflexivity|]. apply Forall_app. split; [apply plain_outline|exact O].
Qed.
Lemma borders_ok px py lineX top h r base : (forall k, (k <= run_len r)%nat -> vget (lo_pos lay) (base + 2 * k) = vget (run_xs r) k) ->
  forall n i, (i + n = run_len r)%nat -> exists ds, borders plain lay px py lineX top h base i n = Ok ds /\ outlines_only ds.
Proof.
  intros V. assert (Lx : length (run_xs r) = S (run_len r)) by (unfold run_xs, run_len; rewrite app_length, map_length; cbn; lia).
  induction n as [|n IH]; intros i Hi; cbn [borders]; rewrite V by lia; (destruct (vget_lt (run_xs r) (i:=i)) as (x0 & -> & _); [lia|]); cbn [obind].
  - eexists. split; [reflexivity|]. apply plain_outline.
  - destruct (IH (S i)) as (ds & E & O); [lia|]. rewrite E. cbn [obind]. eexists. split; [reflexivity|]. apply Forall_app. split; [apply plain_outline|exact O].
Qed.
Lemma glyph_borders_ok px py : forall calls qs, Forall2 run_call_ok calls qs -> (forall p, In p qs -> In p ps) ->
  exists ds, glyph_borders plain lay px py calls = Ok ds /\ outlines_only ds.
Proof.
  intros calls qs F. induction F as [|[[[i k] x] yy] p calls qs (-> & -> & Hx & Hy) F IH]; intros IN.
  - exists []. split; [reflexivity|constructor].
  - destruct IH as (ds & E & O); [intros q Hq; apply IN; right; exact Hq|].
    assert (P : In p ps) by (apply IN; left; reflexivity).
    destruct (places_split _ _ _ _ _ P) as (_ & pre & post & Ed & L).
    destruct (@doc_run_view d y pre (pl_of p) post Ed) as (V1 & V2 & V3 & _ & _ & V4 & _). rewrite L in *.
    cbn [glyph_borders]. rewrite V3. cbn [obind]. unfold get_run_glyph_count, get_run_glyph_end_index. rewrite V1, V2. cbn [omap obind vrun_of ru_glyph_end].
    replace (count_glyphs pre + run_len (pl_of p) - count_glyphs pre)%nat with (run_len (pl_of p)) by lia.
    destruct (@places_line_of w a y d p P) as (sl & d3 & d4 & Ed' & Ll & Ex & Ey).
    destruct (@doc_line_view d y d3 sl d4 Ed') as (_ & _ & V). rewrite <- Ll. rewrite V. cbn [obind li_ascent].
    destruct (line_height_of y d3 sl d4) as (h & Eh' & Hh). rewrite <- Ed' in Eh'. rewrite Eh'. cbn [obind].
    destruct (@borders_ok px py x (py + yy - sl_ascent sl)%Q h (pl_of p) _ V4 (run_len (pl_of p)) 0%nat) as (ds' & E' & O'); [reflexivity|].
    rewrite E'. cbn [obind]. rewrite E. cbn [obind]. eexists. split; [reflexivity|]. apply Forall_app. split; assumption.
Qed.
End Doc.

(** ** Announcements of runs *)
Definition is_run (c : draw_call) : Prop := match c with DRun _ _ => True | _ => False end.
Lemma draw_glyphs_no_run l v m font X Y : forall n g p it us ss body it' us' ss',
  draw_glyphs n l v m font X Y g p it us ss = Ok (body, it', us', ss') -> Forall (fun c => ~ is_run c) body.
Proof.
  induction n as [|n IH]; intros g p it us ss body it' us' ss' E; cbn [draw_glyphs] in E; [injection E as <- _ _ _; constructor|].
  apply obind_ok_inv in E as (pX & _ & E). apply obind_ok_inv in E as (pY & _ & E). apply obind_ok_inv in E as (id & _ & E). apply obind_ok_inv in E as (c & _ & E).
  apply obind_ok_inv in E as ([ev it1] & _ & E). apply obind_ok_inv in E as (st & _ & E). apply obind_ok_inv in E as (prev & _ & E).
  apply obind_ok_inv in E as ([[[rest it2] us2] ss2] & Er & E).
  injection E as <- _ _ _.
  repeat match goal with |- Forall _ (_ ++ _) => apply Forall_app; split end;
    try (eapply IH; exact Er); repeat match goal with |- context [if ?b then _ else _] => destruct b end; repeat constructor; cbn; auto.
  all: eapply IH; exact Er.
Qed.
Lemma draw_runs_announced fm l v : forall calls g p out, draw_runs fm l v calls g p = Ok out ->
  (out = [] \/ exists line run rest, out = DRun line run :: rest) /\
  forall line run, In (DRun line run) out -> exists x yy, In (line, run, x, yy) calls.
Proof.
  induction calls as [|[[[i k] x] yy] calls IH]; intros g p out E; cbn [draw_runs] in E.
  - injection E as <-. split; [left; reflexivity|intros ? ? []].
  - apply obind_ok_inv in E as (r & _ & E). apply obind_ok_inv in E as (it & _ & E). apply obind_ok_inv in E as (st & _ & E).
    apply obind_ok_inv in E as ([[[body it'] us] ss] & Eb & E). apply obind_ok_inv in E as (sc & Es & E). apply obind_ok_inv in E as (uc & Eu & E).
    apply obind_ok_inv in E as (there & Et & E). injection E as <-. split; [right; eauto|].
    intros line run [H|H]; [injection H as <- <-; do 2 eexists; left; reflexivity|].
    apply draw_glyphs_no_run in Eb. rewrite Forall_forall in Eb.
    repeat (apply in_app_or in H as [H|H]).
    + exfalso. apply (Eb _ H). exact I.
    + exfalso. destruct (fi_strike it'); [apply obind_ok_inv in Es as (? & _ & Es)|]; injection Es as <-; [destruct H as [H|[]]; discriminate|destruct H].
    + exfalso. destruct (fi_under it'); [apply obind_ok_inv in Eu as (? & _ & Eu)|]; injection Eu as <-; [destruct H as [H|[]]; discriminate|destruct H].
    + destruct (IH _ _ _ Et) as [_ I']. destruct (I' _ _ H) as (x' & y' & I2). exists x', y'. right. exact I2.
Qed.
