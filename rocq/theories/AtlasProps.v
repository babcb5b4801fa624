(** C42 and C43: the glyph atlas. *)
From Verif Require Import Base FloatModel ColorModel BuilderModel FontSizeModel BitmapModel BitmapSpec BitmapProofs AtlasSpec AtlasModel AtlasProofs AtlasTextProofs.
Open Scope Z_scope.

(** Whatever is asked of the atlas, in whatever order, as long as every picture fits
    a page and can be drawn: every rectangle handed out lies inside a page, and two
    rectangles on the same page are the same one or have a pixel between them. *)
Theorem C42_requests : forall glyphs strokes rs,
  (forall rq, In rq rs -> exists s, font_size (rq_font rq) = Ok s /\ drawable EXTENT (asked glyphs strokes rq s)) ->
  exists a ans, asks glyphs strokes no_atlas rs = Ok (a, ans) /\
    (forall an n, In an ans -> an_picture an = OnPage n ->
      0 <= an_x an /\ 0 <= an_y an /\ 0 < an_w an /\ 0 < an_h an /\
      an_x an + an_w an <= EXTENT /\ an_y an + an_h an <= EXTENT /\ (n < List.length (at_pages a))%nat) /\
    (forall an1 an2 n, In an1 ans -> In an2 ans -> an_picture an1 = OnPage n -> an_picture an2 = OnPage n ->
      (an_x an1 = an_x an2 /\ an_y an1 = an_y an2 /\ an_w an1 = an_w an2 /\ an_h an1 = an_h an2) \/
      apart 1 (an_x an1) (an_y an1) (an_w an1) (an_h an1) (an_x an2) (an_y an2) (an_w an2) (an_h an2)).
Proof. exact no_overlap. Qed.
Print Assumptions C42_requests.

(** The packer of both atlases (padding 1 and 2): however many bitmaps are uploaded,
    each is inside its page and still there, unharmed, at the end; all are apart. *)
Theorem C42_uploads : forall pad bs, pad = PADDING \/ pad = MSDF_PADDING ->
  Forall (fun bc => 0 < bm_w (fst bc) <= EXTENT /\ 0 < bm_h (fst bc) <= EXTENT) bs ->
  exists ps l, uploads pad [] bs = Ok (ps, l) /\ List.length l = List.length bs /\
    (forall k b c n x y, nth_error bs k = Some (b, c) -> nth_error l k = Some (n, x, y) ->
      exists p, nth_error ps n = Some p /\ pg_color p = c /\
        0 <= x /\ 0 <= y /\ x + bm_w b <= EXTENT /\ y + bm_h b <= EXTENT /\
        forall dx dy, within b dx dy -> pg_image p (x + dx) (y + dy) = Some (pixel b dx dy)) /\
    (forall k k' b c n x y b' c' x' y', k <> k' ->
      nth_error bs k = Some (b, c) -> nth_error l k = Some (n, x, y) ->
      nth_error bs k' = Some (b', c') -> nth_error l k' = Some (n, x', y') ->
      apart pad x y (bm_w b) (bm_h b) x' y' (bm_w b') (bm_h b')).
Proof.
  intros pad bs Hp Hf. assert (Pad : 0 <= pad <= 100) by (destruct Hp; subst; unfold PADDING, MSDF_PADDING; lia).
  destruct (uploads_ok pad Pad bs [] [] Hf (Forall_nil _) (Forall_nil _) (FOP_nil _)) as (ps & l & E & _ & F & O & L).
  rewrite app_nil_r in *. exists ps, l. split; [exact E|]. split; [exact L|].
  assert (NC : forall k b c r, nth_error bs k = Some (b, c) -> nth_error l k = Some r -> nth_error (combine bs l) k = Some ((b, c), r)).
  { clear. revert l. induction bs as [|q bs IH]; intros [|r l] [|k] b c r0 H1 H2; cbn in *; try discriminate; [congruence|eapply IH; eauto]. }
  split.
  - intros k b c n x y H1 H2. rewrite Forall_forall in F. destruct (F ((b, c), (n, x, y))) as [_ (p & P1 & P2 & P3 & P4 & P5 & P6 & P7 & P8)].
    { apply in_rev. rewrite rev_involutive. eapply nth_error_In. apply NC; eauto. }
    exists p. repeat (split; [assumption|]). exact P8.
  - assert (PW : forall (T : Type) (R : T -> T -> Prop) (q : list T), ForallOrdPairs R (rev q) -> forall k k' u v, (k < k')%nat -> nth_error q k = Some u -> nth_error q k' = Some v -> R v u).
    { clear. intros T R q. induction q as [|a q IH]; intros H k k' u v Lt E1 E2; [destruct k; discriminate|]. cbn [rev] in H.
      assert (SP : ForallOrdPairs R (rev q) /\ Forall (fun z => R z a) (rev q)).
      { revert H. generalize (rev q). intros m. induction m as [|z m IHm]; intros H; [split; constructor|]. cbn [app] in H. inversion H as [|? ? H1 H2]. subst.
        apply Forall_app in H1. destruct H1 as [H1 H3]. destruct (IHm H2) as [I1 I2]. split; [constructor; assumption|constructor; [|exact I2]]. inversion H3. assumption. }
      destruct SP as [S1 S2]. destruct k' as [|k']; [lia|]. cbn [nth_error] in E2. destruct k as [|k].
      - cbn in E1. inversion E1. subst. rewrite Forall_forall in S2. apply S2. apply in_rev. rewrite rev_involutive. eapply nth_error_In; eauto.
      - cbn [nth_error] in E1. apply (IH S1 k k'); [lia|assumption|assumption]. }
    intros k k' b c n x y b' c' x' y' Ne H1 H2 H3 H4. pose proof (NC _ _ _ _ H1 H2) as N1. pose proof (NC _ _ _ _ H3 H4) as N2.
    destruct (Nat.lt_total k k') as [Lt|[Eq|Lt]]; [|congruence|].
    + pose proof (PW _ _ _ O _ _ _ _ Lt N1 N2) as R. cbn in R. specialize (R eq_refl). unfold apart in *. lia.
    + pose proof (PW _ _ _ O _ _ _ _ Lt N2 N1) as R. cbn in R. exact (R eq_refl).
Qed.
Print Assumptions C42_uploads.

(** Every answer, at the end of the history, is the picture that was asked for: the
    right size and offset, and the page shows it where the answer says.  It assumes
    that no face is declared with two weights or styles, and that the strokes of a face are
    all asked for in one weight and style. *)
Theorem C43_answers_partial : forall glyphs strokes rs,
  (forall rq, In rq rs -> exists s, font_size (rq_font rq) = Ok s /\ drawable EXTENT (asked glyphs strokes rq s)) ->
  declared_once rs -> stroked_alike rs ->
  exists a ans, asks glyphs strokes no_atlas rs = Ok (a, ans) /\
    Forall2 (fun rq an => exists s, font_size (rq_font rq) = Ok s /\
      answers EXTENT (map (fun p => (pg_image p, pg_color p)) (at_pages a)) (asked glyphs strokes rq s) (lowered (rq_font rq)) an) rs ans.
Proof. exact all_answered. Qed.
Print Assumptions C43_answers_partial.

(** ** Findings *)
Definition face_of (h w s : Z) : face_handle := {| fh_handle := h; fh_weight := w; fh_style := s |}.
Definition font_of (f : face_handle) (size w s : Z) (sub super : bool) : ssfont :=
  {| sf_face := f; sf_size := size; sf_weight := w; sf_style := s; sf_sub := sub; sf_super := super; sf_small := false;
     sf_syn_sub := sub; sf_syn_super := super; sf_syn_small := false |}.
Definition grey (w h : Z) : raster := {| ra_w := w; ra_h := h; ra_x := f32_1; ra_y := f32_1; ra_format := R8; ra_byte := fun i => 7 * i mod 256 |}.
(** A font engine whose bold pictures are one column wider; glyph 0 is blank. *)
Definition engine (lk : look) (g : Z) : raster :=
  grey (if g =? 0 then 0 else lk_size lk + match lk_bold lk with Some _ => 1 | None => 0 end) 2.
Definition stroke_engine (lk : look) (g t j : Z) : raster := engine lk g.
Definition widths (o : outcome (atlas atlas_key * list answer)) : outcome (list (Z * Z * Z * Z)) :=
  do r <- o; Ok (map (fun an => (an_width an, an_x an, an_y an, an_w an)) (snd r)).
Lemma grey_drawable w h : 0 <= w <= EXTENT -> 0 <= h <= EXTENT -> drawable EXTENT (grey w h).
Proof. intros Hw Hh. split; [exact Hw|]. split; [exact Hh|]. split; [intros i; cbn; lia|]. intros. eexists. reflexivity. Qed.

Definition wrong_answer (glyphs : look -> Z -> raster) (strokes : look -> Z -> Z -> Z -> raster) (rs : list request) : Prop :=
  (forall rq, In rq rs -> exists s, font_size (rq_font rq) = Ok s /\ drawable EXTENT (asked glyphs strokes rq s)) /\
  exists a ans k rq an s, asks glyphs strokes no_atlas rs = Ok (a, ans) /\ nth_error rs k = Some rq /\ nth_error ans k = Some an /\
    font_size (rq_font rq) = Ok s /\ an_width an <> ra_w (asked glyphs strokes rq s).

Ltac reqs := intros rq [<-|[<-|[]]]; (eexists; split; [vm_compute; reflexivity|]); apply grey_drawable; vm_compute; split; congruence.
(** The stroke of a bold glyph is answered with the stroke of the regular one. *)
Theorem C43_stroke_weight_refuted : exists glyphs strokes rs, declared_once rs /\ wrong_answer glyphs strokes rs.
Proof.
  exists engine, stroke_engine, [ {| rq_font := font_of (face_of 5 3 0) 20 3 0 false false; rq_glyph := 1; rq_stroke := Some (2, 0) |};
                                  {| rq_font := font_of (face_of 5 3 0) 20 6 0 false false; rq_glyph := 1; rq_stroke := Some (2, 0) |} ].
  split; [intros r1 r2 [<-|[<-|[]]] [<-|[<-|[]]] _; split; reflexivity|]. split; [reqs|].
  destruct (asks engine stroke_engine no_atlas _) as [[a ans]| |] eqn:E.
  2, 3: exfalso; apply (f_equal widths) in E; vm_compute in E; discriminate E.
  pose proof (f_equal widths E) as W. vm_compute in W. injection W as W. clear E.
  destruct ans as [|a1 [|a2 []]]; try discriminate W. injection W as W1 _ _ _ W2 _ _ _.
  exists a, [a1; a2], 1%nat. do 3 eexists. split; [reflexivity|]. split; [reflexivity|]. split; [reflexivity|]. split; [vm_compute; reflexivity|]. intros C. vm_compute in C. congruence.
Qed.
Print Assumptions C43_stroke_weight_refuted.

(** A face declared both as regular and as bold: the bold glyph is answered with the
    emboldened one, or the other way round. *)
Theorem C43_source_weight_refuted : exists glyphs strokes rs, stroked_alike rs /\ wrong_answer glyphs strokes rs.
Proof.
  exists engine, stroke_engine, [ {| rq_font := font_of (face_of 5 3 0) 20 6 0 false false; rq_glyph := 1; rq_stroke := None |};
                                  {| rq_font := font_of (face_of 5 6 0) 20 6 0 false false; rq_glyph := 1; rq_stroke := None |} ].
  split; [intros r1 r2 [<-|[<-|[]]] [<-|[<-|[]]] H; cbn in H; congruence|]. split; [reqs|].
  destruct (asks engine stroke_engine no_atlas _) as [[a ans]| |] eqn:E.
  2, 3: exfalso; apply (f_equal widths) in E; vm_compute in E; discriminate E.
  pose proof (f_equal widths E) as W. vm_compute in W. injection W as W. clear E.
  destruct ans as [|a1 [|a2 []]]; try discriminate W. injection W as W1 _ _ _ W2 _ _ _.
  exists a, [a1; a2], 1%nat. do 3 eexists. split; [reflexivity|]. split; [reflexivity|]. split; [reflexivity|]. split; [vm_compute; reflexivity|]. intros C. vm_compute in C. congruence.
Qed.
Print Assumptions C43_source_weight_refuted.

(** Asking twice for a glyph without pixels (a space) takes the address of a member of
    a page that does not exist. *)
Theorem C43_blank_refuted : exists glyphs strokes rq a an an', let rs := [rq; rq] in
  (forall r, In r rs -> exists s, font_size (rq_font r) = Ok s /\ drawable EXTENT (asked glyphs strokes r s)) /\
  asks glyphs strokes no_atlas rs = Ok (a, [an; an']) /\ an_picture an = Nothing /\ an_picture an' = NullMember.
Proof.
  eexists engine, stroke_engine, {| rq_font := font_of (face_of 5 3 0) 20 3 0 false false; rq_glyph := 0; rq_stroke := None |}, _, _, _. cbv zeta. split; [reqs|].
  split; [vm_compute; reflexivity|]. split; reflexivity.
Qed.
Print Assumptions C43_blank_refuted.

(** A coloured glyph with a transparent pixel: its colour is divided by zero and the
    result converted to an integer. *)
Theorem C43_transparent_refuted : exists glyphs strokes rs,
  (forall rq, In rq rs -> exists s, font_size (rq_font rq) = Ok s /\
    0 <= ra_w (asked glyphs strokes rq s) <= EXTENT /\ 0 <= ra_h (asked glyphs strokes rq s) <= EXTENT /\
    forall i, 0 <= ra_byte (asked glyphs strokes rq s) i < 256) /\
  asks glyphs strokes no_atlas rs = UB.
Proof.
  exists (fun _ _ => {| ra_w := 1; ra_h := 1; ra_x := f32_0; ra_y := f32_0; ra_format := BGRA8; ra_byte := fun _ => 0 |}), stroke_engine,
    [ {| rq_font := font_of (face_of 5 3 0) 20 3 0 false false; rq_glyph := 1; rq_stroke := None |} ].
  split; [|vm_compute; reflexivity]. intros rq [<-|[]]. eexists. split; [vm_compute; reflexivity|]. cbn. unfold EXTENT. split; [lia|]. split; [lia|]. intros _. lia.
Qed.
Print Assumptions C43_transparent_refuted.

(** A picture wider than a page is answered with a rectangle that leaves it. *)
Theorem C42_wide_refuted : exists ps l b x, uploads PADDING [] [(b, false)] = Ok (ps, l) /\ sized b /\ l = [(0%nat, x, 0)] /\ EXTENT < x + bm_w b.
Proof.
  eexists _, _, (bm_new 2049 1), _. split; [vm_compute; reflexivity|]. split; [vm_compute; repeat split; congruence|]. split; [reflexivity|vm_compute; reflexivity].
Qed.
Print Assumptions C42_wide_refuted.

(** The theorems speak about real histories: a subscript, a stroke, a repetition and
    a blank glyph; and uploads that fill a line and a page. *)
Example C43_example :
  let rs := [ {| rq_font := font_of (face_of 5 3 0) 20 3 0 false false; rq_glyph := 1; rq_stroke := None |};
              {| rq_font := font_of (face_of 5 3 0) 30 3 0 true false; rq_glyph := 1; rq_stroke := None |};
              {| rq_font := font_of (face_of 5 3 0) 30 3 0 true false; rq_glyph := 1; rq_stroke := Some (1, 0) |};
              {| rq_font := font_of (face_of 5 3 0) 20 3 0 false false; rq_glyph := 1; rq_stroke := None |};
              {| rq_font := font_of (face_of 5 3 0) 20 3 0 false false; rq_glyph := 0; rq_stroke := None |} ] in
  (forall rq, In rq rs -> exists s, font_size (rq_font rq) = Ok s /\ drawable EXTENT (asked engine stroke_engine rq s)) /\
  declared_once rs /\ stroked_alike rs /\
  widths (asks engine stroke_engine no_atlas rs) = Ok [(20, 0, 0, 20); (21, 21, 0, 21); (21, 43, 0, 21); (20, 0, 0, 20); (0, 0, 0, 0)].
Proof.
  cbv zeta. split; [|split; [|split]].
  - intros rq H. cbn [In] in H. repeat (destruct H as [<-|H]; [eexists; split; [vm_compute; reflexivity|]; apply grey_drawable; vm_compute; split; congruence|]). destruct H.
  - intros r1 r2 H1 H2 _. cbn [In] in H1, H2.
    repeat (destruct H1 as [<-|H1]; [repeat (destruct H2 as [<-|H2]; [split; reflexivity|]); destruct H2|]). destruct H1.
  - intros r1 r2 H1 H2 _ _ _. cbn [In] in H1, H2.
    repeat (destruct H1 as [<-|H1]; [repeat (destruct H2 as [<-|H2]; [split; reflexivity|]); destruct H2|]). destruct H1.
  - vm_compute. reflexivity.
Qed.
Example C42_example :
  (do r <- uploads PADDING [] [(bm_new 2000 100, false); (bm_new 60 30, false); (bm_new 60 1930, true); (bm_new 60 1930, false); (bm_new 10 10, false)]; Ok (snd r))
  = Ok [(0%nat, 0, 0); (0%nat, 0, 101); (1%nat, 0, 0); (0%nat, 61, 101); (0%nat, 122, 101)].
Proof. vm_compute. reflexivity. Qed.
