(** C108: from FreeType's pictures to the pages of the atlas. *)
From Verif Require Import Base BaseFacts FloatModel ColorModel ColorProofs BuilderModel AtlasSpec AtlasModel AtlasProofs AtlasTextProofs AtlasProps RasterSpec RasterModel RasterProofs.
Open Scope Z_scope.

(** A picture the atlas can show. *)
Definition drawable_picture (rq : request) (p : ft_slot) : Prop :=
  well_formed (fs_bitmap p) /\ tight (fs_bitmap p) /\ no_holes (fs_bitmap p) /\ fits EXTENT (fs_bitmap p) /\
  (rq_stroke rq <> None -> fb_mode (fs_bitmap p) = Gray).

Lemma byte_ok l i : Forall (fun z => 0 <= z < 256) l -> 0 <= nth (Z.to_nat i) l 0 < 256.
Proof. intros F. destruct (nth_in_or_default (Z.to_nat i) l 0) as [I|E]; [rewrite Forall_forall in F; apply (F _ I)|lia]. Qed.
Definition format_of (m : pixel_mode) : raster_format := match m with Gray => R8 | Bgra => BGRA8 | _ => UNKNOWN end.

Section one.
  Variables (rq : request) (p : ft_slot).
  Hypothesis D : drawable_picture rq p.
  Notation b := (fs_bitmap p).
  Notation r := (ri_raster (info_of p (format_of (fb_mode b)))).

  Lemma sizes : ra_w r = fb_width b /\ ra_h r = fb_rows b.
  Proof. destruct D as ((_ & R1 & R2 & _) & _ & _ & (F1 & F2) & _). unfold EXTENT in *. cbn. unfold wrap32. rewrite !Z.mod_small by lia. auto. Qed.
  Lemma place x y k : 0 <= x < fb_width b -> 0 <= y < fb_rows b ->
    row_start b y + pixel_bytes (fb_mode b) * x + k = pixel_bytes (fb_mode b) * (y * fb_width b + x) + k.
  Proof.
    intros X Y. destruct D as (_ & T & _). unfold row_start, tight in *. rewrite T. assert (0 <= pixel_bytes (fb_mode b)) by (destruct (fb_mode b); cbn; lia).
    destruct (Z.leb_spec 0 (pixel_bytes (fb_mode b) * fb_width b)); nia.
  Qed.
  Lemma shade_shows x y : 0 <= x < fb_width b -> 0 <= y < fb_rows b -> exists v, shade r x y = Ok v /\ pixel_shows b x y v.
  Proof.
    intros X Y. destruct sizes as [Sw _]. unfold shade, pixel_shows. rewrite Sw. destruct D as (W & T & N & _). cbn [info_of ri_raster ra_format ra_byte].
    destruct W as ([M|M] & _ & _ & _ & _ & F).
    - pose proof (place x y 0 X Y) as P. unfold ft_byte. rewrite P, M. cbn [format_of pixel_bytes]. eexists. split; [reflexivity|].
      do 4 f_equal. f_equal. lia.
    - pose proof (place x y) as P. destruct (N M x y X Y) as [N0 N1]. rewrite M. cbn [format_of].
      assert (B : forall k, nth (Z.to_nat (4 * (y * fb_width b + x) + k)) (fb_buffer b) 0 = ft_byte b x y k).
      { intros k. unfold ft_byte. rewrite P by assumption. rewrite M. reflexivity. }
      cbv zeta. rewrite !B.
      assert (R : forall k, 0 <= ft_byte b x y k < 256) by (intros k; apply byte_ok, F).
      destruct (quotient_ok (ft_byte b x y 2) (ft_byte b x y 3)) as (vr & Er & Pr); [pose proof (R 3); lia|pose proof (R 2); pose proof (N1 2); lia|].
      destruct (quotient_ok (ft_byte b x y 1) (ft_byte b x y 3)) as (vg & Eg & Pg); [pose proof (R 3); lia|pose proof (R 1); pose proof (N1 1); lia|].
      destruct (quotient_ok (ft_byte b x y 0) (ft_byte b x y 3)) as (vb & Eb & Pb); [pose proof (R 3); lia|pose proof (R 0); pose proof (N1 0); lia|].
      eexists. split; [|exists vr, vg, vb; split; [reflexivity|]; split; [exact Pr|]; split; [exact Pg|exact Pb]].
      fold (channel (ft_byte b x y 0)) (channel (ft_byte b x y 1)) (channel (ft_byte b x y 2)) (channel (ft_byte b x y 3)).
      unfold to_argb. cbn [c_r c_g c_b c_a]. change (fun z : Z => f32_div (f32_of_Z z) f32_255) with channel.
      change (f32_div (f32_of_Z (ft_byte b x y 0)) f32_255) with (channel (ft_byte b x y 0)). change (f32_div (f32_of_Z (ft_byte b x y 1)) f32_255) with (channel (ft_byte b x y 1)).
      change (f32_div (f32_of_Z (ft_byte b x y 2)) f32_255) with (channel (ft_byte b x y 2)). change (f32_div (f32_of_Z (ft_byte b x y 3)) f32_255) with (channel (ft_byte b x y 3)).
      rewrite Er, Eg, Eb. cbn [obind]. rewrite channel_byte_ok by (exact (R 3)). cbn [obind]. rewrite land255, (Z.mod_small _ _ (R 3)). f_equal. apply pack4_eq; try exact (R 3); lia.
  Qed.
  Lemma picture_drawable : drawable EXTENT r.
  Proof.
    destruct sizes as [Sw Sh]. pose proof D as ((_ & R1 & R2 & _ & _ & F) & _ & _ & (F1 & F2) & _). unfold drawable. rewrite Sw, Sh.
    split; [lia|]. split; [lia|]. split; [intros i; apply byte_ok, F|]. intros dx dy X Y. destruct (shade_shows dx dy X Y) as (v & E & _). exists v. exact E.
  Qed.
  Lemma bytes_there : draw_info (info_of p (format_of (fb_mode b))) = draw_raster r.
  Proof.
    destruct sizes as [Sw Sh]. unfold draw_info. cbv zeta. rewrite Sw, Sh. cbn [info_of ri_data]. destruct D as ((M & R1 & R2 & _ & L & _) & T & _). unfold tight in T. rewrite T in L.
    assert (pixel_bytes (fb_mode b) * fb_width b = Z.abs (pixel_bytes (fb_mode b) * fb_width b)) as A by (destruct (fb_mode b); cbn [pixel_bytes]; lia). rewrite <- A in L.
    match goal with |- (if ?c <=? ?d then _ else _) = _ => destruct (Z.leb_spec c d) as [_|H]; [reflexivity|exfalso] end.
    unfold raster_step in H. cbn [info_of ri_raster ra_format] in H. destruct M as [M|M]; rewrite M in *; cbn [format_of pixel_bytes] in *; nia.
  Qed.
  Lemma answers_placed pages low an : answers EXTENT pages r low an -> placed pages p low an.
  Proof.
    destruct sizes as [Sw Sh]. intros (A1 & A2 & A3 & A4 & A5 & _). rewrite Sw, Sh in *. cbv zeta. unfold placed. split; [exact A1|]. split; [exact A2|]. split; [exact A3|]. split; [exact A4|].
    intros W H. destruct (A5 W H) as (n & t & B1 & B2 & (_ & _ & _ & _ & B3) & B4 & B5 & B6). exists n, t. split; [exact B1|]. split; [exact B2|].
    split; [rewrite B6; cbn [info_of ri_raster ra_format]; destruct (fb_mode b); cbn; split; congruence|]. split; [exact B4|]. split; [exact B5|].
    intros x y X Y. rewrite Sw, Sh in B3. destruct (B3 x y X Y) as (v & E1 & E2). destruct (shade_shows x y X Y) as (v' & E3 & E4). exists v. split; [exact E2|]. congruence.
  Qed.
End one.

Section all.
  Variables (pictures : look -> Z -> ft_slot) (strokes : look -> Z -> Z -> Z -> option ft_slot).
  Definition nothing : raster := {| ra_w := 0; ra_h := 0; ra_x := f32_0; ra_y := f32_0; ra_format := UNKNOWN; ra_byte := fun _ => 0 |}.
  Definition glyphs (lk : look) (g : Z) : raster := ri_raster (rasterize_glyph_internal (pictures lk g)).
  Definition outlines (lk : look) (g t j : Z) : raster := match strokes lk g t j with Some p => ri_raster (info_of p R8) | None => nothing end.
  Definition request_ok (rq : request) : Prop :=
    exists s p, font_size (rq_font rq) = Ok s /\ ft_asked pictures strokes rq s = Some p /\ drawable_picture rq p.

  Lemma asked_is rq s p : ft_asked pictures strokes rq s = Some p -> drawable_picture rq p ->
    asked glyphs outlines rq s = ri_raster (info_of p (format_of (fb_mode (fs_bitmap p)))).
  Proof.
    unfold ft_asked, asked, glyphs, outlines. intros E D. destruct (rq_stroke rq) as [[t j]|] eqn:Es; [|injection E as E; rewrite E; reflexivity].
    rewrite E. destruct D as (_ & _ & _ & _ & G). rewrite G by congruence. reflexivity.
  Qed.
  Lemma ask_picture_eq a rq : request_ok rq -> ask_picture pictures strokes a rq = ask glyphs outlines a rq.
  Proof.
    intros (s & p & Es & E & D). rewrite (ask_eq glyphs outlines a rq s Es), (asked_is _ _ _ E D). unfold ask_picture. rewrite Es. cbn [obind].
    assert (L : {| lk_face := fh_handle (sf_face (rq_font rq)); lk_size := s; lk_slant := synthetic_slant (rq_font rq); lk_bold := synthetic_bold (rq_font rq) |} = look_of (rq_font rq) s).
    { unfold look_of, synthetic_slant, synthetic_bold. f_equal; [now rewrite Z.eqb_sym|now rewrite Z.eqb_sym]. }
    rewrite L, baseline_lowered. unfold key_of. pose proof (bytes_there rq p D) as B. unfold ft_asked in E. destruct (rq_stroke rq) as [[t j]|] eqn:Er.
    - rewrite E. cbn [rasterize_outline_internal obind]. destruct D as (_ & _ & _ & _ & G). rewrite (G ltac:(congruence)) in *. cbn [format_of] in B. rewrite B. reflexivity.
    - injection E as E. unfold rasterize_glyph_internal. rewrite E. fold (format_of (fb_mode (fs_bitmap p))). rewrite B. reflexivity.
  Qed.
  Lemma ask_pictures_eq rs : forall a, (forall rq, In rq rs -> request_ok rq) -> ask_pictures pictures strokes a rs = asks glyphs outlines a rs.
  Proof.
    induction rs as [|rq rs IH]; intros a H; [reflexivity|]. cbn [ask_pictures asks]. rewrite ask_picture_eq by (apply H; now left).
    destruct (ask glyphs outlines a rq) as [[a1 an]| |]; cbn [obind]; [|reflexivity|reflexivity]. rewrite IH; [reflexivity|]. intros q I. apply H. now right.
  Qed.
End all.

(** Every answer, at the end of the history, has the size and place FreeType gave the picture,
    and its rectangle of the page shows FreeType's pixels.  It assumes rows without gaps, from the
    top, coloured pictures without transparent pixels, and what C43 assumes. *)
Theorem C108_pages_partial : forall pictures strokes rs,
  (forall rq, In rq rs -> exists s p, font_size (rq_font rq) = Ok s /\ ft_asked pictures strokes rq s = Some p /\ drawable_picture rq p) ->
  declared_once rs -> stroked_alike rs ->
  exists a ans, ask_pictures pictures strokes no_atlas rs = Ok (a, ans) /\
    Forall2 (fun rq an => exists s p, font_size (rq_font rq) = Ok s /\ ft_asked pictures strokes rq s = Some p /\
      placed (map (fun p => (pg_image p, pg_color p)) (at_pages a)) p (lowered (rq_font rq)) an) rs ans.
Proof.
  intros pictures strokes rs H D1 D2. rewrite ask_pictures_eq by exact H.
  destruct (C43_answers_partial (glyphs pictures) (outlines strokes) rs) as (a & ans & E & F); [|exact D1|exact D2|].
  { intros rq I. destruct (H rq I) as (s & p & Es & Ep & D). exists s. split; [exact Es|]. rewrite (asked_is _ _ _ _ _ Ep D). apply (picture_drawable rq p D). }
  exists a, ans. split; [exact E|]. clear E D1 D2. revert H. induction F as [|rq an rs ans (s & Es & A) F IH]; intros H; [constructor|]. constructor.
  - destruct (H rq (or_introl eq_refl)) as (s' & p & Es' & Ep & D). rewrite Es in Es'. injection Es' as <-. exists s, p. split; [exact Es|]. split; [exact Ep|].
    rewrite (asked_is _ _ _ _ _ Ep D) in A. apply (answers_placed rq p D). exact A.
  - apply IH. intros q I. apply H. now right.
Qed.
Print Assumptions C108_pages_partial.

(** ** Findings *)
Definition font : ssfont := font_of (face_of 5 3 0) 20 3 0 false false.
Definition filled (g : Z) : request := {| rq_font := font; rq_glyph := g; rq_stroke := None |}.
Definition no_strokes (lk : look) (g t j : Z) : option ft_slot := None.
(** A picture of which the pages show something else. *)
Definition wrong_picture (b : ft_bitmap) : Prop :=
  well_formed b /\ fits EXTENT b /\ no_holes b /\
  exists a an n t x y v, ask_picture (fun _ _ => {| fs_bitmap := b; fs_left := 0; fs_top := 0 |}) no_strokes no_atlas (filled 1) = Ok (a, an) /\
    an_picture an = OnPage n /\ nth_error (map pg_image (at_pages a)) n = Some t /\ 0 <= x < fb_width b /\ 0 <= y < fb_rows b /\
    t (an_x an + x) (an_y an + y) = Some v /\ ~ pixel_shows b x y v.
(** The page and the first pixel of the second row. *)
Definition second_row (o : outcome (atlas atlas_key * answer)) : option (picture * option Z) :=
  match o with
  | Ok (a, an) => Some (an_picture an, match map pg_image (at_pages a) with t :: _ => t (an_x an + 0) (an_y an + 1) | [] => None end)
  | _ => None
  end.
Ltac wrong := split; [unfold well_formed; cbn; repeat split; try lia; [now left|repeat constructor; lia]|];
  split; [unfold fits, EXTENT; cbn; lia|]; split; [intros C; discriminate C|].
Definition padded : ft_bitmap := {| fb_rows := 2; fb_width := 3; fb_pitch := 4; fb_buffer := [10; 20; 30; 0; 40; 50; 60; 0]; fb_mode := Gray |}.
(** Rows are padded: the distance of the rows is not looked at, and every row but the first is shown
    shifted. *)
Theorem C108_padding_refuted : exists b, 0 < fb_pitch b /\ wrong_picture b.
Proof.
  exists padded. split; [reflexivity|]. wrong.
  destruct (ask_picture (fun _ _ => {| fs_bitmap := padded; fs_left := 0; fs_top := 0 |}) no_strokes no_atlas (filled 1)) as [[a an]| |] eqn:E.
  all: pose proof (f_equal second_row E) as V.
  all: match type of V with ?l = _ => let l' := eval vm_compute in l in replace l with l' in V by (vm_compute; reflexivity) end.
  2, 3: discriminate V.
  cbn [second_row] in V. injection V as V1 V2. clear E. destruct (map pg_image (at_pages a)) as [|t ts] eqn:Et; [discriminate V2|].
  exists a, an, 0%nat, t, 0, 1. eexists. split; [reflexivity|]. split; [symmetry; exact V1|]. split; [rewrite Et; reflexivity|]. split; [cbn; lia|]. split; [cbn; lia|].
  split; [symmetry; exact V2|]. vm_compute. discriminate.
Qed.
Print Assumptions C108_padding_refuted.
Definition upward : ft_bitmap := {| fb_rows := 2; fb_width := 3; fb_pitch := -3; fb_buffer := [40; 50; 60; 10; 20; 30]; fb_mode := Gray |}.
(** Rows stored from the lowest on: the glyph is shown upside down. *)
Theorem C108_upside_down_refuted : exists b, fb_pitch b = - fb_width b /\ wrong_picture b.
Proof.
  exists upward. split; [reflexivity|]. wrong.
  destruct (ask_picture (fun _ _ => {| fs_bitmap := upward; fs_left := 0; fs_top := 0 |}) no_strokes no_atlas (filled 1)) as [[a an]| |] eqn:E.
  all: pose proof (f_equal second_row E) as V.
  all: match type of V with ?l = _ => let l' := eval vm_compute in l in replace l with l' in V by (vm_compute; reflexivity) end.
  2, 3: discriminate V.
  cbn [second_row] in V. injection V as V1 V2. clear E. destruct (map pg_image (at_pages a)) as [|t ts] eqn:Et; [discriminate V2|].
  exists a, an, 0%nat, t, 0, 1. eexists. split; [reflexivity|]. split; [symmetry; exact V1|]. split; [rewrite Et; reflexivity|]. split; [cbn; lia|]. split; [cbn; lia|].
  split; [symmetry; exact V2|]. vm_compute. discriminate.
Qed.
Print Assumptions C108_upside_down_refuted.
(** FreeType sets the size of a picture before it asks for memory for it.  If there is none the
    picture has a size and a null address; the error is not looked at and the address is read. *)
Theorem C108_memory_refuted : forall a w h left top pictures strokes,
  0 < w < 2 ^ 32 -> 0 < h < 2 ^ 32 -> at_cache a = [] ->
  (forall lk g, pictures lk g = {| fs_bitmap := {| fb_rows := h; fb_width := w; fb_pitch := w; fb_buffer := []; fb_mode := Gray |}; fs_left := left; fs_top := top |}) ->
  ask_picture pictures strokes a (filled 1) = UB.
Proof.
  intros a w h left top pictures strokes W H C P. unfold ask_picture. replace (font_size (rq_font (filled 1))) with (Ok 20) by reflexivity. cbn [obind]. cbn [filled rq_stroke].
  rewrite P.
  match goal with |- context [draw_info ?r] => assert (U : draw_info r = UB) end.
  { unfold draw_info. cbn [rasterize_glyph_internal info_of ri_raster ri_data ra_w ra_h ra_format fs_bitmap fb_width fb_rows fb_buffer fb_mode raster_step List.length Z.of_nat].
    unfold wrap32. rewrite !Z.mod_small by lia. cbv zeta.
    match goal with |- (if ?c <=? ?d then _ else _) = _ => destruct (Z.leb_spec c d) as [L|_]; [cbn in L; nia|reflexivity] end. }
  rewrite U. unfold fetch, cached. rewrite C. reflexivity.
Qed.
Print Assumptions C108_memory_refuted.
(** A stroke FreeType cannot draw is read as a picture. *)
Theorem C108_stroke_refuted : forall a g t j pictures strokes, at_cache a = [] -> (forall lk, strokes lk g t j = None) ->
  ask_picture pictures strokes a {| rq_font := font; rq_glyph := g; rq_stroke := Some (t, j) |} = UB.
Proof.
  intros a g t j pictures strokes C P. unfold ask_picture. cbn [rq_font rq_stroke rq_glyph]. replace (font_size font) with (Ok 20) by reflexivity. cbn [obind].
  rewrite P. unfold fetch, cached. rewrite C. reflexivity.
Qed.
Print Assumptions C108_stroke_refuted.

(** ** A history that meets the hypotheses: a grey glyph, a coloured one and a stroke *)
Definition small_grey : ft_slot := {| fs_bitmap := {| fb_rows := 2; fb_width := 3; fb_pitch := 3; fb_buffer := [0; 20; 255; 40; 50; 60]; fb_mode := Gray |}; fs_left := 1; fs_top := 9 |}.
Definition small_colour : ft_slot := {| fs_bitmap := {| fb_rows := 1; fb_width := 2; fb_pitch := 8; fb_buffer := [0; 100; 200; 255; 10; 7; 0; 30]; fb_mode := Bgra |}; fs_left := -2; fs_top := 4 |}.
Definition demo (lk : look) (g : Z) : ft_slot := if g =? 1 then small_grey else small_colour.
Definition demo_strokes (lk : look) (g t j : Z) : option ft_slot := Some small_grey.
Definition demo_requests : list request := [filled 1; filled 2; {| rq_font := font; rq_glyph := 2; rq_stroke := Some (2, 0) |}; filled 1].
Example C108_requests : (forall rq, In rq demo_requests -> request_ok demo demo_strokes rq) /\ declared_once demo_requests /\ stroked_alike demo_requests.
Proof.
  assert (G : forall rq, drawable_picture rq small_grey).
  { intros rq. split; [unfold well_formed; cbn; repeat split; try lia; [now left|repeat constructor; lia]|]. split; [reflexivity|]. split; [intros C; discriminate C|].
    split; [unfold fits, EXTENT; cbn; lia|reflexivity]. }
  assert (C : drawable_picture (filled 2) small_colour).
  { split; [unfold well_formed; cbn; repeat split; try lia; [now right|repeat constructor; lia]|]. split; [reflexivity|].
    split; [|split; [unfold fits, EXTENT; cbn; lia|intros X; now elim X]]. intros _ x y X Y. cbn in X, Y. assert (y = 0) by lia. subst y.
    assert (T : x = 0 \/ x = 1) by lia. assert (K : forall k, 0 <= k < 3 -> k = 0 \/ k = 1 \/ k = 2) by (intros; lia).
    destruct T as [-> | ->]; (split; [reflexivity|]); intros k Hk; destruct (K k Hk) as [->|[->| ->]]; vm_compute; congruence. }
  split; [|split].
  - intros rq [<-|[<-|[<-|[<-|[]]]]]; exists 20; eexists; (split; [reflexivity|]); (split; [reflexivity|]); [apply G|exact C|apply G|apply G].
  - intros r1 r2 [<-|[<-|[<-|[<-|[]]]]] [<-|[<-|[<-|[<-|[]]]]] _; split; reflexivity.
  - intros r1 r2 [<-|[<-|[<-|[<-|[]]]]] [<-|[<-|[<-|[<-|[]]]]] _ _ _; split; reflexivity.
Qed.
(** The second pixel of the coloured glyph: 10, 7, 0 of 30 are 85, 59, 0 of 255. *)
Example C108_colour : match ask_pictures demo demo_strokes no_atlas demo_requests with
  | Ok (a, [_; c; _; _]) => match an_picture c with OnPage n => option_map (fun pg => pg_image pg (an_x c + 1) (an_y c)) (nth_error (at_pages a) n) | _ => None end
  | _ => None end = Some (Some (30 * 2 ^ 24 + 85 * 2 ^ 16 + 59 * 2 ^ 8 + 0)).
Proof. vm_compute. reflexivity. Qed.
