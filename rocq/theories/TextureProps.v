(** C112: colours on the way from the font engine to the screen. *)
From Coq Require Import ZArith QArith Qabs Lqa Lia.
From Verif Require Import Base BaseFacts FloatModel ColorModel BitmapModel BuilderModel FontSizeModel AtlasSpec AtlasModel AtlasProps GlModel ShaderModel ShaderSpec ShaderProofs ShaderProps.
From Verif Require Import TextureModel TextureSpec TextureProofs TextureByteProofs TextureShownProofs.
Open Scope Q_scope.

(** After any uploads a page of the text atlas holds the colours of the bitmaps' pixels, and a
    page of the field atlas holds them with red and blue exchanged. *)
Theorem C112_uploads : forall undefined es x y,
  let t := page_words es in
  t_texel (im_texture (page_image undefined TEXT_FORMAT es)) x y = t_texel (texture_of packed_color undefined EXTENT EXTENT t) x y /\
  t_texel (im_texture (page_image undefined FIELD_FORMAT es)) x y =
    t_texel (texture_of (fun v => red_and_blue_exchanged (packed_color v)) undefined EXTENT EXTENT t) x y.
Proof.
  intros u es x y t. destruct (page_words_shown u TEXT_FORMAT es) as (_ & _ & _ & T). destruct (page_words_shown u FIELD_FORMAT es) as (_ & _ & _ & F).
  split; [apply T|apply F].
Qed.
Print Assumptions C112_uploads.

(** What was set in a bitmap is read from it: the colour of a word is the colour that was
    packed into it, in whole steps of 1/255. *)
Theorem C112_packed : forall c v, to_argb c = Ok v ->
  exists r g b a, channel_byte (c_r c) = Ok r /\ channel_byte (c_g c) = Ok g /\ channel_byte (c_b c) = Ok b /\ channel_byte (c_a c) = Ok a /\
    packed_color v = {| q_r := inject_Z r / 255; q_g := inject_Z g / 255; q_b := inject_Z b / 255; q_a := inject_Z a / 255 |}.
Proof.
  intros c v E. unfold to_argb in E.
  destruct (channel_byte (c_r c)) as [r| |] eqn:R; try discriminate. destruct (channel_byte (c_g c)) as [g| |] eqn:G; try discriminate.
  destruct (channel_byte (c_b c)) as [b| |] eqn:B; try discriminate. destruct (channel_byte (c_a c)) as [a| |] eqn:A; try discriminate.
  injection E as <-. exists r, g, b, a. repeat split.
  assert (BY : forall x z, channel_byte x = Ok z -> (0 <= z < 256)%Z).
  { intros x z H. unfold channel_byte in H. destruct (f32_to_u32 _) as [w| |]; try discriminate. injection H as <-.
    rewrite ColorProofs.land255. apply Z.mod_pos_bound. lia. }
  apply packed_bytes; eapply BY; eassumption.
Qed.
Print Assumptions C112_packed.
Example C112_packed_case : exists v, to_argb (from_rgb (f32_of_Z 200) (f32_of_Z 100) (f32_of_Z 50) (f32_of_Z 255)) = Ok v /\
  packed_color v = {| q_r := inject_Z 200 / 255; q_g := inject_Z 100 / 255; q_b := inject_Z 50 / 255; q_a := inject_Z 255 / 255 |}.
Proof. eexists. split; [vm_compute; reflexivity|vm_compute; reflexivity]. Qed.

(** From the request to the screen.  After any history of requests, each answer names a page;
    drawing the rectangle it names from that page's texture gives, for a picture in grey
    levels, the text's colour with the opacity the font engine gave the pixel, and for a
    picture in colours drawn in white, the engine's colours within 1.01/255. *)
Theorem C112_text : forall undefined glyphs strokes rs,
  (forall rq, In rq rs -> exists s, font_size (rq_font rq) = Ok s /\ drawable EXTENT (asked glyphs strokes rq s)) ->
  declared_once rs -> stroked_alike rs ->
  exists a ans, asks glyphs strokes no_atlas rs = Ok (a, ans) /\
    Forall2 (fun rq an => exists s, font_size (rq_font rq) = Ok s /\
      let r := asked glyphs strokes rq s in
      ((0 < ra_w r)%Z -> (0 < ra_h r)%Z ->
       exists n p, an_picture an = OnPage n /\ nth_error (at_pages a) n = Some p /\
         (exists im, image_for undefined TEXT_FORMAT (pg_image p) im) /\
         forall im, image_for undefined TEXT_FORMAT (pg_image p) im ->
         forall covers w h color x y fb i j, rasterizes covers -> (0 < w)%Z -> (0 < h)%Z ->
         (Qfloor x <= i < Qfloor x + ra_w r)%Z -> (Qfloor y <= j < Qfloor y + ra_h r)%Z ->
         let tx := im_texture im in
         let before := fb i j in
         let after := draw_rect_pixels covers w h tx color fb (ShaderSpec.shows tx (an_x an) (an_y an) (an_w an) (an_h an) x y) i j in
         let at_ := ((j - Qfloor y) * ra_w r + (i - Qfloor x))%Z in
         (ra_format r = R8 -> let o := level r at_ * q_a color in
           q_r after == o * q_r color + (1 - o) * q_r before /\
           q_g after == o * q_g color + (1 - o) * q_g before /\
           q_b after == o * q_b color + (1 - o) * q_b before) /\
         (multiplied r -> same_rgba color white_rgba ->
           let o := level r (4 * at_ + 3) in
           Qabs (q_r after - over (level r (4 * at_ + 2)) o (q_r before)) <= 101 # 25500 /\
           Qabs (q_g after - over (level r (4 * at_ + 1)) o (q_g before)) <= 101 # 25500 /\
           Qabs (q_b after - over (level r (4 * at_)) o (q_b before)) <= 101 # 25500))) rs ans.
Proof.
  intros u glyphs strokes rs D O S. destruct (C43_answers_partial glyphs strokes rs D O S) as (a & ans & E & F). exists a, ans. split; [exact E|].
  pose proof (asks_made glyphs strokes rs no_atlas _ ltac:(constructor) E) as MADE. cbn [fst] in MADE.
  assert (P : Forall (fun rq => exists s, font_size (rq_font rq) = Ok s /\ drawable EXTENT (asked glyphs strokes rq s)) rs) by (apply Forall_forall, D).
  clear D O S E. revert P. induction F as [|rq an rs ans H F IH]; intros P; constructor; [|apply IH; now inversion P].
  inversion P as [|? ? (s & FS & DR) _]; subst. destruct H as (s' & FS' & A). rewrite FS in FS'. injection FS' as <-.
  exists s. split; [exact FS|]. intros r RW RH. fold r in A, DR. destruct A as (_ & _ & _ & _ & A & _).
  destruct (A RW RH) as (n & t & PIC & N & SH & AW & AH & _). rewrite nth_error_map in N.
  destruct (nth_error (at_pages a) n) as [p|] eqn:NP; [|discriminate]. injection N as <- _.
  exists n, p. split; [exact PIC|]. split; [first [reflexivity|exact NP]|].
  split.
  { rewrite Forall_forall in MADE. destruct (MADE p (nth_error_In _ _ NP)) as (es & ES). exists (page_image u TEXT_FORMAT es), es. now split. }
  intros im IM covers w h color x y fb i j R W H I J tx before after at_.
  destruct (picture_words u _ im _ _ r IM SH) as (PA & TX). fold tx in PA, TX.
  destruct (TX (i - Qfloor x)%Z (j - Qfloor y)%Z ltac:(lia) ltac:(lia)) as (v & V & T).
  destruct (C97_picture covers w h tx _ _ _ _ _ color x y fb R W H (Z.lt_le_incl _ _ RW) (Z.lt_le_incl _ _ RH) PA i j) as (AR & AG & AB & _).
  replace ((Qfloor x <=? i) && (i <? Qfloor x + ra_w r) && (Qfloor y <=? j) && (j <? Qfloor y + ra_h r))%Z with true in AR, AG, AB
    by (symmetry; rewrite !andb_true_iff, !Z.leb_le, !Z.ltb_lt; lia).
  rewrite <- AW, <- AH in AR, AG, AB. fold after in AR, AG, AB. cbn beta in AR, AG, AB. rewrite T in AR, AG, AB.
  destruct DR as (_ & _ & BY & _).
  cbn [blend map2 q_r q_g q_b q_a] in AR, AG, AB. fold before in AR, AG, AB. split.
  - intros G o. rewrite (grey_shade r _ _ v BY G V) in AR, AG, AB. cbn [q_r q_g q_b q_a] in AR, AG, AB. fold at_ in AR, AG, AB. fold o in AR, AG, AB.
    assert (ONE : forall c, inject_Z 255 / 255 * c == c) by (intros c; change (inject_Z 255) with 255; field).
    rewrite AR, AG, AB, !ONE. repeat split; ring.
  - intros M (CR & CG & CB & CA) o. cbn in CR, CG, CB, CA.
    destruct (colour_word r (i - Qfloor x)%Z (j - Qfloor y)%Z v BY M ltac:(lia) ltac:(lia) V) as (QA & QR & QG & QB). fold at_ in QA, QR, QG, QB.
    set (c := packed_color v) in *. unfold over. rewrite AR, AG, AB, CR, CG, CB, CA. fold o in QA. rewrite QA in *.
    assert (K : forall p q d, Qabs (p * o - q) <= 101 # 25500 -> Qabs (p * 1 * (o * 1) + d * (1 - o * 1) - (q + (1 - o) * d)) <= 101 # 25500).
    { intros p0 q d B. setoid_replace (p0 * 1 * (o * 1) + d * (1 - o * 1) - (q + (1 - o) * d)) with (p0 * o - q) by ring. exact B. }
    repeat split; apply K; assumption.
Qed.
Print Assumptions C112_text.
(** The hypotheses hold, and the theorem speaks of a picture in grey levels and of one in
    colours. *)
Definition coloured : raster :=
  {| ra_w := 2; ra_h := 2; ra_x := f32_1; ra_y := f32_1; ra_format := BGRA8; ra_byte := fun i => if (i mod 4 =? 3)%Z then 200%Z else (i mod 100)%Z |}.
Definition two_pictures (lk : look) (g : Z) : raster := if (g =? 7)%Z then coloured else grey 3 2.
Definition two_requests : list request :=
  let f := font_of (face_of 1 4 0) 32 4 0 false false in
  [{| rq_font := f; rq_glyph := 7; rq_stroke := None |}; {| rq_font := f; rq_glyph := 8; rq_stroke := None |}].
Lemma coloured_drawable : drawable EXTENT coloured.
Proof.
  split; [unfold EXTENT; cbn; lia|]. split; [unfold EXTENT; cbn; lia|].
  split; [intros i; cbn [ra_byte coloured]; destruct (i mod 4 =? 3)%Z; [lia|pose proof (Z.mod_pos_bound i 100); lia]|].
  cbn [ra_w ra_h coloured]. intros dx dy X Y.
  assert (K : ((dx = 0 \/ dx = 1) /\ (dy = 0 \/ dy = 1))%Z) by lia.
  destruct K as [[-> | ->] [-> | ->]]; eexists; vm_compute; reflexivity.
Qed.
Lemma coloured_multiplied : multiplied coloured.
Proof.
  split; [reflexivity|]. cbn [ra_w ra_h ra_byte coloured]. intros x y k X Y K. cbv zeta.
  assert (E : ((4 * (y * 2 + x) + 3) mod 4 = 3)%Z) by (symmetry; apply (Z.mod_unique_pos _ _ (y * 2 + x)); lia).
  assert (E' : ((4 * (y * 2 + x) + k) mod 4 = k)%Z) by (symmetry; apply (Z.mod_unique_pos _ _ (y * 2 + x)); lia).
  rewrite E, E'. change (3 =? 3)%Z with true. replace (k =? 3)%Z with false by (symmetry; apply Z.eqb_neq; lia). cbv iota.
  pose proof (Z.mod_pos_bound (4 * (y * 2 + x) + k) 100). lia.
Qed.
Example C112_text_case :
  (forall rq, In rq two_requests -> exists s, font_size (rq_font rq) = Ok s /\ drawable EXTENT (asked two_pictures (fun lk g _ _ => two_pictures lk g) rq s)) /\
  declared_once two_requests /\ stroked_alike two_requests /\ multiplied coloured /\ ra_format (grey 3 2) = R8.
Proof.
  split.
  { intros rq [<-|[<-|[]]]; exists 32%Z; (split; [vm_compute; reflexivity|]).
    - exact coloured_drawable.
    - apply grey_drawable; unfold EXTENT; lia. }
  split; [intros rq rq' [<-|[<-|[]]] [<-|[<-|[]]]; cbn; intros; try (split; reflexivity); reflexivity|].
  split; [intros rq rq' [<-|[<-|[]]] [<-|[<-|[]]]; cbn; intros; try (split; reflexivity); try reflexivity; try discriminate; try contradiction|].
  split; [exact coloured_multiplied|reflexivity].
Qed.

(** The exchanged channels of the field pages have no effect: every pixel the field shader
    draws from such a page is the one it would draw from a page with the bitmaps' colours. *)
Theorem C112_fields : forall undefined es length color st i j,
  (forall x x' y y', x == x' -> y == y' -> length x y == length x' y') ->
  same_outcome
    (msdf_fragment length (im_texture (page_image undefined FIELD_FORMAT es)) color st i j)
    (msdf_fragment length (texture_of packed_color (fun x y => red_and_blue_exchanged (undefined x y)) EXTENT EXTENT (page_words es)) color st i j).
Proof.
  intros u es length color st i j L. destruct (page_words_shown u FIELD_FORMAT es) as (_ & W & H & T).
  apply fragment_exchanged; [exact L|exact W|exact H|]. intros x y. rewrite T. cbn [t_texel texture_of].
  destruct (page_words es x y); [reflexivity|]. destruct (u x y); reflexivity.
Qed.
Print Assumptions C112_fields.
Example C112_fields_case : exists c, msdf_fragment (fun x y => Qabs x + Qabs y)
    (texture_of packed_color (fun _ _ => white_rgba) 2 1 (fun x y => Some (if (x =? 0)%Z then 0x00404080 else 0x00C08040)%Z)) white_rgba
    (fun i j => (if (i =? 0)%Z then 1 # 4 else 3 # 4, 1 # 2)) 0 0 = Ok c /\ 0 < q_a c /\ q_a c < 1.
Proof. eexists. split; [vm_compute; reflexivity|]. split; vm_compute; reflexivity. Qed.

(** The default texture, which plain rectangles are drawn with, is white everywhere. *)
Theorem C112_default : t_w (im_texture default_image) = t_w default_texture /\ t_h (im_texture default_image) = t_h default_texture /\
  forall x y, same_rgba (t_texel (im_texture default_image) x y) (t_texel default_texture x y).
Proof. split; [reflexivity|]. split; [reflexivity|]. intros x y. repeat split; reflexivity. Qed.
Print Assumptions C112_default.

(** The field atlas names the order blue, green, red for bitmaps that have red first: a red
    pixel of a bitmap is blue in the texture. *)
Example C112_order_case : exists undefined b v,
  let im := page_image undefined FIELD_FORMAT [(0%Z, 0%Z, b)] in
  set_pixel (bm_new 1 1) 0 0 {| c_r := f32_1; c_g := f32_0; c_b := f32_0; c_a := f32_1 |} = Ok b /\
  page_words [(0%Z, 0%Z, b)] 0%Z 0%Z = Some v /\ same_rgba (packed_color v) {| q_r := 1; q_g := 0; q_b := 0; q_a := 1 |} /\
  same_rgba (t_texel (im_texture im) 0%Z 0%Z) {| q_r := 0; q_g := 0; q_b := 1; q_a := 1 |}.
Proof.
  exists (fun _ _ => white_rgba). eexists. eexists. cbv zeta.
  split; [vm_compute; reflexivity|]. split; [vm_compute; reflexivity|]. split; vm_compute; repeat split; reflexivity.
Qed.
