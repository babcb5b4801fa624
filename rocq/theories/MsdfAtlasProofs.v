(** Proofs about the pixels and the cache of the distance-field atlas. *)
From Coq Require Import QArith.
From Verif Require Import Base BaseFacts FloatModel ColorModel ColorProofs BuilderModel BitmapModel BitmapSpec BitmapProofs AtlasSpec AtlasModel AtlasProofs AtlasTextProofs MsdfSpec MsdfModel.
Open Scope Z_scope.

Lemma saturate_clamped v : saturate v = clamped v.
Proof.
  unfold saturate, clamped, f32_less. destruct v as [s|s| |s m e]; try (destruct s; reflexivity); try reflexivity.
  assert (G : match SFcompare f32_1 (S754_finite s m e) with Some Lt => true | _ => false end = match SFcompare (S754_finite s m e) f32_1 with Some Gt => true | _ => false end).
  { change f32_1 with (S754_finite false 8388608 (-23)). cbn [SFcompare]. destruct s; [reflexivity|].
    rewrite (Z.compare_antisym (-23) e). destruct (Z.compare (-23) e) eqn:C1; cbn [CompOpp]; try reflexivity.
    change (Pcompare 8388608 m Eq) with (8388608 ?= m)%positive. change (Pcompare m 8388608 Eq) with (m ?= 8388608)%positive. rewrite (Pos.compare_antisym m 8388608). destruct (m ?= 8388608)%positive; reflexivity. }
  rewrite G. destruct (SFcompare (S754_finite s m e) f32_0) as [[]|]; destruct (SFcompare (S754_finite s m e) f32_1) as [[]|]; reflexivity.
Qed.
Lemma color_stored v : to_argb (field_color v) = stored v.
Proof. destruct v as [[r g] b]. unfold field_color, stored. now rewrite !saturate_clamped. Qed.

Section field.
  Variable f : Z -> Z -> f32 * f32 * f32.
  Variables w h : Z.
  Variable c : Z -> Z -> Z.
  Hypothesis St : forall x y, 0 <= x < w -> 0 <= y < h -> stored (f x y) = Ok (c x y).
  Lemma field_row_ok n : forall b x y, sized b -> bm_w b = w -> bm_h b = h -> 0 <= x -> 0 <= y < h -> x + Z.of_nat n = w ->
    exists b', field_row b f n x y = Ok b' /\ painted b b' (in_rect x y (Z.of_nat n) 1) c.
  Proof.
    induction n as [|n IH]; intros b x y Hs Bw Bh Hx Hy Hn; cbn [field_row].
    - exists b. split; [reflexivity|]. apply painted_none. unfold in_rect. intros. lia.
    - destruct (set_pixel_ok b x y (field_color (f x y)) (c x y) Hs) as [b1 [E1 P1]].
      { split; lia. } { rewrite color_stored. apply St; lia. }
      rewrite E1. cbn [obind]. pose proof P1 as (A & B & C & D).
      destruct (IH b1 (x + 1) y) as [b' [E2 P2]]; [eapply painted_sized; eauto|lia|lia|lia|lia|lia|].
      exists b'. split; [exact E2|]. destruct P2 as (A2 & B2 & C2 & D2).
      split; [congruence|]. split; [congruence|]. split; intros px py Hin Hr; pose proof (painted_within _ _ _ _ _ _ P1 Hin) as Hin2; unfold in_rect in *.
      + destruct (Z.eq_dec px x) as [->|Ne]; [|apply C2; [exact Hin2|lia]].
        assert (py = y) by lia. subst py. rewrite D2 by (try exact Hin2; lia). now apply C.
      + rewrite D2 by (try exact Hin2; lia). apply D; [exact Hin|lia].
  Qed.
  Lemma field_rows_ok n : forall b y, sized b -> bm_w b = w -> bm_h b = h -> 0 <= y -> y + Z.of_nat n = h ->
    exists b', field_rows b f n y = Ok b' /\ painted b b' (in_rect 0 y w (Z.of_nat n)) c.
  Proof.
    induction n as [|n IH]; intros b y Hs Bw Bh Hy Hn; cbn [field_rows].
    - exists b. split; [reflexivity|]. apply painted_none. unfold in_rect. intros. lia.
    - assert (0 <= bm_w b) by apply Hs. destruct (field_row_ok (Z.to_nat (bm_w b)) b 0 y Hs Bw Bh) as [b1 [E1 P1]]; [lia|lia|lia|].
      rewrite E1. cbn [obind]. pose proof P1 as (A & B & C & D).
      destruct (IH b1 (y + 1)) as [b' [E2 P2]]; [eapply painted_sized; eauto|lia|lia|lia|lia|].
      exists b'. split; [exact E2|]. destruct P2 as (A2 & B2 & C2 & D2).
      split; [congruence|]. split; [congruence|]. split; intros px py Hin Hr; pose proof (painted_within _ _ _ _ _ _ P1 Hin) as Hin2; unfold in_rect in *.
      + destruct (Z.eq_dec py y) as [->|Ne]; [|apply C2; [exact Hin2|lia]].
        rewrite D2 by (try exact Hin2; lia). apply C; [exact Hin|lia].
      + rewrite D2 by (try exact Hin2; lia). apply D; [exact Hin|lia].
  Qed.
End field.

Lemma field_key_eqb_ok a b : field_key_eqb a b = true <-> a = b.
Proof.
  destruct a, b; cbn; try (split; discriminate); rewrite ?andb_true_iff, ?Z.eqb_eq; split; intros; [destruct H; congruence|inversion H; auto| |inversion H; auto 6].
  destruct H as ((((-> & ->) & ->) & ->) & ->). reflexivity.
Qed.

Section cache.
  Variable bounds : shape -> Q * Q * Q * Q.
  Variable field : shape -> frame -> Z -> Z -> f32 * f32 * f32.
  Variable to_float : Q -> f32.
  Variable curve : Z -> Z -> outline.
  Variable styled_curve : look -> Z -> outline.
  Variable stroke_curve : Z -> Z -> Z -> Z -> outline.
  Variable styled_stroke : look -> Z -> Z -> Z -> outline.
  Variable upem : Z -> Z.
  Notation load := (load_shape bounds field to_float).
  Notation asking := (ask_field bounds field to_float curve styled_curve stroke_curve styled_stroke upem).
  Notation asking_all := (ask_fields bounds field to_float curve styled_curve stroke_curve styled_stroke upem).

  Definition wanted (rq : request) : outcome drawing :=
    let face := fh_handle (sf_face (rq_font rq)) in
    load (upem face) match rq_stroke rq with None => curve face (rq_glyph rq) | Some (t, j) => stroke_curve face (rq_glyph rq) t j end.
  Definition key_made (k : field_key) (d : drawing) : Prop :=
    match k with
    | FieldKey g f => load (upem f) (curve f g) = Ok d
    | EdgeKey _ g f t j => load (upem f) (stroke_curve f g t j) = Ok d
    end.
  Definition field_key_of (rq : request) : field_key :=
    let face := fh_handle (sf_face (rq_font rq)) in
    match rq_stroke rq with None => FieldKey (rq_glyph rq) face | Some (t, j) => EdgeKey (sf_size (rq_font rq)) (rq_glyph rq) face t j end.
  Definition give (rq : request) (s : Z) (an : answer) : field_answer :=
    match rq_stroke rq with None => enlarged_answer an (enlargement s) | Some _ => plain_answer an end.
  Definition grown (rq : request) (s : Z) (v : f32) : f32 := match rq_stroke rq with None => f32_mul v (enlargement s) | Some _ => v end.

  Lemma asking_eq a rq s : unimitated rq -> font_size (rq_font rq) = Ok s ->
    asking a rq = (do r <- fetch MSDF_PADDING field_key_eqb a (field_key_of rq) (wanted rq); let '(a1, an) := r in Ok (a1, give rq s an)).
  Proof.
    intros [U1 U2] E. unfold ask_field, glyph_curve, edge_curve, synthetic_slant, synthetic_bold, field_key_of, wanted, give. rewrite E. cbn [obind lk_slant lk_bold lk_face].
    rewrite U1, U2, !Z.eqb_refl. destruct (rq_stroke rq) as [[t j]|]; reflexivity.
  Qed.
  Definition told_field (a : atlas field_key) (rq : request) (an : field_answer) : Prop :=
    exists s an0, font_size (rq_font rq) = Ok s /\ told key_made a (field_key_of rq) an0 /\ an = give rq s an0.
  Definition request_ok (rq : request) : Prop :=
    unimitated rq /\ (exists s, font_size (rq_font rq) = Ok s) /\
    exists d, wanted rq = Ok d /\ 0 <= bm_w (dr_bitmap d) <= EXTENT /\ 0 <= bm_h (dr_bitmap d) <= EXTENT.
  Lemma load_shape_grey u o d : load u o = Ok d -> dr_color d = false.
  Proof.
    intros E. unfold load_shape in E. destruct (outline_shape o); cbn [obind] in E; try discriminate. destruct (Nat.eqb _ _); [inversion E; reflexivity|].
    destruct (bounds _) as [[[l b] r] t]. destruct (frame_of u l b r t); cbn [obind] in E; try discriminate. destruct (field_rows _ _ _ _); cbn [obind] in E; try discriminate. inversion E. reflexivity.
  Qed.
  Lemma key_made_grey k d : key_made k d -> dr_color d = false.
  Proof. destruct k; apply load_shape_grey. Qed.
  Lemma key_made_of rq d : key_made (field_key_of rq) d <-> wanted rq = Ok d.
  Proof. unfold field_key_of, wanted. destruct (rq_stroke rq) as [[t j]|]; reflexivity. Qed.
  Lemma asking_all_ok rs : forall a, Forall request_ok rs -> atlas_ok MSDF_PADDING key_made a ->
    exists a' ans, asking_all a rs = Ok (a', ans) /\ atlas_ok MSDF_PADDING key_made a' /\ Forall2 (told_field a') rs ans /\ incl (at_cache a) (at_cache a').
  Proof.
    induction rs as [|rq rs IH]; intros a Hs Ha; cbn [ask_fields].
    - exists a, []. split; [reflexivity|]. split; [exact Ha|]. split; [constructor|apply incl_refl].
    - inversion Hs as [|? ? (U & (s & E) & d & Ed & Dw & Dh) Hs']. subst.
      destruct (@fetch_ok MSDF_PADDING ltac:(unfold MSDF_PADDING; lia) field_key field_key_eqb field_key_eqb_ok key_made a (field_key_of rq) d _ Ha (proj2 (key_made_of rq d) Ed) Ed Dw Dh) as (a1 & an & F1 & F2 & F3 & F4).
      rewrite (asking_eq a rq s U E), F1. cbn [obind].
      destruct (IH a1 Hs' F2) as (a' & ans & G1 & G2 & G3 & G4). rewrite G1. cbn [obind].
      exists a', (give rq s an :: ans). split; [reflexivity|]. split; [exact G2|]. split; [|eapply incl_tran; eauto].
      constructor; [|exact G3]. exists s, an. split; [exact E|]. split; [|reflexivity]. destruct F3 as (i & I & T). exists i. split; [apply G4, I|exact T].
  Qed.
  Definition pages_of (a : atlas field_key) : list (texture * bool) := map (fun p => (pg_image p, pg_color p)) (at_pages a).
  Definition picture_of (d : drawing) : field_picture := {| fp_bitmap := dr_bitmap d; fp_left := dr_left d; fp_top := dr_top d |}.
  Lemma told_answers a rq an : atlas_ok MSDF_PADDING key_made a -> told_field a rq an ->
    exists s d, font_size (rq_font rq) = Ok s /\ wanted rq = Ok d /\ answers_field EXTENT (pages_of a) (picture_of d) (grown rq s) an.
  Proof.
    intros (A1 & A2 & A3) (s & an0 & Es & (i & J & X & Y & Wd & Ht & W2 & H2 & Lf & Tp & M) & ->).
    rewrite Forall_forall in A2. destruct (A2 _ J) as (d & K & EI). cbn [fst snd] in *. assert (Gd := key_made_grey _ _ K). apply key_made_of in K.
    exists s, d. split; [exact Es|]. split; [exact K|]. destruct EI as (Q1 & Q2 & Q3 & Q4 & Q5).
    assert (EQ : fa_picture (give rq s an0) = an_picture an0 /\ fa_x (give rq s an0) = an_x an0 /\ fa_y (give rq s an0) = an_y an0 /\ fa_w (give rq s an0) = an_w an0 /\
      fa_h (give rq s an0) = an_h an0 /\ fa_width (give rq s an0) = grown rq s (f32_of_Z (an_width an0)) /\ fa_height (give rq s an0) = grown rq s (f32_of_Z (an_height an0)) /\
      fa_left (give rq s an0) = grown rq s (an_left an0) /\ fa_top (give rq s an0) = grown rq s (an_top an0) /\ fa_color (give rq s an0) = an_color an0).
    { unfold give, grown. destruct (rq_stroke rq); repeat split; reflexivity. }
    destruct EQ as (E1 & E2 & E3 & E4 & E5 & E6 & E7 & E8 & E9 & E10). unfold answers_field. rewrite E1, E2, E3, E4, E5, E6, E7, E8, E9, E10. cbn [picture_of fp_bitmap fp_left fp_top].
    split; [congruence|]. split; [congruence|]. split; [congruence|]. split; [congruence|]. split.
    - intros Pw Ph. assert (FB : full (dr_bitmap d) = true) by (unfold full; lia). rewrite FB in Q5.
      destruct Q5 as (n & p & B1 & B2 & B3 & B4 & B5 & B6 & B7 & B8 & B9 & B10 & B11). rewrite B1 in M. destruct M as (M1 & d2 & K2 & M2).
      assert (G2 := key_made_grey _ _ K2).
      exists n, (pg_image p). split; [exact M1|]. split; [unfold pages_of; rewrite nth_error_map, B2; cbn; congruence|]. split; [congruence|].
      split; [|split; congruence]. rewrite X, Y. split; [lia|]. split; [lia|]. split; [lia|]. split; [lia|]. intros dx dy Hx Hy. apply B11. split; lia.
    - intros Nf. assert (FB : full (dr_bitmap d) = false) by (unfold full; lia). rewrite FB in Q5. rewrite Q5 in M. exact M.
  Qed.
  Lemma all_fields rs : Forall request_ok rs -> exists a ans, asking_all no_atlas rs = Ok (a, ans) /\
    Forall2 (fun rq an => exists s d, font_size (rq_font rq) = Ok s /\ wanted rq = Ok d /\ answers_field EXTENT (pages_of a) (picture_of d) (grown rq s) an) rs ans /\
    forall an1 an2 n, In an1 ans -> In an2 ans -> fa_picture an1 = OnPage n -> fa_picture an2 = OnPage n ->
      (fa_x an1 = fa_x an2 /\ fa_y an1 = fa_y an2 /\ fa_w an1 = fa_w an2 /\ fa_h an1 = fa_h an2) \/
      apart 2 (fa_x an1) (fa_y an1) (fa_w an1) (fa_h an1) (fa_x an2) (fa_y an2) (fa_w an2) (fa_h an2).
  Proof.
    intros H. destruct (asking_all_ok rs no_atlas H (@no_atlas_ok MSDF_PADDING field_key _)) as (a & ans & E & Ha & HF & _).
    exists a, ans. split; [exact E|]. split.
    - clear E H. induction HF; constructor; [apply told_answers; assumption|exact IHHF].
    - intros an1 an2 n I1 I2 O1 O2. destruct Ha as (_ & _ & A3).
      destruct (Forall2_in_r _ _ _ _ HF I1) as (r1 & _ & s1 & b1 & _ & (i1 & J1 & X1 & Y1 & W1 & H1 & _ & _ & _ & _ & M1) & ->).
      destruct (Forall2_in_r _ _ _ _ HF I2) as (r2 & _ & s2 & b2 & _ & (i2 & J2 & X2 & Y2 & W2 & H2 & _ & _ & _ & _ & M2) & ->).
      assert (EQ : forall rq s b, fa_picture (give rq s b) = an_picture b /\ fa_x (give rq s b) = an_x b /\ fa_y (give rq s b) = an_y b /\ fa_w (give rq s b) = an_w b /\ fa_h (give rq s b) = an_h b).
      { intros rq s b. unfold give. destruct (rq_stroke rq); repeat split; reflexivity. }
      destruct (EQ r1 s1 b1) as (P1 & -> & -> & -> & ->). destruct (EQ r2 s2 b2) as (P2 & -> & -> & -> & ->). rewrite P1 in O1. rewrite P2 in O2.
      rewrite X1, Y1, W1, H1, X2, Y2, W2, H2.
      assert (N1 : in_page i1 = Some n) by (destruct (in_page i1); [destruct M1; congruence|destruct M1; congruence]).
      assert (N2 : in_page i2 = Some n) by (destruct (in_page i2); [destruct M2; congruence|destruct M2; congruence]).
      destruct (pair_apart _ _ _ _ A3 J1 J2) as [Q|[[Q _]|[Q _]]]; cbn [snd] in Q.
      + inversion Q. auto.
      + right. exact (Q n N1 N2).
      + right. specialize (Q n N2 N1). unfold apart, MSDF_PADDING in *. lia.
  Qed.
End cache.
