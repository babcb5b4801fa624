From Verif Require Import Base BaseFacts FloatModel ColorModel ColorProofs BuilderModel FontSizeModel BitmapModel BitmapSpec BitmapProofs AtlasSpec AtlasModel AtlasProofs.
Open Scope Z_scope.

(** ** Drawing a raster *)
Lemma channel_one : channel_byte f32_1 = Ok 255.
Proof. vm_compute. reflexivity. Qed.
Lemma raster_color_ok r x y : (forall i, 0 <= ra_byte r i < 256) -> ra_format r <> UNKNOWN ->
  to_argb (raster_color r (raster_step r * (y * ra_w r + x))) = shade r x y.
Proof.
  intros Hb Hf. unfold raster_color, raster_step, shade. destruct (ra_format r); [| |congruence].
  - rewrite Z.mul_1_l. unfold to_argb. cbn [c_r c_g c_b c_a]. rewrite !channel_one. cbn [obind].
    pose proof (Hb (y * ra_w r + x)) as B. set (v := ra_byte r (y * ra_w r + x)) in *.
    assert (E : channel_byte (f32_div (f32_of_Z v) f32_255) = Ok (Z.land v 255)) by (apply channel_byte_ok; lia).
    rewrite E. cbn [obind]. rewrite land255, Z.mod_small by lia. rewrite pack4_eq by lia. reflexivity.
  - cbv zeta. rewrite Z.add_0_r. reflexivity.
Qed.

Section shading.
  Variable r : raster.
  Hypothesis Rw : 0 <= ra_w r <= EXTENT.
  Hypothesis Rh : 0 <= ra_h r <= EXTENT.
  Hypothesis Rb : forall i, 0 <= ra_byte r i < 256.
  Hypothesis Rf : ra_format r <> UNKNOWN.
  Variable f : Z -> Z -> Z.
  Hypothesis Rs : forall dx dy, 0 <= dx < ra_w r -> 0 <= dy < ra_h r -> shade r dx dy = Ok (f dx dy).

  Lemma shade_row_ok n : forall b x y, sized b -> bm_w b = ra_w r -> bm_h b = ra_h r -> 0 <= x -> 0 <= y < ra_h r -> x + Z.of_nat n = ra_w r ->
    exists b', shade_row b r n x y (raster_step r * (y * ra_w r + x)) = Ok (b', raster_step r * ((y + 1) * ra_w r)) /\
      painted b b' (in_rect x y (Z.of_nat n) 1) f.
  Proof.
    induction n as [|n IH]; intros b x y Hs Bw Bh Hx Hy Hn; cbn [shade_row].
    - exists b. split; [do 2 f_equal; nia|]. apply painted_none. unfold in_rect. intros. lia.
    - destruct (set_pixel_ok b x y (raster_color r (raster_step r * (y * ra_w r + x))) (f x y) Hs) as [b1 [E1 P1]].
      { split; lia. } { rewrite raster_color_ok by auto. apply Rs; lia. }
      rewrite E1. cbn [obind]. pose proof P1 as (A & B & C & D).
      destruct (IH b1 (x + 1) y) as [b' [E2 P2]]; [eapply painted_sized; eauto|lia|lia|lia|lia|lia|].
      exists b'. split; [rewrite <- E2; f_equal; ring|]. destruct P2 as (A2 & B2 & C2 & D2).
      split; [congruence|]. split; [congruence|]. split; intros px py Hin Hr; pose proof (painted_within _ _ _ _ _ _ P1 Hin) as Hin2; unfold in_rect in *.
      + destruct (Z.eq_dec px x) as [->|Ne]; [|apply C2; [exact Hin2|lia]].
        assert (py = y) by lia. subst py. rewrite D2 by (try exact Hin2; lia). now apply C.
      + rewrite D2 by (try exact Hin2; lia). apply D; [exact Hin|lia].
  Qed.
  Lemma shade_rows_ok n : forall b y, sized b -> bm_w b = ra_w r -> bm_h b = ra_h r -> 0 <= y -> y + Z.of_nat n = ra_h r ->
    exists b', shade_rows b r n y (raster_step r * (y * ra_w r)) = Ok b' /\ painted b b' (in_rect 0 y (ra_w r) (Z.of_nat n)) f.
  Proof.
    induction n as [|n IH]; intros b y Hs Bw Bh Hy Hn; cbn [shade_rows].
    - exists b. split; [reflexivity|]. apply painted_none. unfold in_rect. intros. lia.
    - destruct (shade_row_ok (Z.to_nat (ra_w r)) b 0 y Hs Bw Bh) as [b1 [E1 P1]]; [lia|lia|lia|].
      rewrite Z.add_0_r in E1. rewrite E1. cbn [obind]. pose proof P1 as (A & B & C & D).
      destruct (IH b1 (y + 1)) as [b' [E2 P2]]; [eapply painted_sized; eauto|lia|lia|lia|lia|].
      exists b'. split; [exact E2|]. destruct P2 as (A2 & B2 & C2 & D2).
      split; [congruence|]. split; [congruence|]. split; intros px py Hin Hr; pose proof (painted_within _ _ _ _ _ _ P1 Hin) as Hin2; unfold in_rect in *.
      + destruct (Z.eq_dec py y) as [->|Ne]; [|apply C2; [exact Hin2|lia]].
        rewrite D2 by (try exact Hin2; lia). apply C; [exact Hin|lia].
      + rewrite D2 by (try exact Hin2; lia). apply D; [exact Hin|lia].
  Qed.
End shading.

Definition depicts (d : drawing) (r : raster) : Prop :=
  bm_w (dr_bitmap d) = ra_w r /\ bm_h (dr_bitmap d) = ra_h r /\ dr_left d = ra_x r /\ dr_top d = ra_y r /\
  dr_color d = (match ra_format r with BGRA8 => true | _ => false end) /\
  forall dx dy, 0 <= dx < ra_w r -> 0 <= dy < ra_h r -> shade r dx dy = Ok (pixel (dr_bitmap d) dx dy).

Lemma draw_raster_ok r : drawable EXTENT r -> exists d, draw_raster r = Ok d /\ depicts d r.
Proof.
  intros (Hw & Hh & Hb & Hs). unfold draw_raster.
  set (f := fun dx dy => match shade r dx dy with Ok v => v | _ => 0 end).
  assert (Rs : forall dx dy, 0 <= dx < ra_w r -> 0 <= dy < ra_h r -> shade r dx dy = Ok (f dx dy)).
  { intros dx dy H1 H2. destruct (Hs dx dy H1 H2) as [v E]. unfold f. rewrite E. reflexivity. }
  assert (SZ : sized (bm_new (ra_w r) (ra_h r))) by (unfold sized, EXTENT in *; cbn [bm_new bm_w bm_h]; nia).
  assert (G : ra_format r <> UNKNOWN -> exists b, shade_rows (bm_new (ra_w r) (ra_h r)) r (Z.to_nat (ra_h r)) 0 0 = Ok b /\
             bm_w b = ra_w r /\ bm_h b = ra_h r /\ forall dx dy, 0 <= dx < ra_w r -> 0 <= dy < ra_h r -> shade r dx dy = Ok (pixel b dx dy)).
  { intros Hf. destruct (shade_rows_ok r Hw Hh Hb Hf f Rs (Z.to_nat (ra_h r)) (bm_new (ra_w r) (ra_h r)) 0 SZ eq_refl eq_refl) as [b [E P]]; [lia|lia|].
    rewrite Z.mul_0_l, Z.mul_0_r in E. exists b. split; [exact E|]. destruct P as (A & B & C & D). split; [exact A|]. split; [exact B|].
    intros dx dy H1 H2. rewrite Rs by auto. f_equal. symmetry. apply C; [split; cbn; lia|unfold in_rect; lia]. }
  destruct (ra_format r) eqn:Ef.
  - destruct (G ltac:(congruence)) as (b & -> & G1 & G2 & G3). cbn [obind]. eexists. split; [reflexivity|]. unfold depicts. rewrite Ef. cbn. repeat (split; [auto; fail|]). exact G3.
  - destruct (G ltac:(congruence)) as (b & -> & G1 & G2 & G3). cbn [obind]. eexists. split; [reflexivity|]. unfold depicts. rewrite Ef. cbn. repeat (split; [auto; fail|]). exact G3.
  - cbn [obind]. eexists. split; [reflexivity|]. unfold depicts. rewrite Ef. cbn [dr_bitmap dr_left dr_top dr_color bm_new bm_w bm_h]. repeat (split; [auto; fail|]).
    intros dx dy _ _. unfold shade. rewrite Ef. reflexivity.
Qed.

Lemma baseline_lowered f : baseline_offset f = lowered f.
Proof.
  unfold baseline_offset, lowered. f_equal. destruct (sf_syn_sub f), (sf_syn_super f); vm_compute; reflexivity.
Qed.
Lemma atlas_key_eqb_ok a b : atlas_key_eqb a b = true <-> a = b.
Proof.
  destruct a, b; cbn [atlas_key_eqb]; split; intros H; try discriminate; rewrite ?andb_true_iff, ?Z.eqb_eq in *; try (f_equal; intuition congruence); inversion H; intuition.
Qed.

Section text.
  Variable glyphs : look -> Z -> raster.
  Variable strokes : look -> Z -> Z -> Z -> raster.
  Notation want := (asked glyphs strokes).

  Definition key_of (rq : request) (s : Z) : atlas_key :=
    let f := rq_font rq in
    match rq_stroke rq with
    | None => GlyphKey s (rq_glyph rq) (fh_handle (sf_face f)) (sf_weight f) (sf_style f)
    | Some (t, j) => StrokeKey s (rq_glyph rq) (fh_handle (sf_face f)) t j
    end.
  Definition lower_by (an : answer) (v : f32) : answer :=
    {| an_picture := an_picture an; an_x := an_x an; an_y := an_y an; an_w := an_w an; an_h := an_h an;
       an_width := an_width an; an_height := an_height an; an_left := an_left an;
       an_top := f32_add (an_top an) v; an_color := an_color an |}.
  Lemma ask_eq a rq s : font_size (rq_font rq) = Ok s ->
    ask glyphs strokes a rq = (do r <- fetch PADDING atlas_key_eqb a (key_of rq s) (draw_raster (want rq s));
                               let '(a1, an) := r in Ok (a1, lower_by an (lowered (rq_font rq)))).
  Proof.
    intros E. unfold ask. rewrite E. cbn [obind].
    assert (L : {| lk_face := fh_handle (sf_face (rq_font rq)); lk_size := s; lk_slant := synthetic_slant (rq_font rq); lk_bold := synthetic_bold (rq_font rq) |} = look_of (rq_font rq) s).
    { unfold look_of, synthetic_slant, synthetic_bold. f_equal; [now rewrite Z.eqb_sym|now rewrite Z.eqb_sym]. }
    rewrite L. rewrite baseline_lowered. unfold key_of, asked. destruct (rq_stroke rq) as [[t j]|]; reflexivity.
  Qed.

  Section history.
    Variable P : atlas_key -> drawing -> Prop.
    Definition asked_ok (rq : request) : Prop :=
      exists s, font_size (rq_font rq) = Ok s /\ exists d, draw_raster (want rq s) = Ok d /\ P (key_of rq s) d /\
        0 <= bm_w (dr_bitmap d) <= EXTENT /\ 0 <= bm_h (dr_bitmap d) <= EXTENT.
    Definition told_text (a : atlas atlas_key) (rq : request) (an : answer) : Prop :=
      exists s an0, font_size (rq_font rq) = Ok s /\ told P a (key_of rq s) an0 /\ an = lower_by an0 (lowered (rq_font rq)).

    Lemma told_more a a' k an : told P a k an -> incl (at_cache a) (at_cache a') -> told P a' k an.
    Proof. intros (i & I & T) H. exists i. split; [apply H, I|exact T]. Qed.
    Lemma asks_ok rs : forall a, Forall asked_ok rs -> atlas_ok PADDING P a ->
      exists a' ans, asks glyphs strokes a rs = Ok (a', ans) /\ atlas_ok PADDING P a' /\ Forall2 (told_text a') rs ans /\ incl (at_cache a) (at_cache a').
    Proof.
      induction rs as [|rq rs IH]; intros a Hs Ha; cbn [asks].
      - exists a, []. split; [reflexivity|]. split; [exact Ha|]. split; [constructor|apply incl_refl].
      - inversion Hs as [|? ? (s & E & d & Ed & Pd & Dw & Dh) Hs']. subst.
        destruct (@fetch_ok PADDING ltac:(unfold PADDING; lia) atlas_key atlas_key_eqb atlas_key_eqb_ok P a (key_of rq s) d _ Ha Pd Ed Dw Dh) as (a1 & an & F1 & F2 & F3 & F4).
        rewrite (ask_eq a rq s E), F1. cbn [obind].
        destruct (IH a1 Hs' F2) as (a' & ans & G1 & G2 & G3 & G4). rewrite G1. cbn [obind].
        exists a', (lower_by an (lowered (rq_font rq)) :: ans). split; [reflexivity|]. split; [exact G2|]. split; [|eapply incl_tran; eauto].
        constructor; [|exact G3]. exists s, an. split; [exact E|]. split; [eapply told_more; eauto|reflexivity].
    Qed.
  End history.

  Lemma pair_apart {A} (R : A -> A -> Prop) l x y : ForallOrdPairs R l -> In x l -> In y l -> x = y \/ R x y \/ R y x.
  Proof. intros H Hx Hy. apply ForallOrdPairs_In with (1 := H); assumption. Qed.

  Lemma Forall2_in_r {A B} (R : A -> B -> Prop) l m b : Forall2 R l m -> In b m -> exists a, In a l /\ R a b.
  Proof.
    induction 1 as [|x y l m Rxy HF IH]; intros Hb; [destruct Hb|]. destruct Hb as [<-|H1]; [exists x; split; [left; reflexivity|exact Rxy]|].
    destruct (IH H1) as (a & Ia & Ra). exists a. split; [right; exact Ia|exact Ra].
  Qed.

  Lemma rects_apart a P rs ans : atlas_ok PADDING P a -> Forall2 (told_text P a) rs ans ->
    forall an1 an2 n, In an1 ans -> In an2 ans -> an_picture an1 = OnPage n -> an_picture an2 = OnPage n ->
      (an_x an1 = an_x an2 /\ an_y an1 = an_y an2 /\ an_w an1 = an_w an2 /\ an_h an1 = an_h an2) \/
      apart 1 (an_x an1) (an_y an1) (an_w an1) (an_h an1) (an_x an2) (an_y an2) (an_w an2) (an_h an2).
  Proof.
    intros (_ & _ & A3) HF an1 an2 n I1 I2 O1 O2.
    destruct (Forall2_in_r _ _ _ _ HF I1) as (r1 & _ & s1 & b1 & _ & (i1 & J1 & X1 & Y1 & W1 & H1 & _ & _ & _ & _ & M1) & ->).
    destruct (Forall2_in_r _ _ _ _ HF I2) as (r2 & _ & s2 & b2 & _ & (i2 & J2 & X2 & Y2 & W2 & H2 & _ & _ & _ & _ & M2) & ->).
    cbn [lower_by an_picture an_x an_y an_w an_h] in *. rewrite X1, Y1, W1, H1, X2, Y2, W2, H2.
    assert (N1 : in_page i1 = Some n) by (destruct (in_page i1); [destruct M1; congruence|destruct M1; congruence]).
    assert (N2 : in_page i2 = Some n) by (destruct (in_page i2); [destruct M2; congruence|destruct M2; congruence]).
    destruct (pair_apart _ _ _ _ A3 J1 J2) as [E|[[E _]|[E _]]]; cbn [snd] in E.
    - inversion E. auto.
    - right. exact (E n N1 N2).
    - right. specialize (E n N2 N1). unfold apart, PADDING in *. lia.
  Qed.

  Definition get_drawing (o : outcome drawing) : drawing :=
    match o with Ok d => d | _ => {| dr_bitmap := bm_new 0 0; dr_left := f32_0; dr_top := f32_0; dr_color := false |} end.

  Lemma answered a rs :
    (forall rq, In rq rs -> forall s, font_size (rq_font rq) = Ok s -> drawable EXTENT (want rq s)) ->
    (forall r1 r2 s, In r1 rs -> In r2 rs -> font_size (rq_font r1) = Ok s -> font_size (rq_font r2) = Ok s -> key_of r1 s = key_of r2 s -> want r1 s = want r2 s) ->
    atlas_ok PADDING (fun k d => exists rq s, In rq rs /\ font_size (rq_font rq) = Ok s /\ k = key_of rq s /\ draw_raster (want rq s) = Ok d) a ->
    forall rq an, In rq rs -> told_text (fun k d => exists rq s, In rq rs /\ font_size (rq_font rq) = Ok s /\ k = key_of rq s /\ draw_raster (want rq s) = Ok d) a rq an ->
    exists s, font_size (rq_font rq) = Ok s /\
      answers EXTENT (map (fun p => (pg_image p, pg_color p)) (at_pages a)) (want rq s) (lowered (rq_font rq)) an.
  Proof.
    intros Hd Hc (A1 & A2 & A3) rq an Irq (s & an0 & Es & (i & J & X & Y & Wd & Ht & W2 & H2 & Lf & Tp & M) & ->).
    exists s. split; [exact Es|]. rewrite Forall_forall in A2. destruct (A2 _ J) as (d & (r0 & s0 & I0 & E0 & K0 & D0) & EI). cbn [fst snd] in *.
    assert (SS : s0 = s) by (unfold key_of in K0; destruct (rq_stroke rq) as [[]|], (rq_stroke r0) as [[]|]; inversion K0; reflexivity). subst s0.
    rewrite <- (Hc rq r0 s Irq I0 Es E0 K0) in D0.
    destruct (draw_raster_ok (want rq s) (Hd rq Irq s Es)) as (d' & D1 & Dp). rewrite D0 in D1. inversion D1. subst d'. clear D1.
    destruct Dp as (P1 & P2 & P3 & P4 & P5 & P6). destruct EI as (Q1 & Q2 & Q3 & Q4 & Q5).
    unfold answers. cbn [lower_by an_width an_height an_left an_top an_picture an_x an_y an_w an_h an_color].
    split; [congruence|]. split; [congruence|]. split; [congruence|]. split; [congruence|]. split.
    - intros Pw Ph. assert (FB : full (dr_bitmap d) = true) by (unfold full; lia). rewrite FB in Q5.
      destruct Q5 as (n & p & B1 & B2 & B3 & B4 & B5 & B6 & B7 & B8 & B9 & B10 & B11). rewrite B1 in M. destruct M as (M1 & d2 & (r2 & s2 & I2 & E2 & K2 & D2) & M2).
      assert (SS : s2 = s) by (unfold key_of in K2; destruct (rq_stroke rq) as [[]|], (rq_stroke r2) as [[]|]; inversion K2; reflexivity). subst s2.
      rewrite <- (Hc rq r2 s Irq I2 Es E2 K2) in D2. assert (d2 = d) by congruence. subst d2.
      exists n, (pg_image p). split; [exact M1|]. split; [rewrite nth_error_map, B2; cbn; congruence|]. split; [|split; [congruence|split; [congruence|congruence]]].
      rewrite X, Y. split; [lia|]. split; [lia|]. split; [lia|]. split; [lia|]. intros dx dy Hx Hy. exists (pixel (dr_bitmap d) dx dy). split; [apply P6; assumption|].
      apply B11. split; lia.
    - intros Nf. assert (FB : full (dr_bitmap d) = false) by (unfold full; lia). rewrite FB in Q5. rewrite Q5 in M. exact M.
  Qed.
End text.

Section theorems.
  Variable glyphs : look -> Z -> raster.
  Variable strokes : look -> Z -> Z -> Z -> raster.
  Notation want := (asked glyphs strokes).
  Definition requested (rs : list request) (k : atlas_key) (d : drawing) : Prop :=
    exists rq s, In rq rs /\ font_size (rq_font rq) = Ok s /\ k = key_of rq s /\ draw_raster (want rq s) = Ok d.
  Lemma requests_ok rs : (forall rq, In rq rs -> exists s, font_size (rq_font rq) = Ok s /\ drawable EXTENT (want rq s)) ->
    Forall (asked_ok glyphs strokes (requested rs)) rs.
  Proof.
    intros H. apply Forall_forall. intros rq I. destruct (H rq I) as (s & E & Dr). exists s. split; [exact E|].
    destruct (draw_raster_ok _ Dr) as (d & Ed & Dp). exists d. split; [exact Ed|]. split; [exists rq, s; auto|].
    destruct Dr as (B1 & B2 & _). destruct Dp as (-> & -> & _). auto.
  Qed.
  Lemma inside P rs ans a : atlas_ok PADDING P a -> Forall2 (told_text P a) rs ans ->
    forall an n, In an ans -> an_picture an = OnPage n ->
      0 <= an_x an /\ 0 <= an_y an /\ 0 < an_w an /\ 0 < an_h an /\ an_x an + an_w an <= EXTENT /\ an_y an + an_h an <= EXTENT /\ (n < List.length (at_pages a))%nat.
  Proof.
    intros (A1 & A2 & A3) HF an n I O. destruct (Forall2_in_r _ _ _ _ HF I) as (r & _ & s & b & _ & (i & J & X & Y & W & H & _ & _ & _ & _ & M) & ->).
    cbn [lower_by an_picture an_x an_y an_w an_h] in *. rewrite X, Y, W, H.
    rewrite Forall_forall in A2. destruct (A2 _ J) as (d & _ & E). cbn [snd] in E. destruct E as (_ & _ & _ & _ & E).
    destruct (full (dr_bitmap d)) eqn:FB; [|rewrite E in M; destruct M; congruence].
    destruct E as (m & p & B1 & B2 & B3 & B4 & B5 & B6 & B7 & B8 & B9 & _). rewrite B1 in M. destruct M as (M & _). assert (m = n) by congruence. subst m.
    unfold full in FB. apply andb_true_iff in FB. assert (n < List.length (at_pages a))%nat by (apply nth_error_Some; congruence). lia.
  Qed.
  Lemma no_overlap rs : (forall rq, In rq rs -> exists s, font_size (rq_font rq) = Ok s /\ drawable EXTENT (want rq s)) ->
    exists a ans, asks glyphs strokes no_atlas rs = Ok (a, ans) /\
      (forall an n, In an ans -> an_picture an = OnPage n ->
        0 <= an_x an /\ 0 <= an_y an /\ 0 < an_w an /\ 0 < an_h an /\ an_x an + an_w an <= EXTENT /\ an_y an + an_h an <= EXTENT /\ (n < List.length (at_pages a))%nat) /\
      (forall an1 an2 n, In an1 ans -> In an2 ans -> an_picture an1 = OnPage n -> an_picture an2 = OnPage n ->
        (an_x an1 = an_x an2 /\ an_y an1 = an_y an2 /\ an_w an1 = an_w an2 /\ an_h an1 = an_h an2) \/
        apart 1 (an_x an1) (an_y an1) (an_w an1) (an_h an1) (an_x an2) (an_y an2) (an_w an2) (an_h an2)).
  Proof.
    intros H. destruct (asks_ok glyphs strokes (requested rs) rs no_atlas (requests_ok rs H) (@no_atlas_ok PADDING atlas_key _)) as (a & ans & E & Ha & HF & _).
    exists a, ans. split; [exact E|]. split; [eapply inside; eauto|eapply rects_apart; eauto].
  Qed.
  Lemma all_answered rs : (forall rq, In rq rs -> exists s, font_size (rq_font rq) = Ok s /\ drawable EXTENT (want rq s)) ->
    declared_once rs -> stroked_alike rs ->
    exists a ans, asks glyphs strokes no_atlas rs = Ok (a, ans) /\
      Forall2 (fun rq an => exists s, font_size (rq_font rq) = Ok s /\
        answers EXTENT (map (fun p => (pg_image p, pg_color p)) (at_pages a)) (want rq s) (lowered (rq_font rq)) an) rs ans.
  Proof.
    intros H Hd Hs. destruct (asks_ok glyphs strokes (requested rs) rs no_atlas (requests_ok rs H) (@no_atlas_ok PADDING atlas_key _)) as (a & ans & E & Ha & HF & _).
    exists a, ans. split; [exact E|].
    assert (HF' : forall l m, incl l rs -> Forall2 (told_text (requested rs) a) l m ->
      Forall2 (fun rq an => exists s, font_size (rq_font rq) = Ok s /\
        answers EXTENT (map (fun p => (pg_image p, pg_color p)) (at_pages a)) (want rq s) (lowered (rq_font rq)) an) l m).
    { intros l m Il F. induction F as [|rq an l m T F IH]; constructor.
      - apply (answered glyphs strokes a rs); [| |exact Ha|apply Il; left; reflexivity|exact T].
        + intros r I s Es. destruct (H r I) as (s' & Es' & Dr). assert (s' = s) by congruence. subst. exact Dr.
        + intros r1 r2 s I1 I2 E1 E2 K. unfold key_of in K. unfold asked.
          destruct (rq_stroke r1) as [[t1 j1]|] eqn:S1, (rq_stroke r2) as [[t2 j2]|] eqn:S2; inversion K.
          * destruct (Hd r1 r2 I1 I2 ltac:(assumption)) as [D1 D2]. destruct (Hs r1 r2 I1 I2) as [D3 D4]; [congruence|congruence|assumption|].
            unfold look_of. rewrite D1, D2, D3, D4. congruence.
          * destruct (Hd r1 r2 I1 I2 ltac:(assumption)) as [D1 D2]. unfold look_of. rewrite D1, D2.
            replace (sf_style (rq_font r2)) with (sf_style (rq_font r1)) by assumption. replace (sf_weight (rq_font r2)) with (sf_weight (rq_font r1)) by assumption. congruence.
      - apply IH. intros x Hx. apply Il. right. exact Hx. }
    apply HF'; [apply incl_refl|exact HF].
  Qed.
End theorems.
