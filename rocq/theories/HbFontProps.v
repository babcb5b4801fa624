(** C73 to C76: the font functions given to HarfBuzz. *)
From Coq Require Import Lia ZArith.
From Verif Require Import Base FloatModel HbFontModel HbFontSpec FloatIntProofs HbFontProofs.
Open Scope Z_scope.

(** Glyphs and sizes of the examples: an advance of 9 and 21/64 pixels and a bit at size 1. *)
Definition ex_ft (size g : Z) : Z := if g =? 300 then size * 611335 else if g =? 44 then size * 65536 else 0.
Definition ex_events : list font_event := [Asked [300; 44; 300]; Resized 2; Asked [44; 300; 70000]; Resized 1; Asked [300]].

(** Whatever was asked before and however often the size was changed: every answer is the advance
    of that glyph at the size of the moment, to the nearest 64th of a pixel. *)
Theorem C73_advances : forall (ft : Z -> Z -> Z) neg size es,
  Forall asks_ok es ->
  (forall size' gs g, In (size', gs) (requests size es) -> In g gs -> Z.abs (ft size' g) <= 2 ^ 24 - 512) ->
  exists r, advance_run ft neg size cache_clear es = Ok r /\
    Forall2 (fun '(size, gs) vs => Forall2 (fun g v => v = in_64ths (directed neg (Z.abs (ft size g)))) gs vs) (requests size es) r.
Proof. intros ft neg size es P H. apply advances_rel; [exact P|]. intros size' gs g I J. eexists. split; [apply round_small; eapply H; eassumption|reflexivity]. Qed.
Print Assumptions C73_advances.

(** Advances that are whole 64ths of a pixel, as those of hinted glyphs are, are exact up to
    32767 pixels. *)
Theorem C73_whole : forall (ft : Z -> Z -> Z) neg size es,
  Forall asks_ok es ->
  (forall size' gs g, In (size', gs) (requests size es) -> In g gs -> exists q, ft size' g = q * 1024 /\ Z.abs q < 2 ^ 21) ->
  exists r, advance_run ft neg size cache_clear es = Ok r /\
    Forall2 (fun '(size, gs) vs => Forall2 (fun g v => 1024 * v = directed neg (Z.abs (ft size g))) gs vs) (requests size es) r.
Proof.
  intros ft neg size es P H. apply advances_rel; [exact P|]. intros size' gs g I J. destruct (H _ _ _ I J) as (q & -> & B). eexists. split; [apply round_exact; exact B|].
  destruct neg; cbn [directed]; lia.
Qed.
Print Assumptions C73_whole.

(** All others are within three quarters of a 64th. *)
Theorem C73_near : forall (ft : Z -> Z -> Z) neg size es,
  Forall asks_ok es ->
  (forall size' gs g, In (size', gs) (requests size es) -> In g gs -> Z.abs (ft size' g) <= 2 ^ 31 - 2048) ->
  exists r, advance_run ft neg size cache_clear es = Ok r /\
    Forall2 (fun '(size, gs) vs => Forall2 (fun g v => Z.abs (1024 * v - directed neg (Z.abs (ft size g))) <= 768) gs vs) (requests size es) r.
Proof. intros ft neg size es P H. apply advances_rel; [exact P|]. intros size' gs g I J. apply round_near. eapply H; eassumption. Qed.
Print Assumptions C73_near.

Example C73_case : Forall asks_ok ex_events /\
  (forall size' gs g, In (size', gs) (requests 1 ex_events) -> In g gs -> Z.abs (ex_ft size' g) <= 2 ^ 24 - 512) /\
  advance_run ex_ft false 1 cache_clear ex_events = Ok [[597; 64; 597]; [128; 1194; 0]; [597]].
Proof.
  split; [|split; [|vm_compute; reflexivity]].
  - repeat constructor; lia.
  - intros size' gs g I J. cbn in I. destruct I as [E|[E|[E|[]]]]; injection E as <- <-; cbn in J; decompose [or] J; try contradiction; subst g; vm_compute; discriminate.
Qed.

(** The advance of a glyph in vertical text, which FreeType counts downwards. *)
Theorem C73_vertical : forall neg v, moderate v -> v_advance neg (Some v) = Ok (in_64ths (- directed neg v)).
Proof. exact v_advance_small. Qed.
Print Assumptions C73_vertical.
Example C73_vertical_case : moderate 1048576 /\ v_advance false (Some 1048576) = Ok (-1024).
Proof. split; [unfold moderate; lia|vm_compute; reflexivity]. Qed.

(** The scale of the font is the size of an em in 64ths of a pixel, rounded, and not negative. *)
Theorem C73_scale : forall s upem, 0 <= s -> 0 <= upem -> s * upem + 2 ^ 15 < 2 ^ 47 ->
  2 * Z.abs (2 ^ 16 * font_scale s upem - s * upem) <= 2 ^ 16 /\ 0 <= font_scale s upem.
Proof.
  intros s upem S U B. rewrite scale_value by assumption. pose proof (Z.div_mod (s * upem + 2 ^ 15) (2 ^ 16)). pose proof (Z.mod_pos_bound (s * upem + 2 ^ 15) (2 ^ 16)).
  split; [lia|]. apply Z.div_pos; lia.
Qed.
Print Assumptions C73_scale.
Example C73_scale_case : font_scale 20480 2048 = 640. Proof. reflexivity. Qed.

(** Long advances pass through a float with 24 bits: at 16384 pixels an advance can be off by more
    than half a 64th of a pixel. *)
Theorem C73_nearest_refuted : exists v a, round_advance false v = Ok a /\ 0 <= v < 2 ^ 31 /\ ~ 2 * Z.abs (1024 * a - v) <= 1024.
Proof. exists (2 ^ 30 + 511), (2 ^ 20 + 1). split; [vm_compute; reflexivity|]. lia. Qed.
Print Assumptions C73_nearest_refuted.

(** A glyph 32768 pixels wide: the conversion to [int] is undefined. *)
Theorem C73_wide_refuted : exists v, v = 32768 * 2 ^ 16 /\ round_advance false v = UB.
Proof. eexists. split; [reflexivity|vm_compute; reflexivity]. Qed.
Print Assumptions C73_wide_refuted.

(** * C74 *)

Definition ex_map : charmap :=
  {| cm_index := fun u => if u =? 0xF041 then 7 else if u =? 0x42 then 8 else 0; cm_symbol := true; cm_page := PageNone; cm_simp := fun u => u; cm_trad := fun u => u |}.

(** A font has a code point exactly when it gives it a glyph other than the missing glyph 0. *)
Theorem C74_has_glyph : forall m u, has_codepoint m u = true <-> map_codepoint_to_glyph m u <> 0.
Proof. exact codepoint_agree. Qed.
Print Assumptions C74_has_glyph.

(** However HarfBuzz asks, many code points at once or one by one, each gets the glyph the font
    has for it. *)
Theorem C74_any_way : forall m us gs, asked m us gs -> gs = map (map_codepoint_to_glyph m) us.
Proof. exact asked_map. Qed.
Print Assumptions C74_any_way.

(** Asked for many, the font answers for as many as it finds at once: all answered are right and
    the first one not answered is one FreeType does not find. *)
Theorem C74_batch : forall m us, exists n, length (nominal_glyphs m us) = n /\ (n <= length us)%nat /\
  Forall2 (fun u g => nominal_glyph m u = Some g) (firstn n us) (nominal_glyphs m us) /\
  (forall u, nth_error us n = Some u -> cm_index m u = 0).
Proof. exact batch. Qed.
Print Assumptions C74_batch.

(** In a symbol font the characters of one byte are those of the private page U+F000, unless the
    font has them itself. *)
Theorem C74_symbol : forall m u, cm_symbol m = true -> cm_page m = PageNone -> cm_index m u = 0 -> 0 <= u <= 255 ->
  nominal_glyph m u = nominal_glyph m (0xF000 + u).
Proof. exact symbol. Qed.
Print Assumptions C74_symbol.

(** A code point FreeType finds has FreeType's glyph. *)
Theorem C74_found : forall m u, cm_index m u <> 0 -> map_codepoint_to_glyph m u = cm_index m u.
Proof. intros m u N. unfold map_codepoint_to_glyph. rewrite nominal_of_index by exact N. reflexivity. Qed.
Print Assumptions C74_found.

Example C74_case : asked ex_map [0x42; 0x41; 0x42; 0x43] [8; 7; 8; 0] /\ has_codepoint ex_map 0x41 = true /\ cm_index ex_map 0x41 = 0 /\ nominal_glyphs ex_map [0x42; 0x41] = [8] /\ has_codepoint ex_map 0x43 = false.
Proof.
  repeat split. apply (asked_many _ _ [8]); [reflexivity|]. cbn [skipn length]. apply (asked_one ex_map 0x41). apply (asked_many _ _ [8]); [reflexivity|]. apply (asked_one ex_map 0x43). constructor.
Qed.

(** * C75 *)

(** The box of a glyph is FreeType's, turned with the axes, as long as nothing is larger than
    262144 pixels. *)
Theorem C75_extents : forall negx negy g,
  moderate (gm_hbx g) -> moderate (gm_hby g) -> moderate (gm_width g) -> moderate (gm_height g) ->
  moderate (gm_hbx g + gm_width g) -> moderate (gm_hby g - gm_height g) ->
  glyph_extents negx negy (Some g) =
    Ok (Some {| ex_x := directed negx (gm_hbx g); ex_y := directed negy (gm_hby g);
                ex_w := directed negx (gm_width g); ex_h := directed negy (- gm_height g) |}).
Proof. exact extents_value. Qed.
Print Assumptions C75_extents.

(** So is the origin for vertical text. *)
Theorem C75_origin : forall negx negy g, moderate (gm_hbx g - gm_vbx g) -> moderate (gm_hby g + gm_vby g) ->
  glyph_v_origin negx negy (Some g) = Ok (Some (directed negx (gm_hbx g - gm_vbx g), directed negy (gm_hby g + gm_vby g))).
Proof. exact origin_value. Qed.
Print Assumptions C75_origin.

(** Ascender, descender and gap of a scalable font are the scaled ones of the face, and together
    they make its line height. *)
Theorem C75_line : forall mulfix f, fm_upem f <> 0 ->
  let a := mulfix (fm_asc f) (fm_yscale f) in let d := mulfix (fm_desc f) (fm_yscale f) in let h := mulfix (fm_height f) (fm_yscale f) in
  moderate a -> moderate d -> moderate (h - (a - d)) ->
  exists e, font_h_extents mulfix false f = Ok e /\ fe_asc e = a /\ fe_desc e = d /\ fe_asc e - fe_desc e + fe_gap e = h.
Proof.
  intros mulfix f U a d h A D G. rewrite (h_extents_value mulfix false f a d h); trivial; [|apply Z.eqb_neq in U; rewrite U; reflexivity].
  eexists. split; [reflexivity|]. cbn. lia.
Qed.
Print Assumptions C75_line.

(** Those of a bitmap font are the ones of its size. *)
Theorem C75_line_bitmap : forall mulfix f, fm_upem f = 0 ->
  moderate (fm_sasc f) -> moderate (fm_sdesc f) -> moderate (fm_sheight f - (fm_sasc f - fm_sdesc f)) ->
  exists e, font_h_extents mulfix false f = Ok e /\ fe_asc e = fm_sasc f /\ fe_desc e = fm_sdesc f /\ fe_asc e - fe_desc e + fe_gap e = fm_sheight f.
Proof.
  intros mulfix f U A D G. rewrite (h_extents_value mulfix false f (fm_sasc f) (fm_sdesc f) (fm_sheight f)); trivial; [|rewrite U; reflexivity].
  eexists. split; [reflexivity|]. cbn. lia.
Qed.
Print Assumptions C75_line_bitmap.

(** Points of an outline: those that exist, and no access outside them. *)
Theorem C75_points : forall ps i, 0 <= i -> Forall (fun p => - 2 ^ 31 <= fst p < 2 ^ 31 /\ - 2 ^ 31 <= snd p < 2 ^ 31) ps ->
  glyph_contour_point (Some ps) i = Ok (nth_error ps (Z.to_nat i)).
Proof.
  intros ps i I P. cbn [glyph_contour_point]. destruct (Z.of_nat (length ps) <=? i) eqn:E.
  - apply Z.leb_le in E. rewrite (proj2 (nth_error_None _ _)) by lia. reflexivity.
  - apply Z.leb_gt in E. unfold zget, vget. destruct (i <? 0) eqn:N; [apply Z.ltb_lt in N; lia|]. destruct (nth_error ps (Z.to_nat i)) as [[x y]|] eqn:G; [|apply nth_error_None in G; lia].
    apply nth_error_In in G. rewrite Forall_forall in P. destruct (P _ G) as [X Y]. cbn [fst snd] in *. cbn [obind fst snd]. rewrite !to_int32_small by assumption. reflexivity.
Qed.
Print Assumptions C75_points.

Definition ex_metrics : glyph_metrics := {| gm_width := 500; gm_height := 640; gm_hbx := -20; gm_hby := 600; gm_vbx := -270; gm_vby := 90 |}.
Definition ex_face : face_metrics := {| fm_upem := 2048; fm_asc := 1900; fm_desc := -500; fm_height := 2450; fm_yscale := 20480; fm_sasc := 0; fm_sdesc := 0; fm_sheight := 0 |}.
Definition ex_mulfix (a b : Z) : Z := (a * b + 32768) / 65536.
Example C75_case :
  glyph_extents false false (Some ex_metrics) = Ok (Some {| ex_x := -20; ex_y := 600; ex_w := 500; ex_h := -640 |}) /\
  moderate (gm_hbx ex_metrics + gm_width ex_metrics) /\ moderate (gm_hby ex_metrics - gm_height ex_metrics) /\
  glyph_v_origin false false (Some ex_metrics) = Ok (Some (250, 690)) /\
  font_h_extents ex_mulfix false ex_face = Ok {| fe_asc := 594; fe_desc := -156; fe_gap := 16 |} /\
  moderate (ex_mulfix 1900 20480) /\ glyph_contour_point (Some [(1, 2); (3, 4)]) 1 = Ok (Some (3, 4)).
Proof. unfold moderate. repeat split; try (vm_compute; reflexivity); vm_compute; discriminate. Qed.

(** Beyond 262144 pixels the box of a glyph is rounded: a bearing of 2^24 + 1 becomes 2^24. *)
Theorem C75_large_refuted : exists g e, gm_hbx g = 2 ^ 24 + 1 /\ glyph_extents false false (Some g) = Ok (Some e) /\ ex_x e <> gm_hbx g.
Proof.
  exists {| gm_width := 64; gm_height := 64; gm_hbx := 2 ^ 24 + 1; gm_hby := 0; gm_vbx := 0; gm_vby := 0 |}. eexists. split; [reflexivity|]. split; [vm_compute; reflexivity|]. vm_compute. discriminate.
Qed.
Print Assumptions C75_large_refuted.

(** * C76 *)

(** Asked with a terminated name, the font finds exactly the names its glyphs have. *)
Theorem C76_terminated_partial : forall names find zero s rest len, answers_from names find zero -> ~ In 0 s -> len < 0 ->
  exists b g, glyph_from_name find zero (s ++ 0 :: rest) len = Ok (b, g) /\
    (b = true <-> In s names) /\ (b = true -> 0 <= g /\ nth_error names (Z.to_nat g) = Some s).
Proof. exact terminated. Qed.
Print Assumptions C76_terminated_partial.

(** Asked with a length, it finds every name of at most 127 bytes that a glyph has. *)
Theorem C76_known_partial : forall names find zero s rest, answers_from names find zero -> In s names -> (length s <= 127)%nat ->
  exists g, glyph_from_name find zero (s ++ rest) (Z.of_nat (length s)) = Ok (true, g) /\ 0 <= g /\ nth_error names (Z.to_nat g) = Some s.
Proof. exact known. Qed.
Print Assumptions C76_known_partial.

(** ".notdef" and "A". *)
Definition ex_names : list (list Z) := [[46; 110; 111; 116; 100; 101; 102]; [65]].
Definition ex_find (s : list Z) : Z := if bytes_eqb s [65] then 1 else 0.
Lemma ex_answers : answers_from ex_names ex_find (hd_error ex_names).
Proof.
  unfold ex_find. repeat split; try discriminate.
  - destruct (bytes_eqb s [65]); lia.
  - destruct (bytes_eqb s [65]) eqn:E; [|congruence]. apply bytes_eqb_spec in E as ->. reflexivity.
  - intros s I. cbn in I. destruct I as [<-|[<-|[]]]; [reflexivity|discriminate].
  - intros s I. cbn in I. destruct I as [<-|[<-|[]]]; cbn; lia.
Qed.
Example C76_case :
  answers_from ex_names ex_find (hd_error ex_names) /\
  glyph_from_name ex_find (hd_error ex_names) [65; 0] (-1) = Ok (true, 1) /\
  glyph_from_name ex_find (hd_error ex_names) [46; 110; 111; 0] (-1) = Ok (false, 0) /\
  glyph_from_name ex_find (hd_error ex_names) [65; 66] 1 = Ok (true, 1).
Proof. split; [exact ex_answers|]. repeat split. Qed.

(** With a length, [!FT_Get_Glyph_Name(...) && len < 0 ? a : b] is read as
    [(... && len < 0) ? a : b]: every beginning of the name of glyph 0 is taken for its name. *)
Theorem C76_prefix_refuted : exists names find zero s, answers_from names find zero /\ ~ In s names /\
  glyph_from_name find zero s (Z.of_nat (length s)) = Ok (true, 0).
Proof.
  exists ex_names, ex_find, (hd_error ex_names), [46; 110; 111]. split; [exact ex_answers|]. split; [|reflexivity]. cbn. intros [E|[E|[]]]; discriminate.
Qed.
Print Assumptions C76_prefix_refuted.

(** In a font without glyph names every name of which the length is given is compared with a
    buffer that was never written. *)
Theorem C76_unnamed_refuted : forall name len, len <> 0 -> glyph_from_name (fun _ => 0) None name len = UB.
Proof. intros name len N. unfold glyph_from_name. destruct (len <? 0); cbn [Z.eqb]; apply Z.eqb_neq in N; rewrite N; reflexivity. Qed.
Print Assumptions C76_unnamed_refuted.

(** A name longer than 127 bytes is cut, and a glyph that has the cut name is found for it. *)
Theorem C76_long_refuted : exists names find zero s, answers_from names find zero /\ ~ In s names /\
  glyph_from_name find zero s (Z.of_nat (length s)) = Ok (true, 1).
Proof.
  exists [[46]; repeat 65 127], (fun s => if bytes_eqb s (repeat 65 127) then 1 else 0), (Some [46]), (repeat 65 128). split; [|split].
  - repeat split; try discriminate.
    + destruct (bytes_eqb s (repeat 65 127)); lia.
    + destruct (bytes_eqb s (repeat 65 127)) eqn:E; [|congruence]. apply bytes_eqb_spec in E as ->. reflexivity.
    + intros s I. cbn [In] in I. destruct I as [<-|[<-|[]]]; [reflexivity|]. rewrite (proj2 (bytes_eqb_spec _ _) eq_refl). discriminate.
    + intros s [<-|[<-|[]]] I; [cbn in I; lia|]. apply repeat_spec in I. discriminate.
  - intros [E|[E|[]]]; discriminate.
  - vm_compute. reflexivity.
Qed.
Print Assumptions C76_long_refuted.
