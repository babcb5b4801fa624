From Coq Require Import ZArith QArith Qminmax Lqa Lia.
From Verif Require Import Base BaseFacts FloatModel ColorModel ColorProofs BitmapModel BuilderModel FontSizeModel AtlasSpec AtlasModel GlModel ShaderModel ShaderSpec ShaderProofs TextureModel TextureSpec.
Open Scope Z_scope.

(** * Words in memory *)
Lemma row_bytes_4 w : row_bytes w = 4 * w.
Proof. unfold row_bytes, ALIGNMENT. replace (4 * w + 4 - 1) with (3 + w * 4) by ring. rewrite Z.div_add by lia. change (3 / 4) with 0. lia. Qed.
Lemma memory_word b n k : 0 <= k < 4 -> memory b (4 * n + k) = bm_at b n / 2 ^ (8 * k) mod 256.
Proof.
  intros K. unfold memory. replace (4 * n + k) with (k + n * 4) by ring. rewrite (Z.div_add k n 4), (Z.mod_add k n 4) by lia.
  rewrite (Z.div_small k 4), (Z.mod_small k 4) by lia. now rewrite Z.add_0_l.
Qed.
Definition reads (f : format) (v : Z) : rgba :=
  match f with GL_RGBA => packed_color v | GL_BGRA => red_and_blue_exchanged (packed_color v) end.
Lemma pixel_word f b w x y : pixel f (memory b) (y * row_bytes w + 4 * x) = reads f (bm_at b (y * w + x)).
Proof.
  rewrite row_bytes_4. replace (y * (4 * w) + 4 * x) with (4 * (y * w + x)) by ring.
  unfold pixel. rewrite !memory_word by lia. destruct f; reflexivity.
Qed.

(** * Uploads *)
Definition same_texture (a b : GlModel.texture) : Prop := t_w a = t_w b /\ t_h a = t_h b /\ forall x y, t_texel a x y = t_texel b x y.
Definition shows_words (u : Z -> Z -> rgba) (f : format) (t : AtlasSpec.texture) (im : image) : Prop :=
  im_format im = f /\ same_texture (im_texture im) (texture_of (reads f) u EXTENT EXTENT t).
Lemma write_words u f t im e : shows_words u f t im ->
  shows_words u f (let '(x, y, b) := e in image_write t x y b) (write_bitmap im e).
Proof.
  intros (F & W & H & T). destruct e as [[x y] b]. cbn [write_bitmap]. unfold write. cbn in W, H. rewrite W, H. unfold image_write.
  destruct ((0 <=? x) && (0 <=? y) && (x + bm_w b <=? EXTENT) && (y + bm_h b <=? EXTENT)) eqn:I; [|now repeat split].
  split; [exact F|]. repeat split. intros px py. cbn [im_texture t_texel texture_of].
  destruct ((x <=? px) && (px <? x + bm_w b) && (y <=? py) && (py <? y + bm_h b)) eqn:J; [|apply T]. rewrite F. apply pixel_word.
Qed.
Lemma page_words_shown u f es : shows_words u f (page_words es) (page_image u f es).
Proof.
  unfold page_words, page_image.
  enough (forall t im, shows_words u f t im ->
    shows_words u f (fold_left (fun t e => let '(x, y, b) := e in image_write t x y b) es t) (fold_left write_bitmap es im)) as P by (apply P; now repeat split).
  induction es as [|e es IH]; intros t im S; [exact S|]. cbn [fold_left]. apply IH, write_words, S.
Qed.

(** * Every page comes from uploads *)
Definition made (p : page) : Prop := exists es, pg_image p = page_words es.
Lemma forall_set {A} (P : A -> Prop) l n v : Forall P l -> P v -> Forall P (list_set l n v).
Proof. intros F V. revert n. induction F as [|x l Hx Fl IH]; intros [|n]; cbn; repeat constructor; auto. Qed.
Lemma target_made ps w h c : Forall made ps -> Forall made (fst (target_page ps w h c)).
Proof.
  induction ps as [|p ps IH]; intros F.
  - constructor; [|constructor]. exists []. reflexivity.
  - cbn [target_page]. destruct (Bool.eqb _ _ && can_fit p w h); [exact F|]. inversion F; subst.
    destruct (target_page ps w h c) as [qs n]. constructor; auto.
Qed.
Lemma upload_made pad ps b c r : Forall made ps -> upload pad ps b c = Ok r -> Forall made (fst (fst (fst r))).
Proof.
  intros F U. unfold upload in U. pose proof (target_made ps (wrap32 (bm_w b + pad)) (wrap32 (bm_h b + pad)) c F) as T.
  destruct (target_page ps _ _ c) as [qs n]. cbn [fst] in T. destruct (vget qs n) as [p| |] eqn:G; try discriminate. cbn [obind] in U.
  injection U as <-. cbn [fst]. apply forall_set; [exact T|]. unfold made. cbn [pg_image].
  assert (M : made p).
  { apply vget_ok in G. rewrite Forall_forall in T. apply T. eapply nth_error_In. exact G. }
  assert (M' : made (line_feed p (wrap32 (bm_w b + pad)) (wrap32 (bm_h b + pad)))).
  { unfold line_feed. destruct (_ <? _); exact M. }
  destruct M' as (es & E). exists (es ++ [(pg_x (line_feed p (wrap32 (bm_w b + pad)) (wrap32 (bm_h b + pad))), pg_y (line_feed p (wrap32 (bm_w b + pad)) (wrap32 (bm_h b + pad))), b)]).
  unfold page_words. rewrite fold_left_app. cbn [fold_left]. now rewrite E.
Qed.
Lemma fetch_made {key} pad (eqb : key -> key -> bool) a k make r : Forall made (at_pages a) -> fetch pad eqb a k make = Ok r -> Forall made (at_pages (fst r)).
Proof.
  intros F E. unfold fetch in E. destruct (cached eqb (at_cache a) k) as [i|].
  - destruct (hit a i) as [an| |]; try discriminate. injection E as <-. exact F.
  - destruct make as [d| |]; try discriminate. cbn [obind] in E. destruct ((0 <? bm_w (dr_bitmap d)) && (0 <? bm_h (dr_bitmap d))).
    + destruct (upload pad (at_pages a) (dr_bitmap d) (dr_color d)) as [[[[ps n] x] y]| |] eqn:U; try discriminate. cbn [obind] in E.
      injection E as <-. apply (upload_made _ _ _ _ _ F U).
    + injection E as <-. exact F.
Qed.
Lemma ask_made glyphs strokes a rq r : Forall made (at_pages a) -> ask glyphs strokes a rq = Ok r -> Forall made (at_pages (fst r)).
Proof.
  intros F E. unfold ask in E. destruct (font_size (rq_font rq)) as [s| |]; try discriminate. cbn [obind] in E.
  destruct (rq_stroke rq) as [[t j]|]; (match type of E with obind ?e _ = _ => destruct e as [[a1 an]| |] eqn:G; try discriminate end);
    cbn [obind] in E; injection E as <-; apply (fetch_made _ _ _ _ _ _ F G).
Qed.
Lemma asks_made glyphs strokes rs : forall a r, Forall made (at_pages a) -> asks glyphs strokes a rs = Ok r -> Forall made (at_pages (fst r)).
Proof.
  induction rs as [|rq rs IH]; intros a r F E; cbn [asks] in E; [now injection E as <-|].
  destruct (ask glyphs strokes a rq) as [[a1 an]| |] eqn:A; try discriminate. cbn [obind] in E.
  destruct (asks glyphs strokes a1 rs) as [[a2 ans]| |] eqn:B; try discriminate. injection E as <-.
  apply (IH _ _ (ask_made _ _ _ _ _ F A) B).
Qed.

(** * Words of grey pictures *)
Lemma grey_word v : 0 <= v < 256 ->
  packed_color (v * 2 ^ 24 + 255 * 2 ^ 16 + 255 * 2 ^ 8 + 255) = {| q_r := inject_Z 255 / 255; q_g := inject_Z 255 / 255; q_b := inject_Z 255 / 255; q_a := inject_Z v / 255 |}.
Proof.
  intros V. unfold packed_color.
  change (8 * 0) with 0. change (8 * 1) with 8. change (8 * 2) with 16. change (8 * 3) with 24.
  assert (E0 : (v * 2 ^ 24 + 255 * 2 ^ 16 + 255 * 2 ^ 8 + 255) / 2 ^ 0 mod 256 = 255) by (rewrite Z.pow_0_r, Z.div_1_r; symmetry; apply (Z.mod_unique_pos _ _ (v * 2 ^ 16 + 255 * 2 ^ 8 + 255)); lia).
  assert (E1 : (v * 2 ^ 24 + 255 * 2 ^ 16 + 255 * 2 ^ 8 + 255) / 2 ^ 8 mod 256 = 255).
  { replace ((v * 2 ^ 24 + 255 * 2 ^ 16 + 255 * 2 ^ 8 + 255) / 2 ^ 8) with (v * 2 ^ 16 + 255 * 2 ^ 8 + 255) by (apply (Z.div_unique_pos _ _ _ 255); lia).
    symmetry; apply (Z.mod_unique_pos _ _ (v * 2 ^ 8 + 255)); lia. }
  assert (E2 : (v * 2 ^ 24 + 255 * 2 ^ 16 + 255 * 2 ^ 8 + 255) / 2 ^ 16 mod 256 = 255).
  { replace ((v * 2 ^ 24 + 255 * 2 ^ 16 + 255 * 2 ^ 8 + 255) / 2 ^ 16) with (v * 2 ^ 8 + 255) by (apply (Z.div_unique_pos _ _ _ 65535); lia).
    symmetry; apply (Z.mod_unique_pos _ _ v); lia. }
  assert (E3 : (v * 2 ^ 24 + 255 * 2 ^ 16 + 255 * 2 ^ 8 + 255) / 2 ^ 24 mod 256 = v).
  { replace ((v * 2 ^ 24 + 255 * 2 ^ 16 + 255 * 2 ^ 8 + 255) / 2 ^ 24) with v by (apply (Z.div_unique_pos _ _ _ 16777215); lia).
    apply Z.mod_small; lia. }
  now rewrite E0, E1, E2, E3.
Qed.
Lemma packed_bytes r g b a : 0 <= r < 256 -> 0 <= g < 256 -> 0 <= b < 256 -> 0 <= a < 256 ->
  packed_color (pack4 a b g r) = {| q_r := inject_Z r / 255; q_g := inject_Z g / 255; q_b := inject_Z b / 255; q_a := inject_Z a / 255 |}.
Proof.
  intros R G B A. rewrite pack4_eq by assumption. unfold packed_color.
  change (8 * 0) with 0. change (8 * 1) with 8. change (8 * 2) with 16. change (8 * 3) with 24.
  f_equal; f_equal; f_equal.
  - rewrite Z.pow_0_r, Z.div_1_r. symmetry. apply (Z.mod_unique_pos _ _ (a * 2 ^ 16 + b * 2 ^ 8 + g)); lia.
  - match goal with |- ?e / _ mod _ = _ => replace (e / 2 ^ 8) with (a * 2 ^ 16 + b * 2 ^ 8 + g) by (apply (Z.div_unique_pos _ _ _ r); lia) end.
    symmetry. apply (Z.mod_unique_pos _ _ (a * 2 ^ 8 + b)); lia.
  - match goal with |- ?e / _ mod _ = _ => replace (e / 2 ^ 16) with (a * 2 ^ 8 + b) by (apply (Z.div_unique_pos _ _ _ (g * 2 ^ 8 + r)); lia) end.
    symmetry. apply (Z.mod_unique_pos _ _ a); lia.
  - match goal with |- ?e / _ mod _ = _ => replace (e / 2 ^ 24) with a by (apply (Z.div_unique_pos _ _ _ (b * 2 ^ 16 + g * 2 ^ 8 + r)); lia) end.
    apply Z.mod_small; lia.
Qed.

(** * Fields: the order of red and blue *)
Open Scope Q_scope.
Lemma median_exchanged c : sig_dist (red_and_blue_exchanged c) == sig_dist c.
Proof.
  unfold sig_dist, median, red_and_blue_exchanged. cbn [q_r q_g q_b].
  destruct c as [r g b a]; cbn.
  destruct (Q.max_spec (Qmin b g) (Qmin (Qmax b g) r)) as [[? E1]|[? E1]];
  destruct (Q.max_spec (Qmin r g) (Qmin (Qmax r g) b)) as [[? E2]|[? E2]];
  destruct (Q.min_spec b g) as [[? E3]|[? E3]]; destruct (Q.min_spec r g) as [[? E4]|[? E4]];
  destruct (Q.max_spec b g) as [[? E5]|[? E5]]; destruct (Q.max_spec r g) as [[? E6]|[? E6]];
  destruct (Q.min_spec (Qmax b g) r) as [[? E7]|[? E7]]; destruct (Q.min_spec (Qmax r g) b) as [[? E8]|[? E8]];
  rewrite ?E1, ?E2, ?E3, ?E4, ?E5, ?E6, ?E7, ?E8 in *; lra.
Qed.
Lemma sample_exchanged tx ty st : t_w tx = t_w ty -> t_h tx = t_h ty ->
  (forall x y, t_texel tx x y = red_and_blue_exchanged (t_texel ty x y)) -> sample tx st = red_and_blue_exchanged (sample ty st).
Proof. intros W H T. unfold sample. rewrite W, H, !T. reflexivity. Qed.
Lemma qle_same a b c d : a == c -> b == d -> Qle_bool a b = Qle_bool c d.
Proof. intros E F. apply eq_true_iff_eq. rewrite !Qle_bool_iff, E, F. reflexivity. Qed.
Lemma smoothstep_same e0 e1 x f0 f1 y : e0 == f0 -> e1 == f1 -> x == y ->
  match smoothstep e0 e1 x, smoothstep f0 f1 y with Ok a, Ok b => a == b | UB, UB => True | _, _ => False end.
Proof.
  intros E F X. unfold smoothstep. rewrite (qle_same _ _ _ _ F E). destruct (Qle_bool f1 f0); [exact I|].
  assert (M : Qmin (Qmax ((x - e0) / (e1 - e0)) 0) 1 == Qmin (Qmax ((y - f0) / (f1 - f0)) 0) 1) by (rewrite E, F, X; reflexivity).
  cbv zeta. rewrite M. reflexivity.
Qed.
Lemma fragment_exchanged length tx ty color st i j :
  (forall x x' y y', x == x' -> y == y' -> length x y == length x' y') ->
  t_w tx = t_w ty -> t_h tx = t_h ty -> (forall x y, t_texel tx x y = red_and_blue_exchanged (t_texel ty x y)) ->
  same_outcome (msdf_fragment length tx color st i j) (msdf_fragment length ty color st i j).
Proof.
  intros L W H T. unfold msdf_fragment, opacity.
  assert (S0 : forall i j, sig_dist (sample tx (st i j)) == sig_dist (sample ty (st i j))).
  { intros i' j'. rewrite (sample_exchanged tx ty _ W H T). apply median_exchanged. }
  assert (DX : dfdx (fun i j => sig_dist (sample tx (st i j))) i j == dfdx (fun i j => sig_dist (sample ty (st i j))) i j) by (unfold dfdx; now rewrite !S0).
  assert (DY : dfdy (fun i j => sig_dist (sample tx (st i j))) i j == dfdy (fun i j => sig_dist (sample ty (st i j))) i j) by (unfold dfdy; now rewrite !S0).
  pose proof (L _ _ _ _ DX DY) as E. cbv zeta.
  match goal with |- same_outcome (obind ?a _) (obind ?b _) => assert (Q0 : match a, b with Ok c, Ok d => c == d | UB, UB => True | _, _ => False end) end.
  { apply smoothstep_same; [now rewrite E|now rewrite E|apply S0]. }
  match goal with |- same_outcome (obind ?a _) (obind ?b _) => destruct a as [o| |], b as [o'| |]; try contradiction; cbn; [|exact I] end.
  repeat split; try reflexivity. cbn. now rewrite Q0.
Qed.
