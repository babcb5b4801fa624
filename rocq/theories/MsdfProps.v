(** C78, C79 and C80: glyphs as distance fields. *)
From Coq Require Import QArith.
From Verif Require Import Base FloatModel ColorModel BuilderModel BitmapModel BitmapSpec BitmapProofs AtlasSpec AtlasModel MsdfSpec MsdfModel MsdfProofs MsdfAtlasProofs MsdfFloatProofs.
Open Scope Z_scope.

(** ** C78: the shape is the outline *)
(** Whatever the outline, a shape is made, and its edges are those of the outline, in
    order: none is lost but straight edges of length zero, none is added. *)
Theorem C78_edges : forall o, exists s, outline_shape o = Ok s /\ concat s = concat (map ring_edges o).
Proof. exact all_edges. Qed.
Print Assumptions C78_edges.

(** An outline with one ring that has edges (others may be bare points) becomes one
    contour, joined all around if its rings are closed.  Missing: several rings. *)
Theorem C78_contours_partial : forall o, (List.length (filter (fun c => negb (match c with [] => true | _ => false end)) (map ring_edges o)) <= 1)%nat ->
  exists s, outline_shape o = Ok s /\
    filter (fun c => negb (match c with [] => true | _ => false end)) s = filter (fun c => negb (match c with [] => true | _ => false end)) (map ring_edges o) /\
    (Forall closed o -> Forall well_joined s).
Proof.
  intros o H. destruct (all_edges o) as (s & E & _). exists s. split; [exact E|]. split; [exact (one_ring o s E H)|]. intros C. exact (joined_contours o s E C H).
Qed.
Print Assumptions C78_contours_partial.

(** A square ring of side [a] from the corner [p]. *)
Definition square (x y a : Z) : ring :=
  {| rg_start := (x, y); rg_pieces := [Line (x + a, y); Line (x + a, y + a); Line (x, y + a); Line (x, y)] |}.
(** A glyph with a hole: two closed rings become one contour, whose edges do not join
    where the first ring ends and the second starts. *)
Theorem C78_rings_refuted : exists o s c, Forall closed o /\ List.length (map ring_edges o) = 2%nat /\
  outline_shape o = Ok s /\ s = [c] /\ ~ well_joined c.
Proof.
  exists [square 0 0 100; square 20 20 50]. eexists _, _. split; [repeat constructor|]. split; [reflexivity|]. split; [vm_compute; reflexivity|]. split; [reflexivity|].
  intros J. destruct (J 3%nat _ eq_refl) as (e & E & D). cbn in E. injection E as <-. cbn in D. discriminate D.
Qed.
Print Assumptions C78_rings_refuted.

(** Curves, a bare point and an edge of length zero. *)
Example C78_example : let o := [ {| rg_start := (5, 5); rg_pieces := [] |};
                                 {| rg_start := (0, 0); rg_pieces := [Line (0, 0); Conic (5, 9) (10, 0); Cubic (9, -4) (1, -4) (0, 0)] |} ] in
  outline_shape o = Ok [[]; [Quadratic (0, 0) (5, 9) (10, 0); Cubical (10, 0) (9, -4) (1, -4) (0, 0)]] /\ Forall closed o /\
  (List.length (filter (fun c => negb (match c with [] => true | _ => false end)) (map ring_edges o)) <= 1)%nat.
Proof. split; [vm_compute; reflexivity|]. split; [repeat constructor|]. vm_compute. lia. Qed.

(** ** C79: the picture is where the glyph is *)
(** Shown at [size] pixels per em with its corner at its offset from the pen, every point
    of the glyph is where the font has it; the picture has more than one and a half and
    at most two pixels (at 32 pixels per em) around the glyph. *)
Theorem C79_place : forall upem l b r t fr, 0 < upem -> (l <= r)%Q -> (b <= t)%Q -> frame_of upem l b r t = Ok fr ->
  let u := inject_Z upem in
  (forall x y size, ((fr_left fr + fr_x fr x) * (size / 32) == x * size / u)%Q /\ ((fr_top fr + fr_y fr y) * (size / 32) == - (y * size / u))%Q) /\
  (forall x, l <= x -> x <= r -> 3 # 2 < fr_x fr x /\ fr_x fr x < inject_Z (fr_width fr) - (3 # 2))%Q /\
  (forall y, b <= y -> y <= t -> 3 # 2 < fr_y fr y /\ fr_y fr y < inject_Z (fr_height fr) - (3 # 2))%Q /\
  (inject_Z (fr_width fr) <= (r - l) * 32 / u + 4)%Q /\ (inject_Z (fr_height fr) <= (t - b) * 32 / u + 4)%Q.
Proof.
  intros upem l b r t fr U LR BT E u. destruct (frame_ok upem l b r t U fr LR BT E) as (W1 & W2 & H1 & H2 & P). pose proof (u_nz upem U) as NZ. fold u in W1, W2, H1, H2, P, NZ.
  split; [|split; [intros x; apply (P x x)|split; [intros y; apply (P y y)|split; assumption]]].
  intros x y size. destruct (P x y) as (P1 & P2 & _). rewrite P1, P2. split; field; exact NZ.
Qed.
Print Assumptions C79_place.
(** There is such a picture unless it is larger than the program can count. *)
Theorem C79_exists : forall upem l b r t, 0 < upem -> (l <= r)%Q -> (b <= t)%Q ->
  ((r - l) * 32 / inject_Z upem + 4 < inject_Z (2 ^ 31))%Q -> ((t - b) * 32 / inject_Z upem + 4 < inject_Z (2 ^ 31))%Q ->
  exists fr, frame_of upem l b r t = Ok fr.
Proof. exact frame_exists. Qed.
Print Assumptions C79_exists.

(** If the library computes numbers, the picture is made: as large as its frame, and
    every pixel stores the value of the field at its place. *)
Theorem C79_pixels : forall bounds field to_float upem o s l b r t fr,
  outline_shape o = Ok s -> concat s <> [] -> bounds s = (l, b, r, t) -> frame_of upem l b r t = Ok fr ->
  0 <= fr_width fr -> 0 <= fr_height fr -> fr_width fr * fr_height fr < 2 ^ 32 ->
  (forall x y, 0 <= x < fr_width fr -> 0 <= y < fr_height fr -> let '(vr, vg, vb) := field s fr x y in number vr /\ number vg /\ number vb) ->
  exists d, load_shape bounds field to_float upem o = Ok d /\
    bm_w (dr_bitmap d) = fr_width fr /\ bm_h (dr_bitmap d) = fr_height fr /\ dr_left d = to_float (fr_left fr) /\ dr_top d = to_float (fr_top fr) /\
    forall x y, 0 <= x < fr_width fr -> 0 <= y < fr_height fr -> stored (field s fr x y) = Ok (pixel (dr_bitmap d) x y).
Proof.
  intros bounds field to_float upem o s l b r t fr Es Ne Eb Ef W H WH Nf.
  unfold load_shape. rewrite Es. cbn [obind]. unfold edge_count. destruct (concat s) as [|e es] eqn:C; [congruence|]. cbn [List.length Nat.eqb]. rewrite Eb, Ef. cbn [obind].
  set (c := fun x y => match stored (field s fr x y) with Ok v => v | _ => 0 end).
  assert (St : forall x y, 0 <= x < fr_width fr -> 0 <= y < fr_height fr -> stored (field s fr x y) = Ok (c x y)).
  { intros x y Hx Hy. specialize (Nf x y Hx Hy). unfold c. destruct (field s fr x y) as [[vr vg] vb]. destruct Nf as (N1 & N2 & N3). destruct (stored_ok vr vg vb N1 N2 N3) as (v & ->). reflexivity. }
  assert (F31 : fr_width fr < 2 ^ 32 /\ fr_height fr < 2 ^ 32).
  { assert (B : forall q n, to_int q = Ok n -> n < 2 ^ 31).
    { intros q n. unfold to_int. destruct ((- 2 ^ 31 <=? _) && _) eqn:B; [|discriminate]. intros X. injection X as <-. lia. }
    unfold frame_of in Ef. destruct (upem =? 0); [discriminate|]. cbv zeta in Ef.
    destruct (to_int _) as [w| |] eqn:Ew in Ef; try discriminate Ef. cbn [obind] in Ef. destruct (to_int _) as [h| |] eqn:Eh in Ef; try discriminate Ef. cbn [obind] in Ef.
    apply B in Ew. apply B in Eh. injection Ef as Ef. rewrite <- Ef. cbn [fr_width fr_height]. lia. }
  destruct (field_rows_ok (field s fr) (fr_width fr) (fr_height fr) c St (Z.to_nat (fr_height fr)) (bm_new (fr_width fr) (fr_height fr)) 0) as (m & Em & (Pw & Ph & P1 & _)); [split; [cbn; lia|split; cbn; lia]|reflexivity|reflexivity|lia|lia|].
  rewrite Em. cbn [obind]. eexists. split; [reflexivity|]. cbn [dr_bitmap dr_left dr_top]. split; [exact Pw|]. split; [exact Ph|]. split; [reflexivity|]. split; [reflexivity|].
  intros x y Hx Hy. rewrite (St x y Hx Hy). f_equal. symmetry. apply P1; [split; cbn; lia|]. unfold in_rect. lia.
Qed.
Print Assumptions C79_pixels.

(** ** C80: the answers *)
(** As long as glyphs are asked for in the weight and style of their face: every glyph is
    answered, at the end of the history, with its own picture, its lengths multiplied by size
    / 32; strokes with theirs, as it is.  Two rectangles on a page are the same or two
    pixels apart.  Missing: imitated styles, the scale of strokes, raised and lowered
    text. *)
Theorem C80_answers_partial : forall bounds field to_float curve styled stroke_curve styled_stroke upem rs,
  let wanted rq := load_shape bounds field to_float (upem (fh_handle (sf_face (rq_font rq))))
    match rq_stroke rq with None => curve (fh_handle (sf_face (rq_font rq))) (rq_glyph rq)
                          | Some (t, j) => stroke_curve (fh_handle (sf_face (rq_font rq))) (rq_glyph rq) t j end in
  (forall rq, In rq rs -> unimitated rq /\ (exists s, font_size (rq_font rq) = Ok s) /\
    exists d, wanted rq = Ok d /\ 0 <= bm_w (dr_bitmap d) <= EXTENT /\ 0 <= bm_h (dr_bitmap d) <= EXTENT) ->
  exists a ans, ask_fields bounds field to_float curve styled stroke_curve styled_stroke upem no_atlas rs = Ok (a, ans) /\
    Forall2 (fun rq an => exists s d, font_size (rq_font rq) = Ok s /\ wanted rq = Ok d /\
      answers_field EXTENT (map (fun p => (pg_image p, pg_color p)) (at_pages a))
        {| fp_bitmap := dr_bitmap d; fp_left := dr_left d; fp_top := dr_top d |}
        (fun v => match rq_stroke rq with None => f32_mul v (f32_div (f32_of_Z s) (f32_of_Z 32)) | Some _ => v end) an) rs ans /\
    forall an1 an2 n, In an1 ans -> In an2 ans -> fa_picture an1 = OnPage n -> fa_picture an2 = OnPage n ->
      (fa_x an1 = fa_x an2 /\ fa_y an1 = fa_y an2 /\ fa_w an1 = fa_w an2 /\ fa_h an1 = fa_h an2) \/
      apart 2 (fa_x an1) (fa_y an1) (fa_w an1) (fa_h an1) (fa_x an2) (fa_y an2) (fa_w an2) (fa_h an2).
Proof.
  intros bounds field to_float curve styled stroke_curve styled_stroke upem rs wanted H.
  apply (all_fields bounds field to_float curve styled stroke_curve styled_stroke upem rs). apply Forall_forall. intros rq I. exact (H rq I).
Qed.
Print Assumptions C80_answers_partial.

(** *** Findings *)
(** A library and a font engine: glyph 0 is blank, imitated bold doubles the outline. *)
Definition toy_bounds (s : shape) : Q * Q * Q * Q :=
  match s with [Linear (x, y) (x', _) :: _] => (inject_Z x, inject_Z y, inject_Z x', inject_Z (y + (x' - x))) | _ => (0, 0, 0, 0)%Q end.
Definition toy_field (_ : shape) (_ : frame) (_ _ : Z) : f32 * f32 * f32 := (f32_1, f32_1, f32_0).
Definition toy_float (q : Q) : f32 := f32_of_Z (Qround.Qfloor q).
Definition toy_curve (_ g : Z) : outline := if g =? 0 then [] else [square 0 0 (100 * g)].
Definition toy_styled (lk : look) (g : Z) : outline := [square 0 0 (100 * g + match lk_bold lk with Some _ => 100 | None => 0 end)].
Definition toy_stroke (_ g _ _ : Z) : outline := [square 0 0 (100 * g)].
Definition toy_styled_stroke (_ : look) (g _ _ : Z) : outline := [square 0 0 (100 * g)].
Definition toy_ask := ask_fields toy_bounds toy_field toy_float toy_curve toy_styled toy_stroke toy_styled_stroke (fun _ => 1000).
Definition toy_face (h : Z) : face_handle := {| fh_handle := h; fh_weight := 3; fh_style := 0 |}.
Definition toy_font (size w : Z) (sub : bool) : ssfont :=
  {| sf_face := toy_face 5; sf_size := size; sf_weight := w; sf_style := 0; sf_sub := sub; sf_super := false; sf_small := false;
     sf_syn_sub := sub; sf_syn_super := false; sf_syn_small := false |}.
Definition toy_request (size w : Z) (sub : bool) (g : Z) (st : option (Z * Z)) : request := {| rq_font := toy_font size w sub; rq_glyph := g; rq_stroke := st |}.
Definition rectangle (an : field_answer) : Z * Z * f32 * f32 := (fa_w an, fa_h an, fa_width an, fa_top an).
Definition rectangles (o : outcome (atlas field_key * list field_answer)) : outcome (list (Z * Z * f32 * f32)) := do r <- o; Ok (map rectangle (snd r)).

Lemma toy_result rs l : rectangles (toy_ask no_atlas rs) = Ok l -> exists a ans, toy_ask no_atlas rs = Ok (a, ans) /\ map rectangle ans = l.
Proof. destruct (toy_ask no_atlas rs) as [[a ans]| |]; try discriminate. cbn [rectangles obind snd]. intros E. injection E as E. eauto. Qed.
Ltac toy E R rs a ans :=
  let l := eval vm_compute in (rectangles (toy_ask no_atlas rs)) in
  match l with Ok ?v => destruct (toy_result rs v ltac:(vm_compute; reflexivity)) as (a & ans & E & R) end.

(** A bold glyph, after the regular one of the same face and size, is answered with the
    regular picture, though its own is larger. *)
Theorem C80_style_refuted : exists a a' an an' an'',
  toy_ask no_atlas [toy_request 32 3 false 1 None; toy_request 32 6 false 1 None] = Ok (a, [an; an']) /\
  toy_ask no_atlas [toy_request 32 6 false 1 None] = Ok (a', [an'']) /\
  fa_w an' = fa_w an /\ fa_width an' = fa_width an /\ fa_w an' <> fa_w an''.
Proof.
  toy E R [toy_request 32 3 false 1 None; toy_request 32 6 false 1 None] a ans. toy E' R' [toy_request 32 6 false 1 None] a' ans'.
  destruct ans as [|a1 [|a2 []]]; try discriminate R. destruct ans' as [|a3 []]; try discriminate R'.
  exists a, a', a1, a2, a3. split; [exact E|]. split; [exact E'|]. clear E E'. destruct a1, a2, a3. cbn in *. injection R as ? ? ? ? ? ? ? ?. injection R' as ? ? ? ?. subst. repeat split. discriminate.
Qed.
Print Assumptions C80_style_refuted.

(** At twice the size a glyph is twice as large, its stroke is not. *)
Theorem C80_stroke_refuted : exists g g2 st st2 a, toy_ask no_atlas [toy_request 32 3 false 1 None; toy_request 64 3 false 1 None; toy_request 32 3 false 1 (Some (1, 0)); toy_request 64 3 false 1 (Some (1, 0))] = Ok (a, [g; g2; st; st2]) /\
  fa_width g = f32_of_Z 7 /\ fa_width g2 = f32_of_Z 14 /\ fa_width st = f32_of_Z 7 /\ fa_width st2 = f32_of_Z 7.
Proof.
  toy E R [toy_request 32 3 false 1 None; toy_request 64 3 false 1 None; toy_request 32 3 false 1 (Some (1, 0)); toy_request 64 3 false 1 (Some (1, 0))] a ans.
  destruct ans as [|a1 [|a2 [|a3 [|a4 []]]]]; try discriminate R.
  exists a1, a2, a3, a4, a. split; [exact E|]. clear E. destruct a1, a2, a3, a4. cbn in R. injection R as ? ? ? ? ? ? ? ? ? ? ? ? ? ? ? ?. subst. repeat split.
Qed.
Print Assumptions C80_stroke_refuted.

(** A subscript whose effective size is that of another font is put at the same height
    as that font's glyph: it is not lowered (the other atlas lowers it). *)
Theorem C80_lowered_refuted : exists s an an' a, font_size (toy_font 100 3 true) = Ok s /\
  toy_ask no_atlas [toy_request s 3 false 1 None; toy_request 100 3 true 1 None] = Ok (a, [an; an']) /\ fa_top an' = fa_top an /\
  lowered (toy_font 100 3 true) <> lowered (toy_font s 3 false).
Proof.
  exists 70. toy E R [toy_request 70 3 false 1 None; toy_request 100 3 true 1 None] a ans.
  destruct ans as [|a1 [|a2 []]]; try discriminate R.
  exists a1, a2, a. split; [vm_compute; reflexivity|]. split; [exact E|]. clear E. destruct a1, a2. cbn in R. injection R as ? ? ? ? ? ? ? ?. subst. split; [reflexivity|]. vm_compute. discriminate.
Qed.
Print Assumptions C80_lowered_refuted.

(** Asking twice for a blank glyph takes the address of a member of a page that does not
    exist. *)
Theorem C80_blank_refuted : exists an an' a, toy_ask no_atlas [toy_request 32 3 false 0 None; toy_request 32 3 false 0 None] = Ok (a, [an; an']) /\
  fa_picture an = Nothing /\ fa_picture an' = NullMember.
Proof. eexists _, _, _. split; [vm_compute; reflexivity|]. split; reflexivity. Qed.
Print Assumptions C80_blank_refuted.

(** The theorems speak about real glyphs. *)
Example C79_example : exists fr, frame_of 1000 0 0 100 100 = Ok fr /\ fr_width fr = 7 /\ fr_height fr = 7 /\
  outline_shape [square 0 0 100] = Ok [ring_edges (square 0 0 100)] /\ concat [ring_edges (square 0 0 100)] <> [] /\
  toy_bounds [ring_edges (square 0 0 100)] = (inject_Z 0, inject_Z 0, inject_Z 100, inject_Z 100) /\ number f32_1 /\ number f32_0.
Proof.
  eexists. split; [vm_compute; reflexivity|]. split; [vm_compute; reflexivity|]. split; [vm_compute; reflexivity|]. split; [vm_compute; reflexivity|]. split; [discriminate|]. split; [vm_compute; reflexivity|].
  split; (split; [vm_compute; reflexivity|discriminate]).
Qed.
Example C80_example : let rs := [toy_request 32 3 false 1 None; toy_request 48 3 false 1 None; toy_request 20 3 false 2 (Some (1, 0)); toy_request 20 3 false 0 None] in
  forall rq, In rq rs -> unimitated rq /\ (exists s, font_size (rq_font rq) = Ok s) /\
    exists d, load_shape toy_bounds toy_field toy_float 1000 match rq_stroke rq with None => toy_curve 5 (rq_glyph rq) | Some (t, j) => toy_stroke 5 (rq_glyph rq) t j end = Ok d /\
      0 <= bm_w (dr_bitmap d) <= EXTENT /\ 0 <= bm_h (dr_bitmap d) <= EXTENT.
Proof.
  intros rs rq [<-|[<-|[<-|[<-|[]]]]]; (split; [split; reflexivity|]; split; [eexists; vm_compute; reflexivity|]; eexists; split; [vm_compute; reflexivity|]; vm_compute; repeat split; discriminate).
Qed.
