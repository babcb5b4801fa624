From Coq Require Import Lqa.
From Verif Require Import Base UiModel UiSpec UiProofs WindowModel WindowSpec WindowProofs.
From Verif Require Import ClipModel GlModel ShaderModel ShaderSpec ShaderProofs ToolModel ToolSpec.
Set Implicit Arguments.
Open Scope nat_scope.
Open Scope list_scope.

(** * One pixel at a time *)
Definition part_on (p : part) (i j : Z) : bool :=
  let r := p_rect p in
  if p_outline p then border (Qfloor (r_x r)) (Qfloor (r_y r)) (Qfloor (r_x r + r_w r)) (Qfloor (r_y r + r_h r)) i j
  else in_rect r i j.
Definition coat (i j : Z) (c : rgba) (s : shape) : rgba :=
  match s with Part p => if part_on p i j then blend (p_color p) c else c | Label _ => c end.
Definition coats (i j : Z) (c : rgba) (ss : list shape) : rgba := fold_left (coat i j) ss c.
Definition sound (s : shape) : Prop :=
  match s with
  | Label _ => True
  | Part p => let r := p_rect p in
      if p_outline p then (Qfloor (r_x r) < Qfloor (r_x r + r_w r) /\ Qfloor (r_y r) < Qfloor (r_y r + r_h r))%Z
      else (0 <= r_w r /\ 0 <= r_h r)%Q
  end.

Lemma border_iff l t r b i j : border l t r b i j = true <-> on_border l t r b (i, j).
Proof.
  unfold border, block, on_border. rewrite andb_true_iff, negb_true_iff, !andb_true_iff, !Z.leb_le. split.
  - intros [A B]. repeat split; lia.
  - intros (A & B & C). split; [lia|]. rewrite <- not_true_iff_false, !andb_true_iff, !Z.leb_le. lia.
Qed.

Lemma outline_step c i j ps : NoDup ps -> forall fb,
  fold_left (fun (fb : frame) p => fun i j => if ((fst p =? i) && (snd p =? j))%Z then blend c (fb i j) else fb i j) ps fb i j =
  if existsb (fun p => (fst p =? i) && (snd p =? j))%Z ps then blend c (fb i j) else fb i j.
Proof.
  induction 1 as [|p ps N D IH]; intros fb; cbn [fold_left existsb]; [reflexivity|]. rewrite IH. clear IH.
  destruct ((fst p =? i) && (snd p =? j))%Z eqn:E; cbn [orb]; [|reflexivity].
  destruct (existsb _ ps) eqn:X; [|reflexivity]. exfalso. apply existsb_exists in X. destruct X as (q & I & Q).
  apply andb_true_iff in E. apply andb_true_iff in Q. rewrite !Z.eqb_eq in *. apply N. destruct p, q. cbn in *. destruct E, Q. subst. exact I.
Qed.

Section Screen.
Variable covers : tri -> pt -> bool.
Hypothesis R : rasterizes covers.
Variable w h : Z.
Hypothesis W : (0 < w)%Z.
Hypothesis Hh : (0 < h)%Z.

Lemma draw_part_coat fb p i j : sound (Part p) -> same_rgba (draw_part covers w h fb p i j) (coat i j (fb i j) (Part p)).
Proof.
  unfold sound, draw_part, coat, part_on. destruct (p_outline p).
  - intros [A B]. unfold draw_outline.
    destruct (@outline_border w h (p_rect p) W Hh) as [O N]; try lia.
    rewrite outline_step by (now apply N).
    destruct (existsb _ (outline_pixels w h (p_rect p))) eqn:X.
    + apply existsb_exists in X. destruct X as ([a b] & I & Q). cbn in Q. rewrite andb_true_iff, !Z.eqb_eq in Q. destruct Q as [-> ->].
      apply O in I. apply border_iff in I. rewrite I. apply refl_rgba.
    + destruct (border _ _ _ _ i j) eqn:Y; [|apply refl_rgba]. exfalso. apply border_iff, O in Y. rewrite <- not_true_iff_false in X. apply X.
      apply existsb_exists. exists (i, j). split; [exact Y|]. cbn. now rewrite !Z.eqb_refl.
  - intros [A B]. apply (@draw_plain_frame covers R w h W Hh (p_color p) fb (p_rect p) A B i j).
Qed.
Lemma coat_same i j c c' s : same_rgba c c' -> same_rgba (coat i j c s) (coat i j c' s).
Proof. intros E. destruct s as [p|l]; cbn; [|exact E]. destruct (part_on p i j); [|exact E]. apply blend_same; [apply refl_rgba|exact E]. Qed.
Lemma coats_same i j ss : forall c c', same_rgba c c' -> same_rgba (coats i j c ss) (coats i j c' ss).
Proof. induction ss as [|s ss IH]; intros c c' E; [exact E|]. cbn. apply IH, coat_same, E. Qed.

Lemma draw_shapes_coats i j ss : Forall sound ss -> forall fb, same_rgba (draw_shapes covers w h fb ss i j) (coats i j (fb i j) ss).
Proof.
  induction 1 as [|s ss S0 F IH]; intros fb; [apply refl_rgba|]. unfold draw_shapes, coats in *. cbn [fold_left].
  eapply trans_rgba; [apply IH|]. apply (coats_same i j ss). destruct s as [p|l]; [apply draw_part_coat, S0|apply refl_rgba].
Qed.
End Screen.

Lemma coats_app i j c a b : coats i j c (a ++ b) = coats i j (coats i j c a) b.
Proof. apply fold_left_app. Qed.
Lemma opaque c d : q_a c == 1 -> same_rgba (blend c d) c.
Proof. intros E. unfold blend. repeat split; cbn; rewrite E; ring. Qed.

(** Whole numbers. *)
Lemma floor_is q z : (q == inject_Z z)%Q -> Qfloor q = z.
Proof. intros E. rewrite (Qfloor_comp _ _ E). apply Qfloor_Z. Qed.
Lemma rect_block x y ww hh c i j (l t r b : Z) : (x == inject_Z l)%Q -> (y == inject_Z t)%Q ->
  (x + ww == inject_Z (r + 1))%Q -> (y + hh == inject_Z (b + 1))%Q ->
  part_on (emit_part false x y ww hh c) i j = block l t r b i j.
Proof.
  intros A B C D. unfold part_on, emit_part. cbn [p_outline p_rect]. unfold in_rect. cbn [r_x r_y r_w r_h].
  rewrite (floor_is A), (floor_is B), (floor_is C), (floor_is D). unfold block.
  destruct (Z.leb_spec i r), (Z.ltb_spec i (r + 1)), (Z.leb_spec j b), (Z.ltb_spec j (b + 1)); try lia; reflexivity.
Qed.
Lemma line_border x y ww hh c i j (l t r b : Z) : (x == inject_Z l)%Q -> (y == inject_Z t)%Q ->
  (x + ww == inject_Z r)%Q -> (y + hh == inject_Z b)%Q ->
  part_on (emit_part true x y ww hh c) i j = border l t r b i j.
Proof.
  intros A B C D. unfold part_on, emit_part. cbn [p_outline p_rect r_x r_y r_w r_h].
  now rewrite (floor_is A), (floor_is B), (floor_is C), (floor_is D).
Qed.
Lemma block_iff l t r b i j : block l t r b i j = true <-> (l <= i <= r /\ t <= j <= b)%Z.
Proof. unfold block. rewrite !andb_true_iff, !Z.leb_le. lia. Qed.
Lemma block_false l t r b i j : block l t r b i j = false <-> ~ (l <= i <= r /\ t <= j <= b)%Z.
Proof. now rewrite <- not_true_iff_false, block_iff. Qed.

(** ** Buttons *)
Lemma menu_coats k m hov i j c (l : Z) (n : nat) : 0 < n -> (m_left m == inject_Z l)%Q -> (m_width m == 10 * inject_Z (Z.of_nat n))%Q ->
  coats i j c (menu_shapes k m hov) =
  let r := (l + 10 * Z.of_nat n)%Z in
  if block l 0 (r - 1) 18 i j then button_pixel (marked (m_open m) hov) (border l 0 (r - 1) 18 i j) c else c.
Proof.
  intros N L Wd. cbv zeta. set (r := (l + 10 * Z.of_nat n)%Z).
  assert (E : (inject_Z r == inject_Z l + 10 * inject_Z (Z.of_nat n))%Q) by (unfold r; rewrite inject_Z_plus, inject_Z_mult; reflexivity).
  assert (F1 : forall cc, part_on (emit_part false (m_left m + 1) (0 + 1) (m_width m - 2) (19 - 2) cc) i j = block (l + 1) 1 (r - 2) 17 i j).
  { intros cc. apply rect_block; rewrite ?L, ?Wd.
    - rewrite inject_Z_plus. reflexivity.
    - reflexivity.
    - replace (r - 2 + 1)%Z with (r + -1)%Z by lia. rewrite inject_Z_plus, E. cbn. ring.
    - reflexivity. }
  assert (F2 : forall cc, part_on (emit_part true (m_left m) 0 (m_width m - 1) (19 - 1) cc) i j = border l 0 (r - 1) 18 i j).
  { intros cc. apply line_border; rewrite ?L, ?Wd; try reflexivity. replace (r - 1)%Z with (r + -1)%Z by lia. rewrite inject_Z_plus, E. cbn. ring. }
  assert (G : block l 0 (r - 1) 18 i j = border l 0 (r - 1) 18 i j || block (l + 1) 1 (r - 2) 17 i j).
  { unfold border. replace (r - 1 - 1)%Z with (r - 2)%Z by lia. change (0 + 1)%Z with 1%Z. change (18 - 1)%Z with 17%Z.
    destruct (block l 0 (r - 1) 18 i j) eqn:A, (block (l + 1) 1 (r - 2) 17 i j) eqn:B; try reflexivity.
    apply block_false in A. apply block_iff in B. lia. }
  assert (X : border l 0 (r - 1) 18 i j = true -> block (l + 1) 1 (r - 2) 17 i j = false).
  { unfold border. replace (r - 1 - 1)%Z with (r - 2)%Z by lia. change (0 + 1)%Z with 1%Z. change (18 - 1)%Z with 17%Z.
    rewrite andb_true_iff, negb_true_iff. tauto. }
  unfold menu_shapes, marked. cbv zeta. destruct (m_open m); [|destruct hov].
  3: { cbn. destruct (block l 0 (r - 1) 18 i j); reflexivity. }
  all: cbn [app coats fold_left coat]; rewrite F1, F2, G; destruct (border l 0 (r - 1) 18 i j) eqn:A; [rewrite (X eq_refl)|destruct (block (l + 1) 1 (r - 2) 17 i j)]; reflexivity.
Qed.

(** ** Trays *)
Lemma items_coats m0 (l : Z) its : forall hs c j0 i j left,
  (left == inject_Z l)%Q ->
  List.length hs = List.length its ->
  (forall k it, nth_error its k = Some it -> (i_y it == 3 + 22 * inject_Z (Z.of_nat (j0 + k)))%Q) ->
  let top := (23 + 22 * Z.of_nat j0)%Z in
  let k := Z.to_nat ((j - top) / 22) in
  same_rgba (coats i j c (items_shapes m0 j0 left its hs))
    (if block (l + 3) top (l + 168) (top - 1 + 22 * Z.of_nat (List.length its)) i j && nth k hs false
     then if nth k (map i_selected its) false && (i <=? l + 24)%Z then shade 86 176 250 255 else shade 145 201 247 255
     else c).
Proof.
  induction its as [|it its IH]; intros [|hv hs] c j0 i j left L Len Y top k; try discriminate Len.
  - cbn [items_shapes coats fold_left List.length]. destruct (block _ _ _ _ _ _) eqn:B; [|apply refl_rgba]. apply block_iff in B. lia.
  - cbn [items_shapes]. rewrite coats_app.
    assert (Y0 : (0 + 20 + i_y it == inject_Z top)%Q).
    { pose proof (Y 0 it eq_refl) as Y0. rewrite Nat.add_0_r in Y0. unfold top. rewrite inject_Z_plus, inject_Z_mult, Y0. cbn. ring. }
    assert (C : same_rgba (coats i j c (item_shapes m0 j0 left it hv))
      (if block (l + 3) top (l + 168) (top + 21) i j && hv then if i_selected it && (i <=? l + 24)%Z then shade 86 176 250 255 else shade 145 201 247 255 else c)).
    { assert (F1 : forall cc, part_on (emit_part false (left + 0 + 3) (0 + 20 + i_y it) 166 22 cc) i j = block (l + 3) top (l + 168) (top + 21) i j).
      { intros cc. apply rect_block; [rewrite L, inject_Z_plus; cbn; ring|exact Y0|rewrite L, !inject_Z_plus; cbn; ring|rewrite Y0, !inject_Z_plus; cbn; ring]. }
      assert (F2 : forall cc, part_on (emit_part false (left + 0 + 3) (0 + 20 + i_y it) 22 22 cc) i j = block (l + 3) top (l + 24) (top + 21) i j).
      { intros cc. apply rect_block; [rewrite L, inject_Z_plus; cbn; ring|exact Y0|rewrite L, !inject_Z_plus; cbn; ring|rewrite Y0, !inject_Z_plus; cbn; ring]. }
      assert (F3 : block (l + 3) top (l + 24) (top + 21) i j = block (l + 3) top (l + 168) (top + 21) i j && (i <=? l + 24)%Z).
      { unfold block. destruct (Z.leb_spec (l + 3) i), (Z.leb_spec i (l + 24)), (Z.leb_spec i (l + 168)), (Z.leb_spec top j), (Z.leb_spec j (top + 21)); try lia; reflexivity. }
      unfold item_shapes. cbv zeta. destruct hv; cbn [app].
      2:{ rewrite andb_false_r. destruct (i_selected it); apply refl_rgba. }
      rewrite andb_true_r. destruct (i_selected it); cbn [app coats fold_left coat andb]; rewrite F1.
      - rewrite F2, F3. destruct (block (l + 3) top (l + 168) (top + 21) i j); cbn [andb]; [|apply refl_rgba].
        destruct (i <=? l + 24)%Z; apply opaque; reflexivity.
      - destruct (block (l + 3) top (l + 168) (top + 21) i j); [apply opaque; reflexivity|apply refl_rgba]. }
    assert (Y' : forall k it', nth_error its k = Some it' -> (i_y it' == 3 + 22 * inject_Z (Z.of_nat (S j0 + k)))%Q).
    { intros k' it' E. rewrite (Y (S k') it' E). rewrite Nat.add_succ_r. reflexivity. }
    eapply trans_rgba; [apply coats_same, C|]. clear C.
    set (c1 := if _ && hv then _ else c).
    specialize (IH hs c1 (S j0) i j left L ltac:(cbn in Len; lia) Y'). cbv zeta in IH.
    replace (23 + 22 * Z.of_nat (S j0))%Z with (top + 22)%Z in IH by (unfold top; lia).
    eapply trans_rgba; [exact IH|]. clear IH. cbn [List.length].
    destruct (block (l + 3) top (l + 168) (top - 1 + 22 * Z.of_nat (S (List.length its))) i j) eqn:B.
    + apply block_iff in B. destruct (Z.le_gt_cases (top + 22) j) as [Lo|Hi].
      * rewrite (proj2 (block_iff (l + 3) (top + 22) (l + 168) (top + 22 - 1 + 22 * Z.of_nat (List.length its)) i j)) by lia.
        assert (K : k = S (Z.to_nat ((j - (top + 22)) / 22))).
        { unfold k. replace (j - top)%Z with (j - (top + 22) + 1 * 22)%Z by lia. rewrite Z.div_add by lia.
          assert (0 <= (j - (top + 22)) / 22)%Z by (apply Z.div_pos; lia). lia. }
        rewrite K. cbn [nth map andb]. unfold c1.
        rewrite (proj2 (block_false (l + 3) top (l + 168) (top + 21) i j)) by lia. cbn [andb]. apply refl_rgba.
      * rewrite (proj2 (block_false (l + 3) (top + 22) (l + 168) (top + 22 - 1 + 22 * Z.of_nat (List.length its)) i j)) by lia.
        assert (K : k = 0%nat) by (unfold k; rewrite Z.div_small by lia; reflexivity).
        rewrite K. cbn [nth map andb]. unfold c1.
        rewrite (proj2 (block_iff (l + 3) top (l + 168) (top + 21) i j)) by lia. cbn [andb]. apply refl_rgba.
    + apply block_false in B.
      rewrite (proj2 (block_false (l + 3) (top + 22) (l + 168) (top + 22 - 1 + 22 * Z.of_nat (List.length its)) i j)) by lia.
      cbn [andb]. unfold c1. rewrite (proj2 (block_false (l + 3) top (l + 168) (top + 21) i j)) by lia. apply refl_rgba.
Qed.

Lemma tray_coats m0 (l : Z) left t n hs i j c : (left == inject_Z l)%Q -> rows t n -> (t_height t == 5 + 22 * inject_Z (Z.of_nat n))%Q ->
  List.length hs = n ->
  same_rgba (coats i j c (tray_shapes left t ++ items_shapes m0 0 left (t_items t) hs))
    (tray_pixel l n (fun k => nth k hs false) (fun k => nth k (map i_selected (t_items t)) false) i j c).
Proof.
  intros L [Len Y] Ht Lh. rewrite coats_app. unfold tray_shapes. cbv zeta.
  assert (F1 : part_on (emit_part false (left + 0) (0 + 20) (172 - 1) (t_height t) TRAY_COLOR) i j = block l 20 (l + 170) (24 + 22 * Z.of_nat n) i j).
  { apply rect_block; [rewrite L; ring|reflexivity|rewrite L, !inject_Z_plus; cbn; ring|rewrite Ht, !inject_Z_plus, inject_Z_mult; cbn; ring]. }
  assert (F2 : part_on (emit_part true (left + 0) (0 + 20) (172 - 1) (t_height t) TRAY_BORDER_COLOR) i j = border l 20 (l + 171) (25 + 22 * Z.of_nat n) i j).
  { apply line_border; [rewrite L; ring|reflexivity|rewrite L, !inject_Z_plus; cbn; ring|rewrite Ht, !inject_Z_plus, inject_Z_mult; cbn; ring]. }
  cbn [coats fold_left coat]. rewrite F1, F2. clear F1 F2. unfold tray_pixel. cbv zeta.
  set (bottom := (25 + 22 * Z.of_nat n)%Z). set (c0 := if block l 20 (l + 170) _ i j then _ else c).
  set (c1 := if border l 20 (l + 171) bottom i j then _ else c0).
  assert (Y' : forall k it, nth_error (t_items t) k = Some it -> (i_y it == 3 + 22 * inject_Z (Z.of_nat (0 + k)))%Q) by (intros k it E; apply (Y k it E)).
  pose proof (@items_coats m0 l (t_items t) hs c1 0 i j left L ltac:(lia) Y') as I. cbv zeta in I.
  change (23 + 22 * Z.of_nat 0)%Z with 23%Z in I. rewrite Len in I.
  replace (23 - 1 + 22 * Z.of_nat n)%Z with (bottom - 3)%Z in I by (unfold bottom; lia).
  eapply trans_rgba; [exact I|]. clear I.
  destruct (border l 20 (l + 171) bottom i j) eqn:B.
  - replace (block (l + 3) 23 (l + 168) (bottom - 3) i j) with false.
    2:{ symmetry. apply block_false. apply border_iff in B. unfold on_border in B. unfold bottom in *. lia. }
    cbn [andb]. unfold c1. apply opaque. reflexivity.
  - destruct (block (l + 3) 23 (l + 168) (bottom - 3) i j && nth _ hs false); [apply refl_rgba|].
    unfold c1, c0. unfold border in B. rewrite andb_false_iff, negb_false_iff, block_iff, block_false in B.
    destruct (block l 20 (l + 171) bottom i j) eqn:B1.
    + apply block_iff in B1. replace (block l 20 (l + 170) (24 + 22 * Z.of_nat n) i j) with true by (symmetry; apply block_iff; unfold bottom in *; lia).
      apply opaque. reflexivity.
    + replace (block l 20 (l + 170) (24 + 22 * Z.of_nat n) i j) with false; [apply refl_rgba|].
      apply block_false in B1. symmetry. apply block_false. unfold bottom in *. lia.
Qed.

(** ** All menus *)
Definition trays_ok (ts : list tray) (counts : list nat) : Prop :=
  Forall2 (fun t n => rows t n /\ (t_height t == 5 + 22 * inject_Z (Z.of_nat n))%Q) ts counts.

Lemma buttons_left names : forall l marks i j c, (i < l)%Z -> buttons_pixel l names marks i j c = c.
Proof.
  induction names as [|n names IH]; intros l marks i j c L; cbn [buttons_pixel]; [reflexivity|].
  rewrite (proj2 (block_false _ _ _ _ _ _)) by lia. apply IH. lia.
Qed.
Lemma buttons_low names : forall l marks i j c, (18 < j)%Z -> buttons_pixel l names marks i j c = c.
Proof.
  induction names as [|n names IH]; intros l marks i j c L; cbn [buttons_pixel]; [reflexivity|].
  rewrite (proj2 (block_false _ _ _ _ _ _)) by lia. now apply IH.
Qed.
Lemma buttons_ext names : forall l marks marks' i j c, (forall k, k < List.length names -> marks k = marks' k) ->
  buttons_pixel l names marks i j c = buttons_pixel l names marks' i j c.
Proof.
  induction names as [|n names IH]; intros l marks marks' i j c E; cbn [buttons_pixel]; [reflexivity|].
  rewrite (E 0) by (cbn; lia). destruct (block _ _ _ _ _ _); [reflexivity|]. apply IH. intros k K. apply E. cbn. lia.
Qed.
Lemma button_same m e c c' : same_rgba c c' -> same_rgba (button_pixel m e c) (button_pixel m e c').
Proof. intros E. destruct m; cbn; [exact E|apply blend_same; [apply refl_rgba|exact E]..]. Qed.
Lemma buttons_same names : forall l marks i j c c', same_rgba c c' -> same_rgba (buttons_pixel l names marks i j c) (buttons_pixel l names marks i j c').
Proof.
  induction names as [|n names IH]; intros l marks i j c c' E; cbn [buttons_pixel]; [exact E|].
  destruct (block _ _ _ _ _ _); [now apply button_same|now apply IH].
Qed.
Lemma tray_above l n hover on i j c : (j < 20)%Z -> tray_pixel l n hover on i j c = c.
Proof.
  intros L. unfold tray_pixel, border. cbv zeta. rewrite !(proj2 (block_false _ _ _ _ _ _)) by lia. reflexivity.
Qed.
Lemma tray_ext l n hover on hover' on' i j c : (forall k, k < n -> hover k = hover' k /\ on k = on' k) ->
  tray_pixel l n hover on i j c = tray_pixel l n hover' on' i j c.
Proof.
  intros E. unfold tray_pixel. cbv zeta. destruct (border _ _ _ _ _ _); [reflexivity|].
  destruct (block (l + 3) 23 (l + 168) (25 + 22 * Z.of_nat n - 3) i j) eqn:B; cbn [andb]; [|reflexivity]. apply block_iff in B.
  destruct (E (Z.to_nat ((j - 23) / 22))) as [-> ->]; [|reflexivity].
  assert (0 <= (j - 23) / 22 < Z.of_nat n)%Z; [|lia]. split; [apply Z.div_pos; lia|apply Z.div_lt_upper_bound; lia].
Qed.
Lemma tray_same l n hover on i j c c' : same_rgba c c' -> same_rgba (tray_pixel l n hover on i j c) (tray_pixel l n hover on i j c').
Proof. intros E. unfold tray_pixel. cbv zeta. repeat match goal with |- context [if ?b then _ else _] => destruct b end; try apply refl_rgba; exact E. Qed.

Lemma menus_coats names : forall counts ms ts hs ihs k0 a l i j c,
  laid a names ms -> (a == inject_Z l)%Q -> Forall (fun n => 0 < n) names -> List.length counts = List.length names -> trays_ok ts counts ->
  List.length hs = List.length names -> Forall2 (fun ih n => List.length ih = n) ihs counts ->
  (j < 20)%Z ->
  same_rgba (coats i j c (menus_shapes k0 ms ts hs ihs)) (buttons_pixel l names (fun k => marked (nth k (map m_open ms) false) (nth k hs false)) i j c).
Proof.
  induction names as [|n names IH]; intros [|cn counts] [|m ms] [|t ts] [|hv hs] [|ih ihs] k0 a l i j c L A N Lc T Lh Li J;
    cbn in L; try contradiction; try discriminate Lc; try discriminate Lh; try (inversion T; fail); try (inversion Li; fail); [apply refl_rgba|].
  destruct L as (L1 & L2 & L3). inversion N as [|? ? N1 N2]; subst. inversion T as [|? ? ? ? [T1 T2] T3]; subst. inversion Li as [|? ? ? ? I1 I2]; subst.
  cbn [menus_shapes]. rewrite !coats_app. rewrite (@menu_coats k0 m hv i j c l n N1 ltac:(exact A) ltac:(rewrite L2; reflexivity)). cbv zeta.
  cbn [buttons_pixel map nth]. set (r := (l + 10 * Z.of_nat n)%Z).
  set (c1 := if block l 0 (r - 1) 18 i j then _ else c).
  set (mid := coats i j c1 (if m_open m then _ else [])).
  assert (Mid : same_rgba mid c1).
  { unfold mid. destruct (m_open m); [|apply refl_rgba]. eapply trans_rgba; [apply (@tray_coats k0 l (m_left m) t (List.length ih) ih i j c1 ltac:(exact A) T1 T2 eq_refl)|]. rewrite tray_above by exact J. apply refl_rgba. }
  assert (A' : (m_left m + 10 * inject_Z (Z.of_nat n) == inject_Z r)%Q) by (unfold r; rewrite A, inject_Z_plus, inject_Z_mult; reflexivity).
  eapply trans_rgba; [apply (IH counts ms ts hs ihs (S k0) _ r i j mid L3 A' N2 ltac:(cbn in Lc; lia) T3 ltac:(cbn in Lh; lia) I2 J)|].
  eapply trans_rgba; [apply buttons_same, Mid|]. unfold c1.
  destruct (block l 0 (r - 1) 18 i j) eqn:B; [|apply refl_rgba].
  apply block_iff in B. rewrite buttons_left by lia. apply refl_rgba.
Qed.

Lemma menus_low names : forall counts ms ts hs ihs k0 a l i j c (o : option nat),
  laid a names ms -> (a == inject_Z l)%Q -> Forall (fun n => 0 < n) names -> List.length counts = List.length names -> trays_ok ts counts ->
  List.length hs = List.length names -> Forall2 (fun ih n => List.length ih = n) ihs counts ->
  (20 <= j)%Z -> match o with Some o => only o ms | None => Forall (fun m => m_open m = false) ms end ->
  same_rgba (coats i j c (menus_shapes k0 ms ts hs ihs))
    match o with
    | None => c
    | Some o => tray_pixel (begins l names o) (nth o counts 0) (fun k => nth k (nth o ihs []) false)
                  (fun k => nth k (map i_selected (t_items (nth o ts new_tray))) false) i j c
    end.
Proof.
  induction names as [|n names IH]; intros [|cn counts] [|m ms] [|t ts] [|hv hs] [|ih ihs] k0 a l i j c o L A N Lc T Lh Li J O;
    cbn in L; try contradiction; try discriminate Lc; try discriminate Lh; try (inversion T; fail); try (inversion Li; fail).
  { destruct o as [o|]; [destruct O as [O _]; cbn in O; lia|apply refl_rgba]. }
  destruct L as (L1 & L2 & L3). inversion N as [|? ? N1 N2]; subst. inversion T as [|? ? ? ? [T1 T2] T3]; subst. inversion Li as [|? ? ? ? I1 I2]; subst.
  cbn [menus_shapes]. rewrite !coats_app. rewrite (@menu_coats k0 m hv i j c l n N1 ltac:(exact A) ltac:(rewrite L2; reflexivity)). cbv zeta.
  rewrite (proj2 (block_false _ _ _ _ _ _)) by lia.
  assert (A' : (m_left m + 10 * inject_Z (Z.of_nat n) == inject_Z (l + 10 * Z.of_nat n))%Q) by (rewrite A, inject_Z_plus, inject_Z_mult; reflexivity).
  assert (Rest : forall c o, match o with Some o => only o ms | None => Forall (fun m => m_open m = false) ms end -> _)
    by (intros c' o' O'; exact (IH counts ms ts hs ihs (S k0) _ _ i j c' o' L3 A' N2 ltac:(cbn in Lc; lia) T3 ltac:(cbn in Lh; lia) I2 J O')).
  destruct o as [[|o]|].
  - destruct O as [_ O]. rewrite (O 0 m eq_refl). cbn [Nat.eqb].
    assert (Cl : Forall (fun m => m_open m = false) ms).
    { apply Forall_forall. intros q Q. destruct (In_nth_error _ _ Q) as [k K]. exact (O (S k) q K). }
    eapply trans_rgba; [apply (Rest _ None Cl)|]. cbn [begins nth]. apply (@tray_coats k0 l (m_left m) t (List.length ih) ih i j c ltac:(exact A) T1 T2 eq_refl).
  - destruct O as [O1 O]. rewrite (O 0 m eq_refl). cbn [Nat.eqb coats fold_left].
    cbn [begins nth]. apply (Rest c (Some o)). split; [cbn in O1; lia|]. intros k q K. exact (O (S k) q K).
  - inversion O as [|? ? O1 O2]; subst. rewrite O1. cbn [coats fold_left]. apply (Rest c None O2).
Qed.

(** ** What is drawn has proper sizes *)
Lemma menus_sound names : forall counts ms ts hs ihs k0 a l,
  laid a names ms -> (a == inject_Z l)%Q -> Forall (fun n => 0 < n) names -> trays_ok ts counts -> Forall sound (menus_shapes k0 ms ts hs ihs).
Proof.
  induction names as [|n names IH]; intros counts [|m ms] ts hs ihs k0 a l L A N T; cbn in L; try contradiction; [constructor|].
  destruct ts as [|t ts], hs as [|hv hs], ihs as [|ih ihs]; try constructor.
  destruct L as (L1 & L2 & L3). inversion N as [|? ? N1 N2]; subst. inversion T as [|? cn ? cns [T1 T2] T3]; subst.
  assert (A' : (m_left m + 10 * inject_Z (Z.of_nat n) == inject_Z (l + 10 * Z.of_nat n))%Q) by (rewrite A, inject_Z_plus, inject_Z_mult; reflexivity).
  cbn [menus_shapes].
  assert (Wd : (10 <= m_width m)%Q) by (rewrite L2; assert (1 <= inject_Z (Z.of_nat n))%Q by (change 1%Q with (inject_Z 1); rewrite <- Zle_Qle; lia); lra).
  apply Forall_app. split.
  { assert (X : forall c1 c2, Forall sound [Part (emit_part false (m_left m + 1) (0 + 1) (m_width m - 2) (19 - 2) c1); Part (emit_part true (m_left m) 0 (m_width m - 1) (19 - 1) c2)]).
    { intros c1 c2. constructor; [cbn; split; lra|]. constructor; [|constructor]. unfold sound, emit_part. cbn [p_outline p_rect r_x r_y r_w r_h].
      rewrite (@floor_is (m_left m) l A). rewrite (@floor_is (m_left m + (m_width m - 1)) (l + (10 * Z.of_nat n - 1))).
      - change (Qfloor 0) with 0%Z. change (Qfloor (0 + (19 - 1))) with 18%Z. lia.
      - rewrite A, L2, inject_Z_plus. unfold Z.sub. rewrite inject_Z_plus, inject_Z_mult. cbn. ring. }
    unfold menu_shapes. apply Forall_app. split; [|repeat constructor]. destruct (m_open m); [apply X|]. destruct hv; [apply X|constructor]. }
  apply Forall_app. split; [|apply (IH cns ms ts hs ihs (S k0) _ _ L3 A' N2 T3)].
  destruct (m_open m); [|constructor]. apply Forall_app. split.
  - assert (0 <= inject_Z (Z.of_nat cn))%Q by apply inj_nonneg. unfold tray_shapes. constructor; [cbn; split; lra|]. constructor; [|constructor].
    unfold sound, emit_part. cbn [p_outline p_rect r_x r_y r_w r_h].
    rewrite (@floor_is (m_left m + 0) l), (@floor_is (m_left m + 0 + (172 - 1)) (l + 171)), (@floor_is (0 + 20 + t_height t) (25 + 22 * Z.of_nat cn)).
    + change (Qfloor (0 + 20)) with 20%Z. lia.
    + rewrite T2, inject_Z_plus, inject_Z_mult. cbn. ring.
    + rewrite A, inject_Z_plus. cbn. ring.
    + rewrite A. ring.
  - generalize (t_items t), ih, 0. induction l0 as [|it its IHi]; intros [|b bs] k; cbn [items_shapes]; try constructor.
    apply Forall_app. split; [|apply IHi]. unfold item_shapes.
    destruct b, (i_selected it); cbn [app]; repeat constructor; cbn; unfold Qle; cbn; lia.
Qed.

(** * Events *)
Lemma view_window es : forall v x y, vw_window (view_run v x y es) = fst (window_run (vw_window v) x y es).
Proof.
  induction es as [|e es IH]; intros v x y; [reflexivity|]. destruct e as [x' y'|b|b|]; cbn [view_run window_run]; rewrite IH.
  - reflexivity.
  - unfold view_press. destruct (press (vw_window v) x y b) as [w t]. cbn [vw_window]. destruct (window_run w x y es). reflexivity.
  - cbn [with_window vw_window]. destruct (release (vw_window v) x y b) as [w t]. cbn [fst]. destruct (window_run w x y es). reflexivity.
  - cbn [with_window vw_window fst]. match goal with |- context [window_run ?w x y es] => destruct (window_run w x y es) end. reflexivity.
Qed.

(** What does not change: where menus and items are. *)
Definition lefts_of (b : bar) : list Q := map m_left (b_menus b).
Definition tops_of (ts : list tray) : list (Q * list Q) := map (fun t => (t_height t, map i_y (t_items t))) ts.
Lemma move_lefts b x y : lefts_of (bar_move b x y) = lefts_of b.
Proof.
  unfold bar_move, lefts_of. destruct (_ && _); [|reflexivity]. destruct (first_index _ _) as [i|]; [|reflexivity]. cbn [b_menus].
  generalize 0. generalize (b_menus b). induction l as [|m ms IH]; intros s; [reflexivity|]. cbn. f_equal. apply IH.
Qed.
Lemma set_same A B (f : A -> B) l i a b : nth_error l i = Some a -> f b = f a -> map f (list_set l i b) = map f l.
Proof. revert i. induction l as [|c l IH]; intros [|i] E F; cbn in *; try discriminate; [injection E as ->; now rewrite F|]. f_equal. now apply IH. Qed.
Lemma toggle_lefts b i : lefts_of (toggle b i) = lefts_of b.
Proof.
  unfold toggle, lefts_of. cbn [b_menus]. destruct (nth_error (b_menus b) i) as [m|] eqn:E; [|reflexivity].
  now apply (@set_same _ _ m_left _ _ m).
Qed.
Lemma click_tops ts i j : tops_of (click_item ts i j) = tops_of ts.
Proof.
  unfold click_item, tops_of. destruct (nth_error ts i) as [t|] eqn:T; [|reflexivity]. destruct (nth_error (t_items t) j) as [it|] eqn:I; [|reflexivity].
  apply (@set_same _ _ _ _ _ t); [exact T|]. cbn [t_height t_items]. f_equal. now apply (@set_same _ _ i_y _ _ it).
Qed.
Lemma press_lefts w x y b : lefts_of (w_bar (fst (press w x y b))) = lefts_of (w_bar w) /\ tops_of (w_trays (fst (press w x y b))) = tops_of (w_trays w).
Proof.
  unfold press. destruct b; [|auto]. destruct (bar_taker First w x y) as [[i j|i| |]|]; cbn [fst w_bar w_trays]; try destruct (in_box w x y); cbn [fst w_bar w_trays]; auto using toggle_lefts, click_tops.
Qed.
Lemma items_geometry w w' x y : lefts_of (w_bar w') = lefts_of (w_bar w) -> tops_of (w_trays w') = tops_of (w_trays w) ->
  items_hovered w' x y = items_hovered w x y.
Proof.
  unfold items_hovered, lefts_of, tops_of. generalize (b_menus (w_bar w)), (b_menus (w_bar w')), (w_trays w), (w_trays w').
  induction l as [|m ms IH]; intros [|m' ms'] [|t ts] [|t' ts'] A B; cbn in *; try discriminate; try reflexivity.
  injection A as A1 A2. injection B as B1 B2 B3. f_equal; [|now apply IH].
  rewrite A1. clear - B2. revert B2. generalize (t_items t), (t_items t').
  induction l as [|a l IH]; intros [|a' l'] E; cbn in *; try discriminate; [reflexivity|]. injection E as E1 E2. f_equal; [unfold in_item; now rewrite E1|now apply IH].
Qed.

(** Menus under the mouse. *)
Definition flags (b : bar) (x y : Q) : list bool := map (fun m => negb (b_open b) && in_menu x y m) (b_menus b).
Lemma move_flags b x y x' y' : menus_hovered b (flags b x y) x' y' = flags (bar_move b x' y') x' y'.
Proof.
  unfold menus_hovered, flags, bar_move. destruct (b_open b) eqn:O; cbn [andb negb].
  - destruct (inside 0 (b_width b) 20 x' y'); [|rewrite O; reflexivity].
    destruct (first_index (in_menu x' y') (b_menus b)) as [i|]; cbn [b_open b_menus]; [|rewrite O; reflexivity].
    rewrite !map_map. cbn [andb negb]. generalize 0. generalize (b_menus b). induction l as [|m ms IH]; intros s; [reflexivity|]. cbn. f_equal. apply IH.
  - rewrite O. reflexivity.
Qed.
Lemma toggle_flags names b x y i : laid 0 names (b_menus b) -> off_edges names x ->
  menu_at 0 names x y = Some i ->
  list_set (flags b x y) i (negb (b_open (toggle b i))) = flags (toggle b i) x y.
Proof.
  intros L E M. rewrite (@menu_at_first x y _ _ _ L) in M. pose proof (first_index_spec (in_menu x y) (b_menus b)) as FI. rewrite M in FI. destruct FI as (m & Hm & Im).
  assert (Li : i < List.length (b_menus b)) by (apply nth_error_Some; congruence).
  unfold flags, toggle. cbn [b_open b_menus]. rewrite Hm, negb_involutive.
  apply nth_ext with (d := false) (d' := false); [rewrite list_set_length, !map_length, list_set_length; reflexivity|]. intros k K. rewrite list_set_length, map_length in K.
  destruct (nth_error (b_menus b) k) as [q|] eqn:Q; [|apply nth_error_None in Q; lia].
  assert (A : nth_error (list_set (map (fun m => negb (b_open b) && in_menu x y m) (b_menus b)) i (b_open b)) k = Some (if k =? i then b_open b else negb (b_open b) && in_menu x y q)).
  { rewrite nth_error_list_set by (rewrite map_length; exact Li). destruct (k =? i); [reflexivity|]. now rewrite nth_error_map, Q. }
  assert (B : nth_error (map (fun m => b_open b && in_menu x y m) (list_set (b_menus b) i (set_open m (negb (b_open b))))) k
              = Some (b_open b && in_menu x y (if k =? i then set_open m (negb (b_open b)) else q))).
  { rewrite nth_error_map, nth_error_list_set by exact Li. destruct (k =? i); [reflexivity|]. now rewrite Q. }
  rewrite (nth_error_nth _ _ _ A), (nth_error_nth _ _ _ B). destruct (Nat.eqb_spec k i) as [->|N].
  - rewrite (@in_menu_geom x y m (set_open m (negb (b_open b)))) by reflexivity. rewrite Im, andb_true_r. reflexivity.
  - destruct (in_menu x y q) eqn:Iq; [|now rewrite !andb_false_r]. exfalso. apply N. eapply menus_apart; [exact L|exact E|exact Q|exact Hm|exact Iq|exact Im].
Qed.

Section Run.
Variables (menus : list (nat * nat)) (width : Q) (box : Q * Q * Q * Q).
Hypothesis Fit : Forall (fun e => e <= width)%Q (edges 0 (map fst menus)).

Definition same_place (w w' : window) : Prop :=
  lefts_of (w_bar w') = lefts_of (w_bar w) /\ tops_of (w_trays w') = tops_of (w_trays w).
Definition vinv (v : view) (now : option nat) (x y : Q) : Prop :=
  winv menus width box (vw_window v) now x y /\
  vw_menus v = flags (w_bar (vw_window v)) x y /\ vw_items v = items_hovered (vw_window v) x y /\
  tops_of (w_trays (vw_window v)) = tops_of (map (fun m => make_tray (snd m)) menus).

Lemma move_winv w now x y x' y' : winv menus width box w now x y -> off_edges (map fst menus) x' ->
  winv menus width box {| w_bar := bar_move (w_bar w) x' y'; w_trays := w_trays w; w_box := w_box w; w_focused := w_focused w; w_drag := w_drag w |}
    (menu_open (map fst menus) now x y (bar_event (WMove x' y'))) x' y'.
Proof.
  intros (I1 & I2 & I3 & W1 & W2 & W3) F1. cbn [bar_event menu_open]. split; [eapply move_inv; eassumption|].
  split; [exact (@move_shows (map fst menus) width _ x y x' y' now I1 F1 Fit I2)|]. split; [exact F1|].
  split; [exact W1|]. split; [cbn; rewrite bar_move_length; exact W2|exact W3].
Qed.
Lemma press_winv w now x y b : winv menus width box w now x y ->
  winv menus width box (fst (press w x y b)) (menu_open (map fst menus) now x y (bar_event (WPress b))) x y.
Proof.
  intros I. pose proof I as (I1 & I2 & I3 & W). destruct b; [|exact I].
  pose proof (press_wshape x y First W) as W'. pose proof (press_bar x y W) as B.
  split; [rewrite B; eapply press_inv; eassumption|]. split; [rewrite B; exact (@press_shows (map fst menus) width _ x y now I1 I3 I2)|]. split; [exact I3|exact W'].
Qed.
Lemma press_flags v now x y b : vinv v now x y -> vw_menus (view_press v x y b) = flags (w_bar (vw_window (view_press v x y b))) x y.
Proof.
  intros (I & M & _). unfold view_press. pose proof (@bar_taker_over menus width box _ _ b x y I) as T. destruct b.
  2:{ cbn [press]. rewrite T. unfold over. destruct (match now with Some i => _ | None => None end) as [t|] eqn:O; cbn [vw_menus vw_window]; [|exact M].
      destruct now as [o|]; [|discriminate]. destruct (item_at _ _ x y); [|discriminate]. injection O as <-. exact M. }
  unfold press. rewrite T. unfold over. destruct (match now with Some i => _ | None => None end) as [t|] eqn:O.
  - destruct now as [o|]; [|discriminate]. destruct (item_at _ _ x y); [|discriminate]. injection O as <-. exact M.
  - destruct (menu_at 0 (map fst menus) x y) as [i|] eqn:A; cbn [option_map].
    + cbn [vw_menus vw_window w_bar]. rewrite M. destruct I as ((_ & L & _) & _ & E & _). now apply (@toggle_flags (map fst menus)).
    + destruct (in_box (vw_window v) x y); exact M.
Qed.

Lemma view_inv es : forall v now x y, vinv v now x y ->
  Forall (fun e => match e with WMove x _ => off_edges (map fst menus) x | _ => True end) es ->
  let '(x', y') := mouse_after x y es in
  vinv (view_run v x y es) (menu_open (map fst menus) now x y (bar_events es)) x' y'.
Proof.
  induction es as [|e es IH]; intros v now x y I F; [exact I|]. inversion F as [|? ? F1 F2]; subst.
  assert (MO : forall e, menu_open (map fst menus) now x y (bar_events (e :: es)) =
    match e with WMove x' y' => menu_open (map fst menus) (menu_open (map fst menus) now x y (bar_event e)) x' y' (bar_events es)
               | _ => menu_open (map fst menus) (menu_open (map fst menus) now x y (bar_event e)) x y (bar_events es) end).
  { intros [x' y'|[]|b|]; reflexivity. }
  rewrite MO. clear MO. destruct e as [x' y'|b|b|]; cbn [view_run mouse_after].
  - apply IH; [|exact F2]. destruct I as (I & M & P & T). split; [apply move_winv; assumption|]. unfold view_move. cbn [vw_window vw_menus vw_items w_bar w_trays].
    split; [rewrite M; apply move_flags|]. split; [|exact T]. symmetry. apply items_geometry; [apply move_lefts|reflexivity].
  - apply IH; [|exact F2]. pose proof (press_flags b I) as PF. destruct I as (I & M & P & T). pose proof (press_winv b I) as I'. destruct (press_lefts (vw_window v) x y b) as [PL PT].
    unfold view_press in *. destruct (press (vw_window v) x y b) as [w t]. cbn [fst vw_window vw_menus vw_items] in *.
    split; [exact I'|]. split; [exact PF|]. cbn [vw_items vw_window]. split; [rewrite P; symmetry; apply items_geometry; assumption|now rewrite PT].
  - apply IH; [|exact F2]. destruct I as (I & M & P & T). destruct (release_same (vw_window v) x y b) as (R1 & R2 & R3).
    assert (Ew : fst (window_run (vw_window v) x y [WRelease b]) = fst (release (vw_window v) x y b)) by (cbn [window_run]; destruct (release (vw_window v) x y b); reflexivity).
    rewrite Ew. clear Ew. set (w := fst (release (vw_window v) x y b)) in *. destruct I as (I1 & I2 & I3 & W1 & W2 & W3).
    assert (Ev : bar_event (WRelease b) = []) by (destruct b; reflexivity). rewrite Ev. cbn [menu_open].
    unfold vinv, winv, wshape, with_window. cbn [vw_window vw_menus vw_items]. rewrite R1, R2, R3.
    split; [repeat (split; [assumption|]); assumption|]. split; [exact M|]. split; [rewrite P; symmetry; apply items_geometry; [now rewrite R1|now rewrite R2]|exact T].
  - apply IH; [|exact F2]. exact I.
Qed.

Lemma start_winv x y : off_edges (map fst menus) x -> winv menus width box (make_window width box menus) None x y.
Proof.
  intros E. destruct (make_bar_laid width (map fst menus)) as (Wd & O & L & C).
  split; [split; [exact Wd|]; split; [exact L|]; split; [intros _; exact C|]; cbn; rewrite O; discriminate|]. split; [exact O|]. split; [exact E|].
  split; [apply make_shape|]. split; [|reflexivity]. cbn. rewrite (@laid_length _ _ _ L), !map_length. reflexivity.
Qed.
(** The first movement sets everything right. *)
Lemma first_move (x y x' y' : Q) : off_edges (map fst menus) x -> off_edges (map fst menus) x' ->
  vinv (view_move (make_view width box menus) x' y') None x' y'.
Proof.
  intros E E'. pose proof (@move_winv _ _ x y x' y' (start_winv y E) E') as I. cbn [bar_event menu_open] in I.
  destruct (make_bar_laid width (map fst menus)) as (Wd & O & L & C).
  split; [exact I|]. unfold view_move, make_view. cbn [vw_window vw_menus vw_items w_bar w_trays make_window].
  split; [unfold menus_hovered, flags, bar_move; rewrite O; cbn [andb negb]; rewrite O; reflexivity|]. split; [|reflexivity].
  symmetry. apply items_geometry; [apply move_lefts|reflexivity].
Qed.
End Run.

(** * The picture *)
Lemma laid_begins names : forall a l ms k m, laid a names ms -> (a == inject_Z l)%Q -> nth_error ms k = Some m -> (m_left m == inject_Z (begins l names k))%Q.
Proof.
  induction names as [|n names IH]; intros a l [|q ms] k m L A E; cbn in L; try contradiction; [destruct k; discriminate|]. destruct L as (L1 & L2 & L3).
  destruct k as [|k]; cbn in E |- *; [injection E as <-; now rewrite L1|]. apply (IH _ _ ms k m L3); [rewrite A, inject_Z_plus, inject_Z_mult; reflexivity|exact E].
Qed.
Lemma in_item_over left_ x y it k : (i_y it == 3 + 22 * inject_Z (Z.of_nat k))%Q -> in_item left_ x y it = over_item left_ k x y.
Proof.
  intros E. apply eq_true_iff_eq. rewrite in_item_iff. unfold over_item. rewrite !andb_true_iff, !Qle_bool_iff.
  split; intros H; repeat split; lra.
Qed.
Lemma tops_ok ts : forall menus : list (nat * nat), tops_of ts = tops_of (map (fun m => make_tray (snd m)) menus) ->
  (forall i t, nth_error ts i = Some t -> rows t (nth i (map snd menus) 0)) -> trays_ok ts (map snd menus).
Proof.
  induction ts as [|t ts IH]; intros [|m menus] E Sh; cbn in E; try discriminate; [constructor|]. injection E as E1 E2 E3.
  constructor; [|apply IH; [exact E3|intros i q Q; exact (Sh (S i) q Q)]]. split; [exact (Sh 0 t eq_refl)|]. rewrite E1. apply make_tray_rows.
Qed.

Section Picture.
Variables (menus : list (nat * nat)) (width : Q) (box : Q * Q * Q * Q).
Hypothesis Named : Forall (fun n => 0 < n) (map fst menus).

Lemma vinv_marks v now x y : vinv menus width box v now x y ->
  forall k, k < List.length menus ->
  marked (nth k (map m_open (b_menus (w_bar (vw_window v)))) false) (nth k (vw_menus v) false) = mark_of (map fst menus) now x y k.
Proof.
  intros (((_ & L & C & O) & S & E & _) & M & _) k K. rewrite M.
  set (b := w_bar (vw_window v)) in *. pose proof (@laid_length _ _ _ L) as Len. rewrite map_length in Len.
  destruct (nth_error (b_menus b) k) as [m|] eqn:Hm; [|apply nth_error_None in Hm; lia].
  rewrite (nth_error_nth _ _ false (map_nth_error m_open _ _ Hm)).
  unfold flags. rewrite (nth_error_nth _ _ false (map_nth_error (fun m => negb (b_open b) && in_menu x y m) _ _ Hm)).
  unfold marked, mark_of. destruct now as [o|]; cbn [UiProofs.shows] in S.
  - destruct S as [S1 [_ S2]]. rewrite (S2 k m Hm), S1, (Nat.eqb_sym k o). cbn [negb andb]. destruct (o =? k); reflexivity.
  - rewrite S. cbn [negb andb]. specialize (C S). rewrite Forall_forall in C. rewrite (C m (nth_error_In _ _ Hm)).
    rewrite (@menu_at_first x y _ _ _ L). pose proof (first_index_spec (in_menu x y) (b_menus b)) as FI. destruct (first_index _ _) as [i|].
    + destruct FI as (q & Q & Iq). destruct (Nat.eqb_spec i k) as [->|N]; [rewrite Q in Hm; injection Hm as <-; now rewrite Iq|].
      destruct (in_menu x y m) eqn:Im; [|reflexivity]. exfalso. apply N. eapply menus_apart; [exact L|exact E|exact Q|exact Hm|exact Iq|exact Im].
    + now rewrite (FI m (nth_error_In _ _ Hm)).
Qed.

Lemma vinv_picture v now x y (W : Z) on : vinv menus width box v now x y -> (width == inject_Z W)%Q ->
  (forall o t k it, now = Some o -> nth_error (w_trays (vw_window v)) o = Some t -> nth_error (t_items t) k = Some it -> i_selected it = on o k) ->
  forall i j c, same_rgba (coats i j c (render_bar v)) (bar_pixel W menus now x y on i j c).
Proof.
  intros V Wd On i j c. pose proof (vinv_marks V) as Mk. destruct V as (((Bw & L & C & O) & S & E & ([Ls Sh] & Lt & _)) & M & P & T).
  set (w := vw_window v) in *. set (b := w_bar w) in *. pose proof (@laid_length _ _ _ L) as Len. rewrite map_length in Len.
  assert (Tk : trays_ok (w_trays w) (map snd menus)) by (apply tops_ok; [exact T|exact Sh]).
  assert (Lh : List.length (vw_menus v) = List.length (map fst menus)) by (rewrite M; unfold flags; rewrite !map_length; exact Len).
  assert (Li : Forall2 (fun ih n => List.length ih = n) (vw_items v) (map snd menus)).
  { rewrite P. unfold items_hovered. fold b. clear - Tk Lt Len. revert Tk Lt Len. generalize (w_trays w), (b_menus b), menus.
    induction l as [|t ts IH]; intros [|m ms] [|mn mns] Tk Lt Len; cbn in *; try discriminate; try constructor; inversion Tk as [|? ? ? ? [[T1 _] _] T3]; subst.
    - cbn. rewrite map_length. exact T1.
    - apply IH; [exact T3|congruence|congruence]. }
  unfold render_bar. rewrite coats_app. fold w b. unfold bar_shapes. cbn [coats fold_left coat].
  assert (U : part_on (emit_part false 0 (0 + 20 - 2) (b_width b) 2 UNDERLINE_COLOR) i j = block 0 18 (W - 1) 19 i j).
  { apply rect_block; [reflexivity|reflexivity| |reflexivity]. rewrite Bw, Wd. replace (W - 1 + 1)%Z with W by lia. ring. }
  rewrite U. clear U. unfold bar_pixel. fold (coats i j).
  assert (Lc : List.length (map snd menus) = List.length (map fst menus)) by now rewrite !map_length.
  destruct (Z.ltb_spec j 20) as [J|J].
  - eapply trans_rgba; [apply (@menus_coats (map fst menus) (map snd menus) (b_menus b) (w_trays w) (vw_menus v) (vw_items v) 0 0 0%Z i j _ L (Qeq_refl _) Named Lc Tk Lh Li J)|].
    rewrite (@buttons_ext _ _ _ (mark_of (map fst menus) now x y)) by (intros k K; apply Mk; rewrite map_length in K; exact K).
    apply buttons_same. destruct (block 0 18 (W - 1) 19 i j); [apply opaque; reflexivity|apply refl_rgba].
  - rewrite (proj2 (block_false 0 18 (W - 1) 19 i j)) by lia.
    assert (Oo : match now with Some o => only o (b_menus b) | None => Forall (fun m => m_open m = false) (b_menus b) end).
    { destruct now as [o|]; cbn [UiProofs.shows] in S; [apply S|apply C, S]. }
    eapply trans_rgba; [apply (@menus_low (map fst menus) (map snd menus) (b_menus b) (w_trays w) (vw_menus v) (vw_items v) 0 0 0%Z i j c now L (Qeq_refl _) Named Lc Tk Lh Li J Oo)|].
    destruct now as [o|]; [|apply refl_rgba]. destruct Oo as [Oo _].
    destruct (nth_error (b_menus b) o) as [m|] eqn:Hm; [|apply nth_error_None in Hm; lia].
    destruct (nth_error (w_trays w) o) as [t|] eqn:Ht; [|apply nth_error_None in Ht; lia].
    rewrite (@tray_ext _ _ _ _ (fun k => over_item (left_of (map fst menus) o) k x y) (on o)); [apply refl_rgba|].
    intros k K. pose proof (Sh o t Ht) as [R1 R2].
    destruct (nth_error (t_items t) k) as [it|] eqn:Hit; [|apply nth_error_None in Hit; lia].
    rewrite (nth_error_nth _ _ new_tray Ht). split.
    + assert (Ni : nth_error (vw_items v) o = Some (map (in_item (m_left m) x y) (t_items t))).
      { rewrite P. unfold items_hovered. fold b. rewrite nth_error_map.
        assert (Cb : forall (l : list menu) (l' : list tray) n a a', nth_error l n = Some a -> nth_error l' n = Some a' -> nth_error (combine l l') n = Some (a, a')).
        { induction l as [|u l IHl]; intros [|u' l'] [|n] a a'; cbn; try discriminate; [congruence|apply IHl]. }
        rewrite (Cb _ _ _ _ _ Hm Ht). reflexivity. }
      rewrite (nth_error_nth _ _ [] Ni), (nth_error_nth _ _ false (map_nth_error (in_item (m_left m) x y) _ _ Hit)).
      unfold left_of. rewrite <- (left_laid _ _ _ _ L Hm). apply in_item_over, (R2 k it Hit).
    + rewrite (nth_error_nth _ _ false (map_nth_error i_selected _ _ Hit)). exact (On o t k it eq_refl Ht Hit).
Qed.
Lemma vinv_sound v now x y (W : Z) : vinv menus width box v now x y -> (width == inject_Z W)%Q -> (0 <= W)%Z -> Forall sound (render_bar v).
Proof.
  intros (((Bw & L & C & O) & S & E & ([Ls Sh] & Lt & _)) & M & P & T) Wd Wp. unfold render_bar. cbv zeta. constructor.
  - cbn. rewrite Bw, Wd. split; [change 0%Q with (inject_Z 0); now rewrite <- Zle_Qle|lra].
  - apply (@menus_sound (map fst menus) (map snd menus) _ _ _ _ 0 0 0%Z L (Qeq_refl _) Named). apply tops_ok; [exact T|exact Sh].
Qed.
End Picture.

(** * Texts stay visible *)
Fixpoint clear (ss : list shape) : Prop :=
  match ss with
  | [] => True
  | Part _ :: ss => clear ss
  | Label l :: ss => (forall p i j, In (Part p) ss -> in_label l i j = true -> part_on p i j = false) /\ clear ss
  end.
Lemma clear_app a b : clear a -> clear b ->
  (forall l p i j, In (Label l) a -> In (Part p) b -> in_label l i j = true -> part_on p i j = false) -> clear (a ++ b).
Proof.
  induction a as [|s a IH]; intros A B X; [exact B|]. cbn [app]. destruct s as [p|l]; cbn [clear] in *.
  - apply IH; [exact A|exact B|]. intros l q i j I. apply X. now right.
  - destruct A as [A1 A2]. split.
    + intros p i j I Il. apply in_app_or in I. destruct I as [I|I]; [exact (A1 p i j I Il)|]. apply (X l p i j); [now left|exact I|exact Il].
    + apply IH; [exact A2|exact B|]. intros l' q i j I. apply X. now right.
Qed.
Lemma clear_split ss : clear ss -> forall s1 l s2 p i j, ss = s1 ++ Label l :: s2 -> In (Part p) s2 -> in_label l i j = true -> part_on p i j = false.
Proof.
  intros C s1. revert ss C. induction s1 as [|s s1 IH]; intros ss C l s2 p i j E I Il; subst ss; cbn [app] in C.
  - destruct C as [C _]. exact (C p i j I Il).
  - destruct s as [q|q]; cbn [clear] in C; [|destruct C as [_ C]]; exact (IH _ C l s2 p i j eq_refl I Il).
Qed.
Lemma label_block ws x y ww hh ct i j (l t r b : Z) : (x == inject_Z l)%Q -> (y == inject_Z t)%Q ->
  (x + ww == inject_Z (r + 1))%Q -> (y + hh == inject_Z (b + 1))%Q ->
  in_label {| lb_words := ws; lb_x := x; lb_y := y; lb_w := ww; lb_h := hh; lb_centred := ct |} i j = block l t r b i j.
Proof.
  intros A B C D. unfold in_label. cbn [lb_x lb_y lb_w lb_h].
  rewrite (floor_is A), (floor_is B), (floor_is C), (floor_is D). unfold block.
  destruct (Z.leb_spec i r), (Z.ltb_spec i (r + 1)), (Z.leb_spec j b), (Z.ltb_spec j (b + 1)); try lia; reflexivity.
Qed.

(** Where a menu draws. *)
Lemma menu_place k m hov i j (l : Z) (n : nat) : (m_left m == inject_Z l)%Q -> (m_width m == 10 * inject_Z (Z.of_nat n))%Q ->
  (forall p, In (Part p) (menu_shapes k m hov) -> part_on p i j = true -> (l <= i < l + 10 * Z.of_nat n /\ 0 <= j <= 18)%Z) /\
  (forall lb, In (Label lb) (menu_shapes k m hov) -> in_label lb i j = block l 0 (l + 10 * Z.of_nat n - 1) 18 i j).
Proof.
  intros L Wd. set (r := (l + 10 * Z.of_nat n)%Z).
  assert (E : (inject_Z r == inject_Z l + 10 * inject_Z (Z.of_nat n))%Q) by (unfold r; rewrite inject_Z_plus, inject_Z_mult; reflexivity).
  assert (F1 : forall cc, part_on (emit_part false (m_left m + 1) (0 + 1) (m_width m - 2) (19 - 2) cc) i j = block (l + 1) 1 (r - 2) 17 i j).
  { intros cc. apply rect_block; rewrite ?L, ?Wd.
    - rewrite inject_Z_plus. reflexivity.
    - reflexivity.
    - replace (r - 2 + 1)%Z with (r + -1)%Z by lia. rewrite inject_Z_plus, E. cbn. ring.
    - reflexivity. }
  assert (F2 : forall cc, part_on (emit_part true (m_left m) 0 (m_width m - 1) (19 - 1) cc) i j = border l 0 (r - 1) 18 i j).
  { intros cc. apply line_border; rewrite ?L, ?Wd; try reflexivity. replace (r - 1)%Z with (r + -1)%Z by lia. rewrite inject_Z_plus, E. cbn. ring. }
  split.
  - intros p I. assert (X : part_on p i j = block (l + 1) 1 (r - 2) 17 i j \/ part_on p i j = border l 0 (r - 1) 18 i j).
    { unfold menu_shapes in I. apply in_app_or in I. destruct I as [I|[I|[]]]; [|discriminate].
      destruct (m_open m); [|destruct hov; [|destruct I]]; destruct I as [I|[I|[]]]; injection I as <-; [left; apply F1|right; apply F2|left; apply F1|right; apply F2]. }
    destruct X as [-> | ->]; intros T; [apply block_iff in T; lia|apply border_iff in T; unfold on_border in T; lia].
  - intros lb I. assert (lb = {| lb_words := MenuName k; lb_x := m_left m; lb_y := 0; lb_w := m_width m; lb_h := 19; lb_centred := true |}) as ->.
    { unfold menu_shapes in I. apply in_app_or in I. destruct I as [I|[I|[]]]; [|injection I as <-; reflexivity].
      destruct (m_open m); [|destruct hov; [|destruct I]]; destruct I as [I|[I|[]]]; discriminate. }
    apply label_block; [exact L|reflexivity|rewrite L, Wd; replace (r - 1 + 1)%Z with r by lia; rewrite E; reflexivity|reflexivity].
Qed.
Lemma menu_clear k m hov : clear (menu_shapes k m hov).
Proof. unfold menu_shapes. destruct (m_open m); [|destruct hov]; cbn; tauto. Qed.

(** Where items draw. *)
Lemma item_place m0 j0 (l : Z) left it hv i j : (left == inject_Z l)%Q -> (i_y it == 3 + 22 * inject_Z (Z.of_nat j0))%Q ->
  (forall p, In (Part p) (item_shapes m0 j0 left it hv) -> part_on p i j = true -> (23 + 22 * Z.of_nat j0 <= j < 45 + 22 * Z.of_nat j0)%Z) /\
  (forall lb, In (Label lb) (item_shapes m0 j0 left it hv) -> in_label lb i j = true -> (23 + 22 * Z.of_nat j0 <= j < 45 + 22 * Z.of_nat j0)%Z).
Proof.
  intros L Y. set (top := (23 + 22 * Z.of_nat j0)%Z).
  assert (Y0 : (0 + 20 + i_y it == inject_Z top)%Q) by (unfold top; rewrite inject_Z_plus, inject_Z_mult, Y; cbn; ring).
  split.
  - intros p I T. assert (X : exists ww c, p = emit_part false (left + 0 + 3) (0 + 20 + i_y it) ww 22 c).
    { unfold item_shapes in I. destruct hv, (i_selected it); cbn [app] in I; repeat (destruct I as [I|I]; [try discriminate I; injection I as <-; eauto|]); destruct I. }
    destruct X as (ww & c & ->). unfold part_on, emit_part in T. cbn [p_outline p_rect] in T. unfold in_rect in T. cbn [r_x r_y r_w r_h] in T.
    rewrite (floor_is Y0), (@floor_is (0 + 20 + i_y it + 22) (top + 22)) in T by (rewrite Y0, inject_Z_plus; reflexivity).
    rewrite !andb_true_iff, !Z.leb_le, !Z.ltb_lt in T. unfold top in *. lia.
  - intros lb I T. assert (X : lb_y lb = (0 + 20 + i_y it)%Q /\ lb_h lb = 22%Q).
    { unfold item_shapes in I. destruct hv, (i_selected it); cbn [app] in I; repeat (destruct I as [I|I]; [try discriminate I; injection I as <-; auto|]); destruct I. }
    destruct X as [X1 X2]. unfold in_label in T. rewrite X1, X2, (floor_is Y0), (@floor_is (0 + 20 + i_y it + 22) (top + 22)) in T by (rewrite Y0, inject_Z_plus; reflexivity).
    rewrite !andb_true_iff, !Z.leb_le, !Z.ltb_lt in T. unfold top in *. lia.
Qed.
Lemma items_clear m0 (l : Z) left its : forall hs j0, (left == inject_Z l)%Q ->
  (forall k it, nth_error its k = Some it -> (i_y it == 3 + 22 * inject_Z (Z.of_nat (j0 + k)))%Q) ->
  clear (items_shapes m0 j0 left its hs) /\
  (forall s i j, In s (items_shapes m0 j0 left its hs) -> match s with Part p => part_on p i j | Label lb => in_label lb i j end = true -> (23 + 22 * Z.of_nat j0 <= j)%Z).
Proof.
  induction its as [|it its IH]; intros [|hv hs] j0 L Y; try (split; [exact I|intros s i j []]).
  assert (Y0 : (i_y it == 3 + 22 * inject_Z (Z.of_nat j0))%Q) by (rewrite (Y 0 it eq_refl), Nat.add_0_r; reflexivity).
  destruct (IH hs (S j0) L) as [C B]. { intros k q E. rewrite (Y (S k) q E), Nat.add_succ_r. reflexivity. }
  cbn [items_shapes]. split.
  - apply clear_app; [|exact C|].
    + unfold item_shapes. destruct hv, (i_selected it); cbn; repeat split; intros p i j X; repeat (destruct X as [X|X]; [discriminate X|]); destruct X.
    + intros lb p i j Il Ip T. apply not_true_iff_false. intros X. pose proof (B (Part p) i j Ip X). pose proof (proj2 (@item_place m0 j0 l left it hv i j L Y0) lb Il T). lia.
  - intros s i j Is T. apply in_app_or in Is. destruct Is as [Is|Is]; [|pose proof (B s i j Is T); lia].
    destruct s as [p|lb]; [pose proof (proj1 (@item_place m0 j0 l left it hv i j L Y0) p Is T)|pose proof (proj2 (@item_place m0 j0 l left it hv i j L Y0) lb Is T)]; lia.
Qed.

Lemma tray_clear m0 (l : Z) left t n hs : (left == inject_Z l)%Q -> rows t n -> (t_height t == 5 + 22 * inject_Z (Z.of_nat n))%Q ->
  clear (tray_shapes left t ++ items_shapes m0 0 left (t_items t) hs) /\
  (forall s i j, In s (tray_shapes left t ++ items_shapes m0 0 left (t_items t) hs) ->
     match s with Part p => part_on p i j | Label lb => in_label lb i j end = true -> (20 <= j)%Z).
Proof.
  intros L [_ Y] Ht. assert (Y' : forall k it, nth_error (t_items t) k = Some it -> (i_y it == 3 + 22 * inject_Z (Z.of_nat (0 + k)))%Q) by (intros k it E; apply (Y k it E)).
  destruct (@items_clear m0 l left (t_items t) hs 0 L Y') as [C B]. split; [exact C|].
  intros s i j I T. apply in_app_or in I. destruct I as [I|I]; [|pose proof (B s i j I T); lia].
  unfold tray_shapes in I. destruct I as [<-|[<-|[]]].
  - rewrite (@rect_block _ _ _ _ _ i j l 20 (l + 170) (24 + 22 * Z.of_nat n)) in T.
    + apply block_iff in T. lia.
    + rewrite L. ring. + reflexivity. + rewrite L, !inject_Z_plus. cbn. ring. + rewrite Ht, !inject_Z_plus, inject_Z_mult. cbn. ring.
  - rewrite (@line_border _ _ _ _ _ i j l 20 (l + 171) (25 + 22 * Z.of_nat n)) in T.
    + apply border_iff in T. unfold on_border in T. lia.
    + rewrite L. ring. + reflexivity. + rewrite L, !inject_Z_plus. cbn. ring. + rewrite Ht, !inject_Z_plus, inject_Z_mult. cbn. ring.
Qed.

Lemma menus_clear names : forall counts ms ts hs ihs k0 a l (o : option nat),
  laid a names ms -> (a == inject_Z l)%Q -> trays_ok ts counts ->
  match o with Some o => only o ms | None => Forall (fun m => m_open m = false) ms end ->
  clear (menus_shapes k0 ms ts hs ihs) /\
  (forall p i j, In (Part p) (menus_shapes k0 ms ts hs ihs) -> part_on p i j = true -> (l <= i /\ j <= 18 \/ 20 <= j /\ o <> None)%Z).
Proof.
  induction names as [|n names IH]; intros counts [|m ms] ts hs ihs k0 a l o L A T O; cbn in L; try contradiction.
  { split; [exact I|intros p i j []]. }
  destruct ts as [|t ts], hs as [|hv hs], ihs as [|ih ihs]; try (split; [exact I|intros p i j []]).
  destruct L as (L1 & L2 & L3). inversion T as [|? cn ? cns [T1 T2] T3]; subst.
  assert (A' : (m_left m + 10 * inject_Z (Z.of_nat n) == inject_Z (l + 10 * Z.of_nat n))%Q) by (rewrite A, inject_Z_plus, inject_Z_mult; reflexivity).
  assert (Wd : (m_width m == 10 * inject_Z (Z.of_nat n))%Q) by (rewrite L2; reflexivity).
  cbn [menus_shapes].
  assert (X : exists o', match o' with Some o => only o ms | None => Forall (fun m => m_open m = false) ms end /\ (m_open m = true -> o' = None) /\ (o' <> None -> o <> None) /\ (m_open m = true -> o <> None)).
  { destruct o as [[|o]|].
    - destruct O as [_ O]. exists None. split; [|repeat split; congruence]. apply Forall_forall. intros q Q. destruct (In_nth_error _ _ Q) as [k K]. exact (O (S k) q K).
    - destruct O as [O1 O]. exists (Some o). split; [split; [cbn in O1; lia|intros k q K; exact (O (S k) q K)]|]. rewrite (O 0 m eq_refl). cbn. repeat split; congruence.
    - inversion O as [|? ? O1 O2]; subst. exists None. split; [exact O2|]. rewrite O1. repeat split; congruence. }
  destruct X as (o' & O' & X1 & X2 & X3).
  destruct (IH cns ms ts hs ihs (S k0) _ _ o' L3 A' T3 O') as [C B].
  pose proof (@tray_clear k0 l (m_left m) t cn ih A T1 T2) as [TC TB]. split.
  - apply clear_app; [apply menu_clear| |].
    + apply clear_app; [destruct (m_open m); [exact TC|exact I]|exact C|]. intros lb p i j Il Ip Tl. apply not_true_iff_false. intros Tp.
      destruct (m_open m); [|destruct Il]. pose proof (TB (Label lb) i j Il Tl). destruct (B p i j Ip Tp) as [D|[_ D]]; [lia|]. apply D, X1. reflexivity.
    + intros lb p i j Il Ip Tl. apply not_true_iff_false. intros Tp. rewrite (proj2 (@menu_place k0 m hv i j l n A Wd) lb Il) in Tl. apply block_iff in Tl.
      apply in_app_or in Ip. destruct Ip as [Ip|Ip]; [destruct (m_open m); [|destruct Ip]; pose proof (TB (Part p) i j Ip Tp); lia|]. destruct (B p i j Ip Tp); lia.
  - intros p i j Ip Tp. apply in_app_or in Ip. destruct Ip as [Ip|Ip].
    { pose proof (proj1 (@menu_place k0 m hv i j l n A Wd) p Ip Tp). left. lia. }
    apply in_app_or in Ip. destruct Ip as [Ip|Ip].
    + destruct (m_open m); [|destruct Ip]. right. split; [exact (TB (Part p) i j Ip Tp)|now apply X3].
    + destruct (B p i j Ip Tp) as [D|[D1 D2]]; [left; lia|right; split; [exact D1|now apply X2]].
Qed.
Lemma vinv_clear menus width box v now x y : vinv menus width box v now x y -> clear (render_bar v).
Proof.
  intros (((Bw & L & C & O) & Sh & E & ([Ls Rw] & Lt & _)) & M & P & T). unfold render_bar. cbv zeta. cbn [bar_shapes app clear].
  apply (@menus_clear (map fst menus) (map snd menus) _ _ _ _ 0 0 0%Z now L (Qeq_refl _)).
  - apply tops_ok; [exact T|exact Rw].
  - destruct now as [o|]; cbn [UiProofs.shows] in Sh; [apply Sh|apply C, Sh].
Qed.

(** * Items under the mouse, wherever the mouse was *)
Lemma window_place e w x y : same_place w (fst (window_run w x y [e])).
Proof.
  destruct e as [x' y'|b|b|]; cbn [window_run].
  - split; [apply move_lefts|reflexivity].
  - destruct (press_lefts w x y b) as [A B]. destruct (press w x y b). split; assumption.
  - destruct (release_same w x y b) as (A & B & _). destruct (release w x y b) as [w' t]. cbn [fst] in *. split; [now rewrite A|now rewrite B].
  - split; reflexivity.
Qed.
Lemma items_run_gen es : forall v x y, vw_items v = items_hovered (vw_window v) x y ->
  vw_items (view_run v x y es) = items_hovered (vw_window v) (fst (mouse_after x y es)) (snd (mouse_after x y es)).
Proof.
  assert (G : forall w w', same_place w w' -> forall x y, items_hovered w' x y = items_hovered w x y) by (intros w w' [A B] x y; now apply items_geometry).
  induction es as [|e es IH]; intros v x y I; [exact I|].
  pose proof (window_place e (vw_window v) x y) as PL. destruct e as [x' y'|b|b|]; cbn [view_run mouse_after].
  - rewrite IH; [apply (G _ _ PL)|]. cbn [view_move vw_items]. symmetry. apply (G _ _ PL).
  - assert (PW : vw_window (view_press v x y b) = fst (window_run (vw_window v) x y [WPress b])) by (unfold view_press; cbn [window_run]; destruct (press (vw_window v) x y b); reflexivity).
    assert (PI : vw_items (view_press v x y b) = vw_items v) by (unfold view_press; destruct (press (vw_window v) x y b); reflexivity).
    rewrite IH; rewrite PW; [apply (G _ _ PL)|]. rewrite PI, I. symmetry. apply (G _ _ PL).
  - rewrite IH; [apply (G _ _ PL)|]. unfold with_window. cbn [vw_items vw_window]. rewrite I. symmetry. apply (G _ _ PL).
  - rewrite IH; [apply (G _ _ PL)|]. unfold with_window. cbn [vw_items vw_window]. rewrite I. symmetry. apply (G _ _ PL).
Qed.
Lemma items_run width box menus x1 y1 es :
  vw_items (view_run (view_move (make_view width box menus) x1 y1) x1 y1 es)
  = items_hovered (make_window width box menus) (fst (mouse_after x1 y1 es)) (snd (mouse_after x1 y1 es)).
Proof.
  assert (P : forall x y, items_hovered (vw_window (view_move (make_view width box menus) x1 y1)) x y = items_hovered (make_window width box menus) x y)
    by (intros x y; apply items_geometry; [apply move_lefts|reflexivity]).
  rewrite items_run_gen; [apply P|]. cbn [view_move vw_items]. symmetry. apply P.
Qed.
Lemma combine_nth_error A B (l : list A) : forall (l' : list B) n a b, nth_error l n = Some a -> nth_error l' n = Some b -> nth_error (combine l l') n = Some (a, b).
Proof. induction l as [|u l IH]; intros [|u' l'] [|n] a b; cbn; try discriminate; [congruence|apply IH]. Qed.
Lemma start_items width box menus i j len count x y : nth_error menus i = Some (len, count) -> j < count ->
  nth j (nth i (items_hovered (make_window width box menus) x y) []) false = over_item (left_of (map fst menus) i) j x y.
Proof.
  intros Hi Hj. destruct (make_bar_laid width (map fst menus)) as (_ & _ & L & _). pose proof (@laid_length _ _ _ L) as Len. rewrite map_length in Len.
  assert (Li : i < List.length menus) by (apply nth_error_Some; congruence).
  unfold items_hovered, make_window. cbn [w_bar w_trays].
  destruct (nth_error (b_menus (make_bar width (map fst menus))) i) as [m|] eqn:Hm; [|apply nth_error_None in Hm; lia].
  pose proof (map_nth_error (fun m => make_tray (snd m)) _ _ Hi) as Ht. cbn [snd] in Ht.
  destruct (make_tray_rows count) as [[Lc Y] _]. destruct (nth_error (t_items (make_tray count)) j) as [it|] eqn:Hit; [|apply nth_error_None in Hit; lia].
  rewrite (nth_error_nth _ _ [] (map_nth_error _ _ _ (combine_nth_error _ _ _ Hm Ht))). cbn [fst snd].
  rewrite (nth_error_nth _ _ false (map_nth_error (in_item (m_left m) x y) _ _ Hit)).
  unfold left_of. rewrite <- (left_laid _ _ _ _ L Hm). apply in_item_over, (Y j it Hit).
Qed.
Lemma tray_off n j it : nth_error (t_items (make_tray n)) j = Some it -> i_selected it = false /\ i_setting it = false.
Proof.
  revert j. induction n as [|n IH]; intros j E; [destruct j; discriminate|]. cbn [make_tray add_item t_items] in E.
  destruct (Nat.ltb_spec j (List.length (t_items (make_tray n)))) as [Lt|Ge].
  - rewrite nth_error_app1 in E by lia. exact (IH j E).
  - rewrite nth_error_app2 in E by lia. destruct (j - _) as [|k]; [injection E as <-; auto|destruct k; discriminate].
Qed.

(** * Where the texts go *)
Lemma spots_app a b : spots (a ++ b) = spots a ++ spots b.
Proof. apply flat_map_app. Qed.
Lemma menu_spots k m hv (l : Z) (n : nat) : (m_left m == inject_Z l)%Q -> (m_width m == 10 * inject_Z (Z.of_nat n))%Q ->
  spots (menu_shapes k m hv) = [(MenuName k, (l, 0, 10 * Z.of_nat n, 19)%Z, true)].
Proof.
  intros L Wd. assert (E : (m_width m == inject_Z (10 * Z.of_nat n))%Q) by (rewrite Wd, inject_Z_mult; reflexivity).
  unfold menu_shapes. destruct (m_open m); [|destruct hv]; cbn [spots flat_map app lb_words lb_x lb_y lb_w lb_h lb_centred]; rewrite (floor_is L), (floor_is E); reflexivity.
Qed.
Lemma item_spots m0 j0 (l : Z) left it hv : (left == inject_Z l)%Q -> (i_y it == 3 + 22 * inject_Z (Z.of_nat j0))%Q ->
  spots (item_shapes m0 j0 left it hv) =
  (if i_selected it then [(CheckMark m0 j0, (l + 3, 23 + 22 * Z.of_nat j0, 22, 22)%Z, true)] else []) ++ [(ItemText m0 j0, (l + 35, 23 + 22 * Z.of_nat j0, 166, 22)%Z, false)].
Proof.
  intros L Y.
  assert (Y0 : (0 + 20 + i_y it == inject_Z (23 + 22 * Z.of_nat j0))%Q) by (rewrite inject_Z_plus, inject_Z_mult, Y; cbn; ring).
  assert (X0 : (left + 0 + 3 == inject_Z (l + 3))%Q) by (rewrite L, inject_Z_plus; cbn; ring).
  assert (X1 : (left + 0 + 3 + 32 == inject_Z (l + 35))%Q) by (rewrite L, inject_Z_plus; cbn; ring).
  unfold item_shapes. destruct hv, (i_selected it); cbn [spots flat_map app lb_words lb_x lb_y lb_w lb_h lb_centred]; rewrite ?(floor_is X0), (floor_is X1), (floor_is Y0); reflexivity.
Qed.
Lemma items_spots m0 (l : Z) left on its : forall hs j0, (left == inject_Z l)%Q -> List.length hs = List.length its ->
  (forall k it, nth_error its k = Some it -> (i_y it == 3 + 22 * inject_Z (Z.of_nat (j0 + k)))%Q /\ i_selected it = on (j0 + k)%nat) ->
  spots (items_shapes m0 j0 left its hs) = item_texts m0 l on j0 (List.length its).
Proof.
  induction its as [|it its IH]; intros [|hv hs] j0 L Lh Y; try discriminate; [reflexivity|].
  destruct (Y 0 it eq_refl) as [Y0 S0]. rewrite Nat.add_0_r in Y0, S0.
  cbn [items_shapes List.length item_texts]. rewrite spots_app, (@item_spots m0 j0 l left it hv L Y0), S0, (IH hs (S j0) L).
  - rewrite <- app_assoc. reflexivity.
  - cbn in Lh. lia.
  - intros k q E. rewrite Nat.add_succ_l, <- Nat.add_succ_r. exact (Y (S k) q E).
Qed.
Lemma menus_spots (now : option nat) on menus : forall ms ts hs ihs k0 a (l : Z),
  laid a (map fst menus) ms -> (a == inject_Z l)%Q -> trays_ok ts (map snd menus) -> List.length hs = List.length menus ->
  Forall2 (fun ih n => List.length ih = n) ihs (map snd menus) ->
  (forall k m, nth_error ms k = Some m -> m_open m = match now with Some o => o =? (k0 + k) | None => false end) ->
  (forall k t j it, now = Some (k0 + k) -> nth_error ts k = Some t -> nth_error (t_items t) j = Some it -> i_selected it = on (k0 + k) j) ->
  spots (menus_shapes k0 ms ts hs ihs) = texts l k0 menus now on.
Proof.
  induction menus as [|[n count] menus IH]; intros [|m ms] ts hs ihs k0 a l L A T Lh Li O S; cbn in L; try contradiction; [reflexivity|].
  cbn [map fst snd] in *. destruct L as (E1 & E2 & E3). inversion T as [|t ? ts' ? [[T1 T1'] T2] T3]; subst. destruct hs as [|hv hs]; [discriminate|]. inversion Li as [|ih ? ihs' ? L1 L2]; subst.
  assert (A' : (m_left m + 10 * inject_Z (Z.of_nat n) == inject_Z (l + 10 * Z.of_nat n))%Q) by (rewrite A, inject_Z_plus, inject_Z_mult; reflexivity).
  assert (Wd : (m_width m == 10 * inject_Z (Z.of_nat n))%Q) by (rewrite E2; reflexivity).
  cbn [menus_shapes texts]. rewrite !spots_app, (@menu_spots k0 m hv l n A Wd). cbn [app]. f_equal. f_equal.
  - pose proof (O 0 m eq_refl) as Om. rewrite Nat.add_0_r in Om. rewrite Om. destruct now as [o|]; [|reflexivity].
    destruct (Nat.eqb_spec o k0) as [->|_]; [|reflexivity]. rewrite spots_app. change (spots (tray_shapes (m_left m) t)) with (@nil text_spot). cbn [app].
    rewrite (@items_spots k0 l (m_left m) (on k0) (t_items t) ih 0 A); [congruence|congruence|].
    intros k it K. split; [apply (T1' k it K)|]. rewrite <- (Nat.add_0_r k0) at 1. apply (S 0 t k it); [now rewrite Nat.add_0_r|reflexivity|exact K].
  - apply (IH ms ts' hs ihs' (Datatypes.S k0) _ _ E3 A' T3); [cbn in Lh; lia|exact L2| |].
    + intros k q K. rewrite (O (Datatypes.S k) q K), Nat.add_succ_r. reflexivity.
    + intros k t' j it N K1 K2. rewrite Nat.add_succ_l, <- Nat.add_succ_r. apply (S (Datatypes.S k) t' j it); [now rewrite Nat.add_succ_r|exact K1|exact K2].
Qed.
Lemma vinv_spots menus width box v now x y on : vinv menus width box v now x y ->
  (forall o t k it, now = Some o -> nth_error (w_trays (vw_window v)) o = Some t -> nth_error (t_items t) k = Some it -> i_selected it = on o k) ->
  spots (render_bar v) = texts 0 0 menus now on.
Proof.
  intros (((Bw & L & C & O) & Sh & E & ([Ls Rw] & Lt & _)) & M & P & T) On. unfold render_bar. cbv zeta. rewrite spots_app. change (spots (bar_shapes (w_bar (vw_window v)))) with (@nil text_spot). cbn [app].
  pose proof (@laid_length _ _ _ L) as Len. rewrite map_length in Len.
  assert (Tk : trays_ok (w_trays (vw_window v)) (map snd menus)) by (apply tops_ok; [exact T|exact Rw]).
  apply (@menus_spots now on menus _ _ _ _ 0 0 0%Z L (Qeq_refl _) Tk).
  - rewrite M. unfold flags. rewrite map_length. exact Len.
  - rewrite P. unfold items_hovered. clear - Tk Lt Len. revert Tk Lt Len. generalize (w_trays (vw_window v)), (b_menus (w_bar (vw_window v))), menus.
    induction l as [|t ts IH]; intros [|m ms] [|mn mns] Tk Lt Len; cbn in *; try discriminate; try constructor; inversion Tk as [|? ? ? ? [[T1 _] _] T3]; subst.
    + cbn. rewrite map_length. exact T1.
    + apply IH; [exact T3|congruence|congruence].
  - intros k m Hm. cbn [Nat.add]. destruct now as [o|]; cbn [UiProofs.shows] in Sh.
    + rewrite (proj2 (proj2 Sh) k m Hm). apply Nat.eqb_sym.
    + pose proof (C Sh) as F. rewrite Forall_forall in F. apply F, (nth_error_In _ _ Hm).
  - intros k t j it N Ht Hit. exact (On k t j it N Ht Hit).
Qed.

(** Drawing shapes none of which colours the pixel. *)
Lemma coats_none i j ss c : (forall p, In (Part p) ss -> part_on p i j = false) -> coats i j c ss = c.
Proof.
  revert c. induction ss as [|s ss IH]; intros c N; [reflexivity|]. unfold coats in *. cbn [fold_left]. rewrite IH by (intros p I; apply N; now right).
  destruct s as [p|l]; [|reflexivity]. cbn [coat]. now rewrite (N p (or_introl eq_refl)).
Qed.
