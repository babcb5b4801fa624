(** C92: the caret of a text box. *)
From Coq Require Import ZArith Reals Lia Lra.
From Verif Require Import Base BaseFacts FloatModel PackingModel ColorModel FormattingModel FormattingIterModel FormattingIterSpec ValueRunsSpec LayoutModel LayoutSpec LayoutProofs
  CursorModel CursorSpec ClipModel DrawModel DrawSpec DrawProps TextBoxModel TextBoxSpec TextBoxProofs TextBoxExample TextBoxProps ScreenModel ScreenSpec ScreenProofs ScreenProps
  FloatRealProofs BlinkModel BlinkSpec BlinkProofs.
From Flocq Require Import Core.Core.
Open Scope Z_scope.

(** What is drawn beside the text. *)
Lemma shows_mark vars gi si image fm w al px py b out : show_box vars gi si image fm w al px py b = Ok out ->
  exists text mark, draw_formatted vars gi si image fm (tb_layout b) (plain_views (size (tb_content b))) px py w al (tb_anchor b) (tb_cursor b) = Ok text /\
    out = text ++ mark /\
    if tb_focused b && Z.even (tb_flash b) then bar image (px + ci_x (tb_info b)) (py + ci_y (tb_info b)) (ci_height (tb_info b)) mark else mark = [].
Proof.
  unfold show_box, render_box. intros H. apply obind_ok_inv in H. destruct H as (text & E & H). inversion H; subst out. eexists text, _. split; [exact E|]. split; [reflexivity|].
  destruct (tb_focused b && Z.even (tb_flash b)); [|reflexivity]. eexists. split; [reflexivity|]. cbn. repeat split; reflexivity.
Qed.

(** The cursor is put somewhere: the caret starts anew. *)
Definition anew (b : box) : Prop := tb_focused b = true /\ tb_timer b = f32_0 /\ tb_flash b = 0.
Lemma set_anew w al b p sel b' : tb_focused b = true -> set_cursor w al b p sel = Ok b' -> anew b'.
Proof. unfold set_cursor. intros F H. apply obind_ok_inv in H. destruct H as (i & _ & H). inversion H; subst. repeat split. exact F. Qed.
Lemma set_fresh w al b p sel b' : set_cursor w al b p sel = Ok b' -> tb_timer b' = f32_0 /\ tb_flash b' = 0 /\ tb_focused b' = tb_focused b.
Proof. unfold set_cursor. intros H. apply obind_ok_inv in H. destruct H as (i & _ & H). inversion H; subst. repeat split. Qed.
Lemma recalc_blink w al build strip tall b b' : recalc w al build strip tall b = Ok b' -> tb_timer b' = tb_timer b /\ tb_flash b' = tb_flash b /\ tb_focused b' = tb_focused b.
Proof.
  unfold recalc. destruct (tb_font b); cbn [negb]; [|intros H; inversion H; auto]. set (r := if tb_focused b then _ else _). destruct (if r then strip (tb_text b) else tb_text b) as [|z l]; [intros H; inversion H; auto|].
  intros H. apply obind_ok_inv in H. destruct H as (i & _ & H). inversion H; auto.
Qed.
Ltac put_anew F := match goal with
  | H : obind _ (fun p => set_cursor _ _ _ p _) = Ok _ |- _ => apply obind_ok_inv in H; destruct H as (? & _ & H); exact (set_anew _ _ _ _ _ _ F H)
  | H : set_cursor _ _ _ _ _ = Ok _ |- _ => exact (set_anew _ _ _ _ _ _ F H) end.
Lemma move_anew w al build strip tall following preceding decode white b clip c b' clip' : puts_cursor (view_of b) c ->
  step w al build strip tall following preceding decode white (b, clip) c = Ok (b', clip') -> anew b'.
Proof.
  intros P H. destruct c; cbn [puts_cursor view_of v_focused v_drag] in P; try contradiction; cbn [step] in H.
  1-6: rewrite P in H; cbn [key] in H.
  - apply obind_ok_inv in H. destruct H as (b1 & H & E). inversion E; subst. unfold move_prev_line in H. put_anew P.
  - apply obind_ok_inv in H. destruct H as (b1 & H & E). inversion E; subst. unfold move_next_line in H. put_anew P.
  - destruct ctrl; apply obind_ok_inv in H; destruct H as (b1 & H & E); inversion E; subst; unfold move_prev_word, move_prev_char in H; put_anew P.
  - destruct ctrl; apply obind_ok_inv in H; destruct H as (b1 & H & E); inversion E; subst; unfold move_next_word, move_next_char in H; put_anew P.
  - destruct ctrl; apply obind_ok_inv in H; destruct H as (b1 & H & E); inversion E; subst; unfold move_text_start, move_line_start in H; put_anew P.
  - destruct ctrl; apply obind_ok_inv in H; destruct H as (b1 & H & E); inversion E; subst; unfold move_text_end, move_line_end in H; put_anew P.
  - rewrite P in H. cbn [key] in H. apply obind_ok_inv in H. destruct H as (b1 & H & E). inversion E; subst. apply obind_ok_inv in H. destruct H as (b2 & H & H2).
    unfold move_text_start, move_text_end in *. pose proof (set_anew _ _ _ _ _ _ P H) as (F2 & _). exact (set_anew _ _ _ _ _ _ F2 H2).
  - apply obind_ok_inv in H. destruct H as (b1 & H & E). inversion E; subst. unfold press in H. apply obind_ok_inv in H. destruct H as (b2 & H & G).
    assert (Z2 : tb_timer b2 = f32_0 /\ tb_flash b2 = 0).
    { destruct (tb_focused b) eqn:F.
      - apply obind_ok_inv in H. destruct H as (b3 & H & H3). unfold move_mouse in H. apply obind_ok_inv in H. destruct H as (p & _ & H). pose proof (set_fresh _ _ _ _ _ _ H) as (T3 & F3 & _).
        pose proof (Z.mod_pos_bound n 4 ltac:(lia)) as NM. assert (C4 : n mod 4 = 0 \/ n mod 4 = 1 \/ n mod 4 = 2 \/ n mod 4 = 3) by lia.
        destruct C4 as [M|[M|[M|M]]]; rewrite M in H3; [inversion H3; subst; auto| | |]; apply obind_ok_inv in H3; destruct H3 as (b4 & _ & H4).
        + unfold move_next_word in H4. apply obind_ok_inv in H4. destruct H4 as (q & _ & H4). pose proof (set_fresh _ _ _ _ _ _ H4) as (? & ? & _). auto.
        + unfold move_line_end in H4. apply obind_ok_inv in H4. destruct H4 as (q & _ & H4). pose proof (set_fresh _ _ _ _ _ _ H4) as (? & ? & _). auto.
        + unfold move_text_end in H4. pose proof (set_fresh _ _ _ _ _ _ H4) as (? & ? & _). auto.
      - apply obind_ok_inv in H. destruct H as (b3 & _ & H). unfold move_mouse in H. apply obind_ok_inv in H. destruct H as (p & _ & H). pose proof (set_fresh _ _ _ _ _ _ H) as (? & ? & _). auto. }
    destruct Z2 as (T2 & F2). unfold gain_focus in G. destruct (tb_focused (with_focus b2 (tb_focused b2) true)) eqn:F.
    + inversion G; subst. cbn in F. repeat split; assumption.
    + apply recalc_blink in G. destruct G as (G1 & G2 & G3). cbn in G1, G2, G3. repeat split; congruence.
  - destruct P as (P & D). rewrite P, D in H. cbn [andb] in H. apply obind_ok_inv in H. destruct H as (b1 & H & E). inversion E; subst. unfold move_mouse in H. put_anew P.
Qed.
Lemma ticks w al build strip tall following preceding decode white dts : forall b clip,
  steps w al build strip tall following preceding decode white (b, clip) (map CTick dts) = Ok (fold_left update dts b, clip).
Proof. induction dts as [|x dts IH]; intros b clip; [reflexivity|]. cbn [map steps step obind fold_left]. apply IH. Qed.
Lemma ticks_keep dts : forall b, let b' := fold_left update dts b in
  tb_focused b' = tb_focused b /\ tb_info b' = tb_info b /\ tb_layout b' = tb_layout b /\ tb_cursor b' = tb_cursor b.
Proof.
  induction dts as [|x dts IH]; intros b; [cbn; auto|]. cbn [fold_left]. specialize (IH (update b x)). cbv zeta in IH. destruct IH as (-> & -> & -> & ->).
  unfold update. destruct (flash_loop _ _ _). auto.
Qed.

(** A key or the mouse puts the cursor somewhere, and then frames of [dts] seconds pass.  In the
    next picture, after the text, there is a black bar one pixel wide at the caret's place when
    the time since then says so, and nothing otherwise: on for half a second, off for half a
    second, and always on after five.  The box counts the time in binary32: it is off by at
    most 1/16777216 of a second for each frame and each second. *)
Theorem C92_blink : forall w al build strip tall following preceding decode white b clip c dts rs b' clip',
  puts_cursor (view_of b) c -> Forall2 (fun x r => fin x r /\ (0 <= r <= 1048576)%R) dts rs ->
  steps w al build strip tall following preceding decode white (b, clip) (c :: map CTick dts) = Ok (b', clip') ->
  exists time, (Rabs (time - sum rs) <= / 16777216 * (INR (List.length dts) + sum rs))%R /\
  forall vars gi si image fm px py out, show_box vars gi si image fm w al px py b' = Ok out ->
  exists text mark, draw_formatted vars gi si image fm (tb_layout b') (plain_views (size (tb_content b'))) px py w al (tb_anchor b') (tb_cursor b') = Ok text /\
    out = text ++ mark /\
    (lit_at time -> bar image (px + ci_x (tb_info b')) (py + ci_y (tb_info b')) (ci_height (tb_info b')) mark) /\ (~ lit_at time -> mark = []).
Proof.
  intros w al build strip tall following preceding decode white b clip c dts rs b' clip' P F H. cbn [steps] in H. apply obind_ok_inv in H. destruct H as ([b1 clip1] & H1 & H2).
  apply move_anew in H1; [|exact P]. destruct H1 as (FO & T0 & F0). rewrite ticks in H2. inversion H2; subst b' clip'. clear H2.
  assert (B0 : beats b1 0 0).
  { left. exists 0%R. rewrite F0, T0. split; [lia|]. split; [exact fin_0|]. split; [lra|]. replace (0 + 0 / 2 - 0)%R with 0%R by lra. rewrite Rabs_R0. lra. }
  destruct (ticks_beat dts rs b1 0 0 F ltac:(lra) ltac:(lra) B0) as (B & S0). rewrite !Rplus_0_l in B.
  destruct (beats_lit _ _ _ B (pos_INR _) S0) as (time & E & L). exists time. split; [exact E|].
  intros vars gi si image fm px py out H. destruct (shows_mark _ _ _ _ _ _ _ _ _ _ _ H) as (text & mark & D & EQ & M). exists text, mark. split; [exact D|]. split; [exact EQ|].
  destruct (ticks_keep dts b1) as (FK & _). rewrite FK, FO in M. cbn [andb] in M. split; intros X.
  - apply L in X. rewrite X in M. exact M.
  - destruct (Z.even _) eqn:EV; [exfalso; apply X, L; reflexivity|exact M].
Qed.
Print Assumptions C92_blink.

(** An arrow key, then sixty frames of a sixty-fourth of a second: hidden.  Ten frames of half a
    second: seen. *)
Definition sixty_fourth : f32 := f32_div f32_1 (f32_of_Z 64).
Definition e_show := show_box no_aids letter rim 0 sample_metrics 100 XLeft 5 20.
Definition seen (o : outcome (box * option (list Z))) : outcome (option (Q * Q * Q)) :=
  do (b, _) <- o; do out <- e_show b;
  Ok (option_map (fun d => (Qred (r_x (dr_rect d)), Qred (r_y (dr_rect d)), Qred (r_h (dr_rect d)))) (find (fun d => dr_image d =? 0) out)).
Example C92_used : forall x, In x [half; sixty_fourth] -> exists r, fin x r /\ (0 <= r <= 1048576)%R.
Proof.
  pose proof fin_half as H. intros x [<-|[<-|[]]]; [exists (/ 2)%R; split; [exact H|lra]|]. exists (/ 64)%R. split; [|lra].
  split; [reflexivity|]. split; [reflexivity|]. vm_compute. lra.
Qed.
Example C92_seen : let at_a := [CReplace [97]; CPress 0 5 false 0; KRight false false] in
  seen (e_steps (fresh true true, None) at_a) = Ok (Some (15%Q, 20%Q, 10%Q)) /\
  seen (e_steps (fresh true true, None) (at_a ++ map CTick (repeat sixty_fourth 60))) = Ok None /\
  seen (e_steps (fresh true true, None) (at_a ++ map CTick (repeat half 10))) = Ok (Some (15%Q, 20%Q, 10%Q)) /\
  seen (e_steps (fresh true true, None) (at_a ++ map CTick (repeat half 10) ++ [CAway])) = Ok None.
Proof. repeat split; vm_compute; reflexivity. Qed.

(** After every history of a box (C44) in which there is text the picture can be drawn: the
    layout of that text in plain black, and after it, if the box has the focus, at most a black
    bar one pixel wide where the layout has the caret of the cursor.
    Full statement: also when all text has been deleted. *)
Theorem C92_place_partial : forall w al build strip tall B following preceding decode white editable multi t clip cs,
  good_stops B following preceding -> good_layouts (build false) B -> drawable (build false) -> valid_utf8 t -> size t < 2 ^ 31 - 1 ->
  match clip with Some s => valid_utf8 s | None => True end ->
  allowed_all w al (build false) B following decode white (shows t editable multi) clip cs ->
  exists b clip', steps w al build strip tall following preceding decode white (fresh editable multi, clip) (CReplace t :: cs) = Ok (b, clip') /\
    (exists i, caret_of w al (build false) tall (tb_text b) (tb_cursor b) i /\
    (tb_text b <> [] -> forall vars gi si image fm px py, exists text mark,
      draw_formatted vars gi si image fm (build false (tb_text b)) (plain_views (size (tb_text b))) px py w al (tb_anchor b) (tb_cursor b) = Ok text /\
      show_box vars gi si image fm w al px py b = Ok (text ++ mark) /\
      (mark = [] \/ (v_focused (view_of b) = true /\ bar image (px + ci_x i) (py + ci_y i) (ci_height i) mark)))).
Proof.
  intros w al build strip tall B following preceding decode white editable multi t clip cs GS GL DR V SZ CV AL.
  destruct (fresh_ready w al build strip tall B GL editable multi t V SZ) as (b0 & E0 & R0 & V0).
  rewrite <- V0 in AL. destruct (steps_ok w al build strip tall B following preceding decode white GS GL cs b0 clip R0 CV AL) as (b & clip' & E & R & _).
  exists b, clip'. split; [cbn [steps step]; rewrite E0; cbn [obind]; exact E|].
  destruct R as (_ & (VB & SB & _) & ((_ & KC) & L & L0)). cbn [view_of v_text] in VB, SB. exists (tb_info b). split.
  { unfold caret_of. destruct (tb_text b) eqn:ET; [rewrite L0 by reflexivity; repeat split; reflexivity|]. apply L. discriminate. }
  intros NE vars gi si image fm px py. destruct (L NE) as (EL & EC). destruct (DR _ VB NE SB) as (d & y & OKD & ST & IN & RO & MO).
  assert (TF : tables_for (size (tb_text b)) {| ft_color := [(size (tb_text b), text_color)]; ft_stroke := [(size (tb_text b), no_stroke)];
    ft_strike := [(size (tb_text b), false)]; ft_under := [(size (tb_text b), false)] |}).
  { assert (0 <= size (tb_text b)) by (unfold size; lia).
    assert (ONE : forall T (x : T), table_for (size (tb_text b)) [(size (tb_text b), x)]).
    { intros T x. split; [discriminate|]. split; [unfold sorted; repeat constructor|]. split; [reflexivity|]. intros q [<-|[]]. cbn [fst]. lia. }
    unfold tables_for. cbn [ft_color ft_stroke ft_strike ft_under]. auto. }
  assert (SEL : exists sel, selects (tb_anchor b) (tb_cursor b) sel).
  { destruct (cp_is_valid (tb_anchor b)) eqn:VA; eexists; [right|left]; split; try exact VA; reflexivity. }
  destruct SEL as (sel & SEL).
  destruct (C91_screen_partial vars gi si image fm _ _ d y w al (build false (tb_text b)) px py (tb_anchor b) (tb_cursor b) sel TF OKD ST IN RO MO SEL) as (calls & boxes & pieces & aids & _ & D & _).
  assert (SH : exists out, show_box vars gi si image fm w al px py b = Ok out).
  { unfold show_box, render_box. rewrite KC, EL. unfold size in D. unfold views_of in D. cbn [ft_color ft_stroke ft_strike ft_under] in D. unfold plain_views.
    unfold draw_formatted in *. eexists. setoid_rewrite D. cbn [obind]. reflexivity. }
  destruct SH as (out & SH). destruct (shows_mark _ _ _ _ _ _ _ _ _ _ _ SH) as (text & mark & DT & EQ & M). rewrite EL, KC in DT.
  exists text, mark. split; [exact DT|]. split; [rewrite SH, EQ; reflexivity|].
  destruct (tb_focused b) eqn:F; cbn [andb] in M; [|left; exact M]. destruct (Z.even (tb_flash b)); [|left; exact M]. right. split; [exact F|exact M].
Qed.
Print Assumptions C92_place_partial.

(** The conditions can be met. *)
Example C92_components : drawable (e_build false).
Proof.
  intros t V NE SZ. assert (P : 0 < size t) by (unfold size; destruct t; [congruence|cbn [List.length]; lia]). exists (e_doc t), 0%Q.
  split; [apply e_doc_ok|]. split; [apply stored_layout; apply e_doc_ok|]. split; [|split].
  - constructor; [|constructor]. unfold run_in_text. cbn. split; [lia|]. repeat constructor; cbn; lia.
  - constructor; [|constructor]. unfold run_ok, logical_chars, run_chars. cbn. split; [lia|]. split; [lia|]. split; [lia|]. split; [constructor; [lia|constructor]|]. split; [reflexivity|exact I].
  - constructor; [|constructor]. cbn. split; [|exact I]. unfold Qle. cbn. lia.
Qed.

(** Typing does not bring the caret back: the letter typed while it is hidden is on the
    screen, and the caret is not. *)
Theorem C92_typing_refuted : exists b clip b',
  e_steps (fresh true true, None) [CReplace [97]; CPress 0 5 false 0; CTick half] = Ok (b, clip) /\ seen (Ok (b, clip)) = Ok None /\
  e_steps (b, clip) [CType 98] = Ok (b', clip) /\ tb_text b' = [98; 97] /\ v_focused (view_of b') = true /\ seen (Ok (b', clip)) = Ok None.
Proof. do 3 eexists. split; [vm_compute; reflexivity|]. split; [vm_compute; reflexivity|]. split; [vm_compute; reflexivity|]. repeat split; vm_compute; reflexivity. Qed.
Print Assumptions C92_typing_refuted.

(** When the last character is deleted the layout stays and the formatting is that of no text:
    drawing the next frame reads behind the end of the table of colours. *)
Theorem C92_erased_refuted : exists b clip,
  e_steps (fresh true true, None) [CReplace [97]; CPress 0 5 false 0] = Ok (b, clip) /\ (exists out, e_show b = Ok out) /\
  exists b', e_steps (b, clip) [KDelete false] = Ok (b', clip) /\ tb_text b' = [] /\ e_show b' = UB.
Proof.
  do 2 eexists. split; [vm_compute; reflexivity|]. split; [eexists; vm_compute; reflexivity|]. eexists. split; [vm_compute; reflexivity|]. split; vm_compute; reflexivity.
Qed.
Print Assumptions C92_erased_refuted.
