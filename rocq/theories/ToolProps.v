(** C100-C101: how the tool bar of the sample program looks. *)
From Coq Require Import Lqa.
From Verif Require Import Base UiModel UiSpec UiProofs WindowModel WindowSpec WindowProofs.
From Verif Require Import ClipModel GlModel ShaderModel ShaderSpec ShaderProofs ToolModel ToolSpec ToolProofs.
Open Scope nat_scope.
Open Scope list_scope.

Lemma run_inv width box menus x0 y0 x1 y1 es :
  Forall (fun e => e <= width)%Q (edges 0 (map fst menus)) -> off_edges (map fst menus) x0 ->
  Forall (fun e => match e with WMove x _ => off_edges (map fst menus) x | _ => True end) (WMove x1 y1 :: es) ->
  let '(x, y) := mouse_after x0 y0 (WMove x1 y1 :: es) in
  vinv menus width box (view_run (make_view width box menus) x0 y0 (WMove x1 y1 :: es)) (menu_open (map fst menus) None x0 y0 (bar_events (WMove x1 y1 :: es))) x y.
Proof.
  intros Fit E F. inversion F as [|? ? F1 F2]; subst. cbn [mouse_after view_run bar_events flat_map bar_event app menu_open].
  apply (@view_inv menus width box Fit es _ None x1 y1); [|exact F2]. exact (@first_move menus width box Fit x0 y0 x1 y1 E F1).
Qed.

Lemma run_on width box menus x0 y0 x1 y1 es :
  Forall (fun e => e <= width)%Q (edges 0 (map fst menus)) -> off_edges (map fst menus) x0 ->
  Forall (fun e => match e with WMove x _ => off_edges (map fst menus) x | _ => True end) (WMove x1 y1 :: es) ->
  forall o t k it, nth_error (w_trays (vw_window (view_run (make_view width box menus) x0 y0 (WMove x1 y1 :: es)))) o = Some t ->
    nth_error (t_items t) k = Some it -> i_selected it = Nat.odd (pressed o k (goes menus box None x0 y0 (WMove x1 y1 :: es))).
Proof.
  intros Fit E F o t k it Ht Hit. pose proof (@run_inv width box menus x0 y0 x1 y1 es Fit E F) as I.
  set (v := view_run (make_view width box menus) x0 y0 (WMove x1 y1 :: es)) in *.
  destruct (mouse_after x0 y0 (WMove x1 y1 :: es)) as [x y].
  assert (Wv : vw_window v = fst (window_run (make_window width box menus) x0 y0 (WMove x1 y1 :: es))) by apply view_window.
  assert (Lg : snd (window_run (make_window width box menus) x0 y0 (WMove x1 y1 :: es)) = goes menus box None x0 y0 (WMove x1 y1 :: es)).
  { apply (@window_log menus width box Fit); [apply start_winv, E|exact F]. }
  assert (Lt : exists len count, nth_error menus o = Some (len, count) /\ k < count).
  { destruct I as ((_ & _ & _ & ([Ls Sh] & _)) & _). pose proof (Sh o t Ht) as [R1 _].
    assert (Lo : o < List.length menus) by (rewrite map_length in Ls; rewrite <- Ls; apply nth_error_Some; congruence).
    destruct (nth_error menus o) as [[len count]|] eqn:Mo; [|apply nth_error_None in Mo; lia].
    rewrite (nth_error_nth _ _ 0 (map_nth_error snd _ _ Mo)) in R1. exists len, count. split; [reflexivity|]. cbn in R1. rewrite <- R1. apply nth_error_Some. congruence. }
  destruct Lt as (len & count & Mo & Kc).
  assert (S0 : switch (make_window width box menus) o k false).
  { destruct (make_tray_rows count) as [[Lc _] _]. destruct (nth_error (t_items (make_tray count)) k) as [q|] eqn:Q; [|apply nth_error_None in Q; lia].
    exists (make_tray count), q. cbn. rewrite nth_error_map, Mo. split; [reflexivity|]. split; [exact Q|]. exact (tray_off _ _ Q). }
  pose proof (window_switch (WMove x1 y1 :: es) x0 y0 S0) as (t' & it' & Ht' & Hit' & Es & _). rewrite Lg, xorb_false_l in Es. rewrite <- Wv in Ht'.
  rewrite Ht in Ht'. injection Ht' as <-. rewrite Hit in Hit'. injection Hit' as <-. exact Es.
Qed.

(** From the first movement of the mouse on, the open menu is marked as open; while none is
    open, the menu under the mouse is marked; nothing else is.  Missing: the mouse exactly on
    the line between two menus (refuted below). *)
Theorem C100_menus_partial : forall width box menus x0 y0 x1 y1 es,
  Forall (fun e => e <= width)%Q (edges 0 (map fst menus)) -> off_edges (map fst menus) x0 ->
  Forall (fun e => match e with WMove x _ => off_edges (map fst menus) x | _ => True end) (WMove x1 y1 :: es) ->
  let v := view_run (make_view width box menus) x0 y0 (WMove x1 y1 :: es) in
  let now := menu_open (map fst menus) None x0 y0 (bar_events (WMove x1 y1 :: es)) in
  let '(x, y) := mouse_after x0 y0 (WMove x1 y1 :: es) in
  map (fun oh => marked (fst oh) (snd oh)) (combine (map m_open (b_menus (w_bar (vw_window v)))) (vw_menus v))
  = map (mark_of (map fst menus) now x y) (seq 0 (List.length menus)).
Proof.
  intros width box menus x0 y0 x1 y1 es Fit E F v now. pose proof (@run_inv width box menus x0 y0 x1 y1 es Fit E F) as I.
  destruct (mouse_after x0 y0 (WMove x1 y1 :: es)) as [x y]. fold v now in I. pose proof (vinv_marks I) as M.
  destruct I as (((_ & L & _) & _) & Mn & _). pose proof (@laid_length _ _ _ L) as Len. rewrite map_length in Len.
  assert (Lm : List.length (vw_menus v) = List.length menus) by (rewrite Mn; unfold flags; rewrite map_length; exact Len).
  apply nth_ext with (d := Plain) (d' := Plain); [rewrite !map_length, combine_length, map_length, seq_length; lia|].
  intros k K. rewrite map_length, combine_length, map_length in K.
  rewrite (nth_indep _ Plain (marked false false)) by (rewrite map_length, combine_length, map_length; lia).
  rewrite (map_nth (fun oh => marked (fst oh) (snd oh)) _ (false, false)), combine_nth by (rewrite map_length; lia). cbn [fst snd]. rewrite M by lia.
  rewrite (nth_indep _ Plain (mark_of (map fst menus) now x y 0)) by (rewrite map_length, seq_length; lia).
  rewrite map_nth, seq_nth by lia. reflexivity.
Qed.
Print Assumptions C100_menus_partial.

(** The sample's menus.  "View" is entered, opened and left for its second item; then "Format"
    is entered and closed by a press. *)
Definition menus2 : list (nat * nat) := [(6, 1); (4, 3)].
Definition box2 : Q * Q * Q * Q := (10, 20, 620, 470)%Q.
Definition shown (es : list wmouse) : list mark * list (list bool) :=
  let v := view_run (make_view 640 box2 menus2) 0 0 es in
  (map (fun oh => marked (fst oh) (snd oh)) (combine (map m_open (b_menus (w_bar (vw_window v)))) (vw_menus v)), vw_items v).
Example marks_case :
  Forall (fun e => e <= 640)%Q (edges 0 (map fst menus2)) /\ off_edges (map fst menus2) 0 /\
  Forall (fun e => match e with WMove x _ => off_edges (map fst menus2) x | _ => True end) [WMove 70 5; WPress First; WMove 80 50; WMove 20 5; WPress First] /\
  shown [WMove 70 5] = ([Plain; Hovered], [[false]; [false; false; false]]) /\
  shown [WMove 70 5; WPress First] = ([Plain; Chosen], [[false]; [false; false; false]]) /\
  shown [WMove 70 5; WPress First; WMove 80 50] = ([Plain; Chosen], [[false]; [false; true; false]]) /\
  shown [WMove 70 5; WPress First; WMove 80 50; WMove 20 5] = ([Chosen; Plain], [[false]; [false; false; false]]) /\
  shown [WMove 70 5; WPress First; WMove 80 50; WMove 20 5; WPress First] = ([Hovered; Plain], [[false]; [false; false; false]]).
Proof.
  split; [repeat constructor; unfold Qle; cbn; lia|]. split; [repeat constructor; unfold Qeq; cbn; lia|].
  split; [repeat constructor; unfold Qeq; cbn; lia|]. vm_compute. auto 10.
Qed.

(** Whatever happens after the first movement, an item is lit exactly when the mouse is in
    its row. *)
Theorem C100_items : forall width box menus x0 y0 x1 y1 es i j len count,
  nth_error menus i = Some (len, count) -> j < count ->
  let '(x, y) := mouse_after x0 y0 (WMove x1 y1 :: es) in
  nth j (nth i (vw_items (view_run (make_view width box menus) x0 y0 (WMove x1 y1 :: es))) []) false
  = over_item (left_of (map fst menus) i) j x y.
Proof.
  intros width box menus x0 y0 x1 y1 es i j len count Hi Hj. cbn [mouse_after view_run].
  rewrite (surjective_pairing (mouse_after x1 y1 es)). rewrite items_run.
  apply (@start_items width box menus i j len count); [exact Hi|exact Hj].
Qed.
Print Assumptions C100_items.

(** On the line between two items both are lit, although a press there goes to the lower one
    only. *)
Theorem C100_line_refuted : exists es,
  nth 1 (snd (shown es)) [] = [true; true; false] /\
  snd (window_run (make_window 640 box2 menus2) 0 0 es) = [(WPress First, OnMenu 1); (WPress First, OnItem 1 1)].
Proof. exists [WMove 70 5; WPress First; WMove 80 45; WPress First]. vm_compute. auto. Qed.
Print Assumptions C100_line_refuted.
(** On the line between two menus both are marked. *)
Theorem C100_edge_refuted : exists x y, fst (shown [WMove x y]) = [Hovered; Hovered].
Proof. exists 60%Q, 5%Q. vm_compute. reflexivity. Qed.
Print Assumptions C100_edge_refuted.
(** Opening a menu on the line between two leaves the other one marked as if the mouse were
    over it, wherever the mouse goes as long as it stays off the bar: two menus are marked. *)
Theorem C100_stale_refuted : exists es, fst (shown es) = [Hovered; Chosen] /\ mouse_after 0 0 es = (300, 300)%Q.
Proof. exists [WMove 60 5; WPress First; WMove 300 300]. vm_compute. auto. Qed.
Print Assumptions C100_stale_refuted.

(** What the tool bar puts on the screen, pixel by pixel, over whatever was there: the line
    along its lower end, the buttons, and the tray of the open menu with the item under the
    mouse.  Every colour is laid over a pixel at most once.  Missing: the texts (where they
    go is said below), and the mouse exactly on the line between two menus. *)
Theorem C101_picture_partial : forall covers w h W box menus x0 y0 x1 y1 es fb i j,
  rasterizes covers -> (0 < w)%Z -> (0 < h)%Z -> (0 <= W)%Z -> Forall (fun n => 0 < n) (map fst menus) ->
  Forall (fun e => e <= inject_Z W)%Q (edges 0 (map fst menus)) -> off_edges (map fst menus) x0 ->
  Forall (fun e => match e with WMove x _ => off_edges (map fst menus) x | _ => True end) (WMove x1 y1 :: es) ->
  let v := view_run (make_view (inject_Z W) box menus) x0 y0 (WMove x1 y1 :: es) in
  let now := menu_open (map fst menus) None x0 y0 (bar_events (WMove x1 y1 :: es)) in
  let log := goes menus box None x0 y0 (WMove x1 y1 :: es) in
  let '(x, y) := mouse_after x0 y0 (WMove x1 y1 :: es) in
  same_rgba (draw_shapes covers w h fb (render_bar v) i j)
            (bar_pixel W menus now x y (fun m k => Nat.odd (pressed m k log)) i j (fb i j)).
Proof.
  intros covers w h W box menus x0 y0 x1 y1 es fb i j R Hw Hh Wp Nm Fit E F v now log.
  pose proof (@run_inv (inject_Z W) box menus x0 y0 x1 y1 es Fit E F) as I.
  destruct (mouse_after x0 y0 (WMove x1 y1 :: es)) as [x y]. fold v now in I.
  eapply trans_rgba; [apply (draw_shapes_coats R Hw Hh i j (vinv_sound Nm I (Qeq_refl _) Wp) fb)|].
  apply (@vinv_picture menus (inject_Z W) box Nm v now x y W (fun m k => Nat.odd (pressed m k log)) I (Qeq_refl _)).
  intros o t k it _ Ht Hit. exact (@run_on (inject_Z W) box menus x0 y0 x1 y1 es Fit E F o t k it Ht Hit).
Qed.
Print Assumptions C101_picture_partial.

(** "View" is open, its second item is switched on and under the mouse: some pixels of the
    picture over white, in 255ths. *)
Definition byte (q : Q) : Z := Qfloor (q * 255 + (1 # 2)).
Definition bytes (c : rgba) : Z * Z * Z := (byte (q_r c), byte (q_g c), byte (q_b c)).
Definition events2 : list wmouse := [WMove 70 5; WPress First; WMove 100 50; WPress First].
Example picture_case :
  Forall (fun n => 0 < n) (map fst menus2) /\
  Forall (fun e => e <= inject_Z 640)%Q (edges 0 (map fst menus2)) /\ off_edges (map fst menus2) 0 /\
  Forall (fun e => match e with WMove x _ => off_edges (map fst menus2) x | _ => True end) events2 /\
  let log := goes menus2 box2 None 0 0 events2 in
  map (fun p => bytes (bar_pixel 640 menus2 (menu_open (map fst menus2) None 0 0 (bar_events events2)) 100 50 (fun m k => Nat.odd (pressed m k log)) (fst p) (snd p) white_rgba))
    [(30, 5); (60, 5); (61, 5); (99, 18); (100, 18); (30, 19); (30, 20); (60, 20); (231, 60); (232, 60); (62, 46); (63, 45); (84, 66); (85, 66); (168, 60); (229, 60)]%Z
  = [(255, 255, 255); (153, 209, 255); (204, 232, 255); (146, 202, 247); (240, 240, 240); (240, 240, 240); (255, 255, 255); (204, 204, 204);
     (204, 204, 204); (255, 255, 255); (242, 242, 242); (86, 176, 250); (86, 176, 250); (145, 201, 247); (145, 201, 247); (242, 242, 242)]%Z.
Proof.
  split; [repeat constructor|]. split; [repeat constructor; unfold Qle; cbn; lia|]. split; [repeat constructor; unfold Qeq; cbn; lia|].
  split; [repeat constructor; unfold Qeq; cbn; lia|]. vm_compute. reflexivity.
Qed.

(** Which texts are drawn, where and in which order: the names of the menus on their
    buttons, the texts of the items of the open menu in their rows, and a check mark for
    every item switched on by an odd number of presses. *)
Theorem C101_texts_partial : forall width box menus x0 y0 x1 y1 es,
  Forall (fun e => e <= width)%Q (edges 0 (map fst menus)) -> off_edges (map fst menus) x0 ->
  Forall (fun e => match e with WMove x _ => off_edges (map fst menus) x | _ => True end) (WMove x1 y1 :: es) ->
  spots (render_bar (view_run (make_view width box menus) x0 y0 (WMove x1 y1 :: es)))
  = texts 0 0 menus (menu_open (map fst menus) None x0 y0 (bar_events (WMove x1 y1 :: es)))
      (fun m k => Nat.odd (pressed m k (goes menus box None x0 y0 (WMove x1 y1 :: es)))).
Proof.
  intros width box menus x0 y0 x1 y1 es Fit E F. pose proof (@run_inv width box menus x0 y0 x1 y1 es Fit E F) as I.
  destruct (mouse_after x0 y0 (WMove x1 y1 :: es)) as [x y]. apply (vinv_spots _ I).
  intros o t k it _ Ht Hit. exact (@run_on width box menus x0 y0 x1 y1 es Fit E F o t k it Ht Hit).
Qed.
Print Assumptions C101_texts_partial.
Example texts_case :
  spots (render_bar (view_run (make_view (inject_Z 640) box2 menus2) 0 0 events2)) =
  [(MenuName 0, (0, 0, 60, 19), true); (MenuName 1, (60, 0, 40, 19), true); (ItemText 1 0, (95, 23, 166, 22), false);
   (CheckMark 1 1, (63, 45, 22, 22), true); (ItemText 1 1, (95, 45, 166, 22), false); (ItemText 1 2, (95, 67, 166, 22), false)]%Z.
Proof. vm_compute. reflexivity. Qed.

(** A text stays on top: what is drawn after it leaves its area alone. *)
Theorem C101_texts_on_top_partial : forall covers w h W box menus x0 y0 x1 y1 es before l after fb i j,
  rasterizes covers -> (0 < w)%Z -> (0 < h)%Z -> (0 <= W)%Z -> Forall (fun n => 0 < n) (map fst menus) ->
  Forall (fun e => e <= inject_Z W)%Q (edges 0 (map fst menus)) -> off_edges (map fst menus) x0 ->
  Forall (fun e => match e with WMove x _ => off_edges (map fst menus) x | _ => True end) (WMove x1 y1 :: es) ->
  render_bar (view_run (make_view (inject_Z W) box menus) x0 y0 (WMove x1 y1 :: es)) = before ++ Label l :: after ->
  in_label l i j = true ->
  same_rgba (draw_shapes covers w h fb after i j) (fb i j).
Proof.
  intros covers w h W box menus x0 y0 x1 y1 es before l after fb i j R Hw Hh Wp Nm Fit E F Sp Il.
  pose proof (@run_inv (inject_Z W) box menus x0 y0 x1 y1 es Fit E F) as I.
  destruct (mouse_after x0 y0 (WMove x1 y1 :: es)) as [x y].
  pose proof (vinv_sound Nm I (Qeq_refl _) Wp) as Sd. rewrite Sp in Sd. apply Forall_app in Sd. destruct Sd as [_ Sd]. inversion Sd as [|? ? _ Sd']; subst.
  eapply trans_rgba; [apply (draw_shapes_coats R Hw Hh i j Sd' fb)|]. rewrite coats_none; [apply refl_rgba|].
  intros p Ip. exact (@clear_split _ (vinv_clear I) before l after p i j Sp Ip Il).
Qed.
Print Assumptions C101_texts_on_top_partial.
(** The name of the open menu: its tray is drawn after it. *)
Example on_top_case : exists before l after, lb_words l = MenuName 1 /\ in_label l 80 10 = true /\
  render_bar (view_run (make_view (inject_Z 640) box2 menus2) 0 0 events2) = before ++ Label l :: after /\ 7 <= List.length after.
Proof.
  set (ss := render_bar _). exists (firstn 4 ss), (match nth 4 ss (Label {| lb_words := MenuName 0; lb_x := 0; lb_y := 0; lb_w := 0; lb_h := 0; lb_centred := true |}) with Label l => l | _ => {| lb_words := MenuName 0; lb_x := 0; lb_y := 0; lb_w := 0; lb_h := 0; lb_centred := true |} end), (skipn 5 ss).
  vm_compute. repeat split; lia.
Qed.

(** The text of an item is given the full width of the item although it begins 32 pixels
    further right: its area, and a text long enough to fill it, reaches 29 pixels beyond the
    tray. *)
Theorem C101_overhang_refuted : exists l i j, In (Label l) (render_bar (view_run (make_view 640 box2 menus2) 0 0 events2)) /\
  lb_words l = ItemText 1 1 /\ in_label l i j = true /\
  in_label l (i - 28)%Z j = true /\ same_rgba (bar_pixel 640 menus2 (Some 1) 100 50 (fun _ _ => false) (i - 28)%Z j white_rgba) white_rgba.
Proof.
  exists {| lb_words := ItemText 1 1; lb_x := 60 + 0 + 3 + 32; lb_y := 0 + 20 + (27 - 3 + 1); lb_w := 166; lb_h := 22; lb_centred := false |}, 260%Z, 50%Z.
  split; [vm_compute; tauto|]. split; [reflexivity|]. split; [reflexivity|]. split; [reflexivity|]. vm_compute. auto.
Qed.
Print Assumptions C101_overhang_refuted.
