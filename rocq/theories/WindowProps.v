(** C82-C84: menu items and their settings, selecting with the mouse, window layout. *)
From Coq Require Import Lqa.
From Verif Require Import Base UiModel UiSpec UiProofs WindowModel WindowSpec WindowProofs.
Open Scope nat_scope.
Open Scope list_scope.

Lemma make_tray_off n j : j < n -> exists it, nth_error (t_items (make_tray n)) j = Some it /\ i_selected it = false /\ i_setting it = false.
Proof.
  induction n as [|n IH]; [lia|]. intros H. destruct (make_tray_rows n) as [[L _] _]. cbn [make_tray add_item t_items]. destruct (Nat.eq_dec j n) as [->|N].
  - rewrite nth_error_app2, L, Nat.sub_diag by lia. eexists. split; [reflexivity|auto].
  - rewrite nth_error_app1 by lia. apply IH. lia.
Qed.
Lemma start_shape menus width box : wshape menus box (make_window width box menus).
Proof.
  split; [apply make_shape|]. split; [|reflexivity]. cbn. destruct (make_bar_laid width (map fst menus)) as (_ & _ & L & _).
  rewrite (@laid_length _ _ _ L), !map_length. reflexivity.
Qed.

(** Every setting shows whether its item was pressed an odd number of times, and the item's
    check mark shows the same, whatever the mouse does. *)
Theorem C82_settings : forall width box menus x0 y0 es i j len count,
  nth_error menus i = Some (len, count) -> j < count ->
  let '(w, log) := window_run (make_window width box menus) x0 y0 es in
  exists t it, nth_error (w_trays w) i = Some t /\ nth_error (t_items t) j = Some it /\
    i_selected it = Nat.odd (pressed i j log) /\ i_setting it = Nat.odd (pressed i j log).
Proof.
  intros width box menus x0 y0 es i j len count M J. assert (S : switch (make_window width box menus) i j false).
  { destruct (make_tray_off count j J) as (it & H & H1 & H2). exists (make_tray count), it. cbn. rewrite nth_error_map, M. auto. }
  pose proof (window_switch es x0 y0 S) as R. destruct (window_run _ x0 y0 es) as [w log]. cbn [fst snd] in R. rewrite xorb_false_l in R. exact R.
Qed.
Print Assumptions C82_settings.

(** Who takes a press or a release: the item of the open menu under the mouse, else the menu
    under it, else the text box.  Missing: the mouse exactly on the line between two menus
    (C66). *)
Theorem C82_takes_partial : forall width box menus x0 y0 es,
  Forall (fun e => e <= width)%Q (edges 0 (map fst menus)) -> off_edges (map fst menus) x0 ->
  Forall (fun e => match e with WMove x _ => off_edges (map fst menus) x | _ => True end) es ->
  snd (window_run (make_window width box menus) x0 y0 es) = goes menus box None x0 y0 es.
Proof.
  intros width box menus x0 y0 es Fit E F. apply window_log with (width := width); [exact Fit| |exact F]. destruct (make_bar_laid width (map fst menus)) as (W & O & L & C).
  split; [split; [exact W|]; split; [exact L|]; split; [intros _; exact C|]; cbn; rewrite O; discriminate|]. split; [exact O|]. split; [exact E|apply start_shape].
Qed.
Print Assumptions C82_takes_partial.

(** Items and the text box do not disturb the menus: they open and close as if only the bar
    were there (C66 says how), and an item's menu stays open. *)
Theorem C82_menus_undisturbed : forall width box menus x0 y0 es,
  w_bar (fst (window_run (make_window width box menus) x0 y0 es)) = bar_run (make_bar width (map fst menus)) x0 y0 (bar_events es).
Proof. intros. apply (@window_bar menus box). apply start_shape. Qed.
Print Assumptions C82_menus_undisturbed.

(** The items of a menu lie inside its tray, which is 171 pixels wide and begins under the
    menu, and two items share at most the line between them. *)
Theorem C82_tray_holds_items : forall n j it left_ x y, nth_error (t_items (make_tray n)) j = Some it -> in_item left_ x y it = true ->
  within left_ 20 171 (t_height (make_tray n)) x y = true /\
  (forall k it', nth_error (t_items (make_tray n)) k = Some it' -> j < k -> in_item left_ x y it' = true ->
     k = S j /\ (y == 23 + 22 * inject_Z (Z.of_nat k))%Q).
Proof.
  intros n j it left_ x y J H. destruct (make_tray_rows n) as [[L R] Ht]. destruct (R j it J) as [Ej _]. apply in_item_iff in H. pose proof (inj_nonneg j).
  assert (Jn : j < n) by (rewrite <- L; apply nth_error_Some; congruence).
  assert (IJ : (inject_Z (Z.of_nat j) + 1 <= inject_Z (Z.of_nat n))%Q) by (rewrite <- inj_S; apply inj_le; lia). split.
  - unfold within. rewrite !andb_true_iff, !Qle_bool_iff. repeat split; lra.
  - intros k it' K JK H'. destruct (R k it' K) as [Ek _]. apply in_item_iff in H'.
    assert (A : (inject_Z (Z.of_nat k) <= inject_Z (Z.of_nat j) + 1)%Q) by lra. rewrite <- inj_S, <- Zle_Qle in A. assert (k = S j) as -> by lia. split; [reflexivity|].
    rewrite inj_S in Ek |- *. lra.
Qed.
Print Assumptions C82_tray_holds_items.

(** The sample's window: "Format" with one item, "View" with three.  Opening "View", the
    second item is pressed twice and the third once. *)
Definition sample_menus : list (nat * nat) := [(6, 1); (4, 3)].
Definition sample_box : Q * Q * Q * Q := (10, 20, 620, 470)%Q.
Definition sample_events : list wmouse :=
  [WMove 70 5; WPress First; WRelease First; WMove 100 50; WPress First; WRelease First; WPress First; WMove 100 88; WPress First; WPress Other; WMove 300 300; WPress First; WRelease First; WAway].
Example settings_case :
  Forall (fun e => e <= 640)%Q (edges 0 (map fst sample_menus)) /\ off_edges (map fst sample_menus) 0 /\
  Forall (fun e => match e with WMove x _ => off_edges (map fst sample_menus) x | _ => True end) sample_events /\
  let '(w, log) := window_run (make_window 640 sample_box sample_menus) 0 0 sample_events in
  map (fun t => map i_setting (t_items t)) (w_trays w) = [[false]; [false; false; true]] /\
  pressed 1 1 log = 2 /\ map m_open (b_menus (w_bar w)) = [false; true] /\
  map snd log = [OnMenu 1; OnMenu 1; OnItem 1 1; OnItem 1 1; OnItem 1 1; OnItem 1 2; OnItem 1 2; OnBox; OnNothing; OnNothing].
Proof.
  split; [repeat constructor; unfold Qle; cbn; lia|]. split; [repeat constructor; unfold Qeq; cbn; lia|].
  split; [repeat constructor; unfold Qeq; cbn; lia|]. vm_compute. auto.
Qed.

(** A press on the border of an open tray, where it is drawn over the text box, goes to the text
    box: the cursor is set behind the menu. *)
Theorem C82_border_refuted : exists es x y, within 60 20 171 (t_height (make_tray 3)) x y = true /\
  let '(w, log) := window_run (make_window 640 sample_box sample_menus) x y es in
  map m_open (b_menus (w_bar w)) = [false; true] /\ last (map snd log) OnNothing = OnBox.
Proof. exists [WMove 70 5; WPress First; WMove 230 50; WPress First], 230%Q, 50%Q. vm_compute. auto. Qed.
Print Assumptions C82_border_refuted.

(** The text box selects with the mouse from a press in it until the button is released
    somewhere, something else is pressed or the window loses the focus.  Missing: releases
    over a menu or an item. *)
Theorem C83_selecting_partial : forall width box menus x0 y0 es,
  let '(w, log) := window_run (make_window width box menus) x0 y0 es in
  Forall (fun et => fst et = WRelease First -> snd et = OnNothing) log -> w_drag w = held log.
Proof.
  intros width box menus x0 y0 es. pose proof (@drag_run es (make_window width box menus) x0 y0) as D. destruct (window_run _ x0 y0 es) as [w log].
  intros F. apply D; [cbn; discriminate|exact F].
Qed.
Print Assumptions C83_selecting_partial.
Example selecting_case : forall b : bool,
  let '(w, log) := window_run (make_window 640 sample_box sample_menus) 0 0 ([WMove 100 100; WPress First; WMove 200 100; WPress Other] ++ if b then [] else [WRelease First]) in
  Forall (fun et => fst et = WRelease First -> snd et = OnNothing) log /\ held log = b.
Proof. intros []; vm_compute; (split; [repeat constructor; discriminate || reflexivity|reflexivity]). Qed.

(** When the button is released over a menu, the menu takes the event and the text box goes on
    selecting with no button down. *)
Theorem C83_release_refuted : exists es, let '(w, log) := window_run (make_window 640 sample_box sample_menus) 0 0 es in
  w_drag w = true /\ w_focused w = true /\ last (map fst log) WAway = WRelease First /\ held log = false.
Proof. exists [WMove 100 100; WPress First; WMove 30 5; WRelease First]. vm_compute. auto. Qed.
Print Assumptions C83_release_refuted.

(** After any history of resizes the container and the viewport have the window's size, the
    bar spans the top of the window and the text box begins under it, 10 pixels from both
    sides. *)
Theorem C84_layout_partial : forall sizes, let l := layout_after sizes in let '(w, h) := last sizes (640, 480)%Z in
  la_w l = inject_Z w /\ la_h l = inject_Z h /\ la_view l = (w, h) /\
  exists bar_ box, named "ToolBar" l = Some bar_ /\ named "TextBox" l = Some box /\
    (r_x bar_ == 0 /\ r_y bar_ == 0 /\ r_w bar_ == inject_Z w)%Q /\
    (r_x box == 10 /\ r_x box + r_w box == inject_Z w - 10 /\ r_y box == r_y bar_ + r_h bar_)%Q.
Proof.
  intros sizes. pose proof (layout_children sizes) as H. cbv zeta. destruct (last sizes (640, 480)%Z) as [w h]. rewrite H. cbn [la_w la_h la_view].
  do 3 (split; [reflexivity|]). eexists. eexists. split; [reflexivity|]. split; [reflexivity|]. cbn. repeat split; try reflexivity; ring.
Qed.
Print Assumptions C84_layout_partial.
Example layout_case : last [(800, 600); (1024, 768)]%Z (640, 480)%Z = (1024, 768)%Z /\
  exists b, named "TextBox" (layout_after [(800, 600); (1024, 768)]%Z) = Some b /\ (r_w b == 1004)%Q.
Proof. split; [reflexivity|]. eexists. split; reflexivity. Qed.

(** From the first frame on the text box ends 10 pixels below the bottom of the window instead of
    10 above it: the height set on resizing leaves out the bar's. *)
Theorem C84_bottom_refuted : forall sizes, exists box, named "TextBox" (layout_after sizes) = Some box /\
  (r_y box + r_h box == la_h (layout_after sizes) + 10)%Q.
Proof.
  intros sizes. pose proof (layout_children sizes) as H. destruct (last sizes (640, 480)%Z) as [w h]. rewrite H. eexists. split; [reflexivity|]. cbn. ring.
Qed.
Print Assumptions C84_bottom_refuted.
