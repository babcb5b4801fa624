(** C63-C66: the UI container's drawing state, focus, click counts and menus. *)
From Verif Require Import Base UiModel UiSpec UiProofs.

(** Whatever was bound before the frame, every rectangle is shown with its own texture,
    pipeline and the container's size, also when the atlas creates textures meanwhile. *)
Theorem C63_draws : forall D sz g (qs : list (request D)), creates_new [] qs -> render sz g qs = wanted sz qs.
Proof. intros D sz g qs C. unfold render. eapply draw_all_ok; [exact C| |]; cbn; discriminate. Qed.
Print Assumptions C63_draws.

(** A frame that switches texture and pipeline, with a glyph that cannot be shown and a
    texture created on the way. *)
Example frame_case :
  let q n t p x := {| q_new := n; q_texture := t; q_pipeline := p; q_data := x |} in
  let qs := [q false (Some 7) 0 10; q false (Some 7) 1 11; q true (Some 8) 1 12; q false None 0 13; q false (Some 7) 1 14] in
  creates_new [] qs /\ length (wanted (1, 1)%Q qs) = 4.
Proof. cbn. split; [|reflexivity]. repeat (split; [intros X; try discriminate X; intros [Y|[Y|Y]]; try discriminate Y; destruct Y|]). exact I. Qed.

(** At all times the object that was last given the focus, and no other, says that it is
    focused, and the objects are told of every change, first the one that loses the focus. *)
Theorem C64_focus : forall es, sane (rev es) -> clicks_valid es ->
  let '(u, ns, _) := ui_run ui_start es in
  (forall o, exists_after (rev es) o -> (u_flag u o = true <-> focus_after (rev es) = Some o)) /\
  locked u = focus_after (rev es) /\ ns = notes_of (rev es).
Proof.
  intros es S V. pose proof (@ui_run_ok es S V) as R. destruct (ui_run ui_start es) as [[u ns] cs]. destruct R as ((L & F & G & K) & N & C).
  split; [|split; [exact F|exact N]]. intros o Ho. rewrite (G _ Ho). destruct (focus_after (rev es)) as [p|]; [|split; discriminate].
  rewrite Nat.eqb_eq. split; [intros ->; reflexivity|]. intros H. injection H as ->. reflexivity.
Qed.
Print Assumptions C64_focus.

(** The number of a click within its series. *)
Theorem C65_clicks : forall es, sane (rev es) -> clicks_valid es ->
  let '(_, _, cs) := ui_run ui_start es in cs = click_counts (rev es).
Proof.
  intros es S V. pose proof (@ui_run_ok es S V) as R. destruct (ui_run ui_start es) as [[u ns] cs]. destruct R as (_ & _ & C). exact C.
Qed.
Print Assumptions C65_clicks.

(** Three objects, one of which ends while it has the focus; a double click and a slow one. *)
Example history_case :
  let es := [Press (Some 1); Click 4 1%Q; Press (Some 1); Click 4 (5 # 4)%Q; Click 4 2%Q; Press (Some 2); Destroy 2; Press (Some 3); Release; Press None] in
  sane (rev es) /\ clicks_valid es /\
  notes_of (rev es) = [Focused 1; Lost 1; Focused 2; Focused 3; Lost 3] /\ click_counts (rev es) = [0; 1; 0]%Z.
Proof.
  cbn. split; [unfold exists_after; cbn; repeat split; intuition discriminate|]. split; [repeat constructor; lia|]. split; reflexivity.
Qed.

(** While the mouse keeps off the lines between two menus, at most one menu is open, and one
    is open exactly when the bar says so. *)
Theorem C66_one_open_partial : forall width names x0 y0 es,
  Forall (fun e => e <= width)%Q (edges 0 names) -> off_edges names x0 ->
  Forall (fun e => match e with Moved x _ => off_edges names x | Pressed => True end) es ->
  let b := bar_run (make_bar width names) x0 y0 es in
  open_menus b <= 1 /\ (open_menus b = 1 <-> b_open b = true).
Proof.
  intros width names x0 y0 es Fit E0 E. cbv zeta.
  destruct (@bar_run_inv names width es Fit (make_bar width names) x0 y0) as (x & y & I); [|exact E0|exact E|].
  - destruct (make_bar_laid width names) as (W & O & L & F). split; [exact W|]. split; [exact L|]. split; [intros _; exact F|]. rewrite O. discriminate.
  - rewrite (bar_inv_count I). destruct (b_open _); split; try lia; split; intros; (reflexivity || discriminate || lia).
Qed.
Print Assumptions C66_one_open_partial.

(** Which one: pressing a menu opens or closes it, and while one is open it follows the
    mouse. *)
Theorem C66_which_partial : forall width names x0 y0 es,
  Forall (fun e => e <= width)%Q (edges 0 names) -> off_edges names x0 ->
  Forall (fun e => match e with Moved x _ => off_edges names x | Pressed => True end) es ->
  map m_open (b_menus (bar_run (make_bar width names) x0 y0 es)) =
  map (fun j => match menu_open names None x0 y0 es with Some k => j =? k | None => false end) (seq 0 (length names)).
Proof.
  intros width names x0 y0 es Fit E0 E. destruct (make_bar_laid width names) as (W & O & L & F).
  assert (I0 : bar_inv names width (make_bar width names) x0 y0) by (split; [exact W|]; split; [exact L|]; split; [intros _; exact F|]; rewrite O; discriminate).
  pose proof (@run_shows names width es Fit _ x0 y0 None I0 E0 O E) as S. destruct (@bar_run_inv names width es Fit _ x0 y0 I0 E0 E) as (x & y & _ & L' & C & _).
  rewrite <- (@laid_length _ _ _ L'). destruct (menu_open names None x0 y0 es) as [k|]; [apply only_map, S|].
  specialize (C S). clear - C. revert C. generalize (b_menus (bar_run (make_bar width names) x0 y0 es)). generalize 0. intros a l. revert a.
  induction l as [|m l IH]; intros a C; [reflexivity|]. inversion C as [|? ? C1 C2]; subst. cbn [map length seq]. rewrite C1. f_equal. apply IH, C2.
Qed.
Print Assumptions C66_which_partial.

(** The sample's bar with its menus "Format" and "View": from one menu to the other. *)
Example menus_case : let b := bar_run (make_bar 800 [6; 4]) 0 0 [Moved 30 5; Pressed; Moved 70 5] in
  map m_open (b_menus b) = [false; true] /\ off_edges [6; 4] 30 /\ off_edges [6; 4] 70 /\ Forall (fun e => e <= 800)%Q (edges 0 [6; 4]).
Proof.
  cbn. split; [reflexivity|]. split; [repeat constructor; unfold Qeq; cbn; lia|]. split; [repeat constructor; unfold Qeq; cbn; lia|].
  repeat constructor; unfold Qle; cbn; lia.
Qed.

(** On the line between them, moving picks the first and pressing the second: two menus end
    up open. *)
Theorem C66_edge_refuted : exists es, open_menus (bar_run (make_bar 800 [6; 4]) 0 0 es) = 2.
Proof. exists [Moved 60 5; Pressed; Moved 60 6; Pressed; Pressed]. reflexivity. Qed.
Print Assumptions C66_edge_refuted.
