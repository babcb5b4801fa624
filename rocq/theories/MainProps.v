(** C105: the frames of the program. *)
From Coq Require Import ZArith QArith Reals Lia Lra.
From Verif Require Import Base BaseFacts FloatModel MainModel MainSpec.
From Flocq Require Import Core.Core IEEE754.BinarySingleNaN.
From Verif Require Import FloatRealProofs MainProofs LayoutModel CursorModel DrawModel ScreenModel TextBoxModel TextBoxSpec BlinkModel BlinkSpec BlinkProps UiModel WindowModel WindowProps.
Set Implicit Arguments.
Open Scope list_scope.
Open Scope Z_scope.

Lemma calls_app l l' : calls (l ++ l') = calls l ++ calls l'.
Proof. apply flat_map_app. Qed.
Lemma pictures_app l l' : pictures (l ++ l') = (pictures l + pictures l')%nat.
Proof. unfold pictures. rewrite filter_app, app_length. reflexivity. Qed.
Lemma callback_does b e : let '(a, c) := callback b e in calls a = reaction e /\ pictures a = 0%nat /\ (c = true <-> b = true \/ asks_end e).
Proof.
  destruct e as [k ? ? ? ?| | | |[|]| |]; cbn; try (repeat split; intuition congruence).
  unfold ESCAPE. destruct (Z.eqb_spec k 256); destruct (Z.eq_dec k 256); try contradiction; cbn; repeat split; intuition congruence.
Qed.
Lemma poll_does : forall es b, let '(a, c) := poll b es in calls a = reactions es /\ pictures a = 0%nat /\ (c = true <-> b = true \/ Exists asks_end es).
Proof.
  induction es as [|e es IH]; intros b; cbn [poll].
  - repeat split; try (intros; left; assumption). intros [H|H]; [exact H|inversion H].
  - pose proof (callback_does b e) as D. destruct (callback b e) as [a c]. destruct D as (D1 & D2 & D3). specialize (IH c). destruct (poll c es) as [a' c']. destruct IH as (I1 & I2 & I3).
    rewrite calls_app, pictures_app, D1, I1, D2, I2. split; [reflexivity|]. split; [reflexivity|]. rewrite I3, D3, Exists_cons. tauto.
Qed.
Lemma loop_step last f fs : exists a c, main_loop false last (f :: fs) = [Ui (Update (f64_to_f32 (f64_sub (f_time f) last)))] ++ MainModel.render ++ [Swap] ++ a ++ main_loop c (f_time f) fs /\
  calls a = reactions (f_events f) /\ pictures a = 0%nat /\ (c = true <-> Exists asks_end (f_events f)).
Proof.
  cbn [main_loop]. pose proof (poll_does (f_events f) false) as D. destruct (poll false (f_events f)) as [a c]. destruct D as (D1 & D2 & D3). exists a, c. repeat split; try assumption.
  - intros H. apply D3 in H. destruct H as [H|H]; [discriminate|exact H].
  - intros H. apply D3. right. exact H.
Qed.
Lemma loop_closed last fs : main_loop true last fs = [].
Proof. destruct fs; reflexivity. Qed.

(** The program shows one picture for each frame until the user asks it to end, with Escape or by
    closing the window, and none after.  The user interface is told of every event of these
    frames once, in the order in which they came, and of the time before every picture;
    nothing else. *)
Theorem C105_frames : forall start fs live, plays fs live ->
  let all := main start fs in
  pictures all = List.length live /\ calls all = SetSize 640 480 :: told start live /\
  heard all = SetSize 640 480 :: reactions (List.concat (map f_events live)) /\ updates all = deltas start (map f_time live).
Proof.
  assert (L : forall fs live, plays fs live -> forall start, pictures (main_loop false start fs) = List.length live /\ calls (main_loop false start fs) = told start live).
  { intros fs live P. induction P as [|f fs E|f fs live E P IH]; intros start; [split; reflexivity| |];
      destruct (loop_step start f fs) as (a & c & -> & D1 & D2 & D3); rewrite !pictures_app, !calls_app, D1, D2.
    - rewrite (proj2 D3 E), loop_closed. split; reflexivity.
    - assert (EC : c = false) by (destruct c; [exfalso; apply E, D3; reflexivity|reflexivity]). rewrite EC. destruct (IH (f_time f)) as (I1 & I2). rewrite I1, I2. split; reflexivity. }
  assert (R : forall e, filter (fun c => match c with Update _ => false | _ => true end) (reaction e) = reaction e /\ flat_map (fun c => match c with Update d => [d] | _ => [] end) (reaction e) = @nil f32).
  { intros [k ? ? ? ?| | | |[|]| |]; cbn; try (split; reflexivity). destruct (Z.eq_dec k 256); split; reflexivity. }
  assert (RS : forall es, filter (fun c => match c with Update _ => false | _ => true end) (reactions es) = reactions es /\ flat_map (fun c => match c with Update d => [d] | _ => [] end) (reactions es) = @nil f32).
  { induction es as [|e es [I1 I2]]; [split; reflexivity|]. unfold reactions in *. cbn [map List.concat]. rewrite filter_app, flat_map_app, I1, I2. destruct (R e) as [-> ->]. split; reflexivity. }
  intros start fs live P. cbv zeta. destruct (L _ _ P start) as (L1 & L2). unfold main, heard, updates. rewrite !pictures_app, !calls_app, L1, L2.
  change (pictures set_up) with 0%nat. change (pictures shut_down) with 0%nat. change (calls set_up) with [SetSize 640 480]. change (calls shut_down) with (@nil call). rewrite app_nil_r.
  split; [lia|]. split; [reflexivity|]. clear L L1 L2 P. cbn [app filter flat_map]. revert start. induction live as [|f live IH]; intros start; [split; reflexivity|].
  cbn [told]. rewrite app_comm_cons in *. destruct (RS (f_events f)) as [R1 R2]. destruct (IH (f_time f)) as (I1 & I2). split.
  - cbn [app filter]. rewrite filter_app, R1. inversion I1 as [I1']. rewrite I1'. cbn [map List.concat]. unfold reactions. rewrite map_app, concat_app. reflexivity.
  - cbn [app flat_map]. rewrite flat_map_app, R2, I2. reflexivity.
Qed.
Print Assumptions C105_frames.

(** The picture of each frame is drawn on white and shown at once, when all events of the frames
    before it have been handled and none of later ones, and after the user interface has been
    told the time of this frame. *)
Theorem C105_picture : forall start fs live k f, plays fs live -> nth_error live k = Some f ->
  exists pre post, main start fs = pre ++ [Clear 1 1 1 1; Draw; Swap] ++ post /\ pictures pre = k /\
    calls pre = SetSize 640 480 :: told start (firstn k live) ++ [Update (f64_to_f32 (f64_sub (f_time f) (List.last (map f_time (firstn k live)) start)))].
Proof.
  assert (L : forall fs live, plays fs live -> forall k f start, nth_error live k = Some f -> exists pre post, main_loop false start fs = pre ++ [Clear 1 1 1 1; Draw; Swap] ++ post /\ pictures pre = k /\
    calls pre = told start (firstn k live) ++ [Update (f64_to_f32 (f64_sub (f_time f) (List.last (map f_time (firstn k live)) start)))]).
  { intros fs live P. induction P as [|g fs E|g fs live E P IH]; intros k f start N; [destruct k; discriminate| |].
    - destruct k as [|[|k]]; [|discriminate|discriminate]. inversion N; subst. destruct (loop_step start f fs) as (a & c & -> & _).
      exists [Ui (Update (f64_to_f32 (f64_sub (f_time f) start)))]. eexists. split; [reflexivity|]. split; reflexivity.
    - destruct (loop_step start g fs) as (a & c & -> & D1 & D2 & D3). assert (EC : c = false) by (destruct c; [exfalso; apply E, D3; reflexivity|reflexivity]). rewrite EC. destruct k as [|k].
      + inversion N; subst. exists [Ui (Update (f64_to_f32 (f64_sub (f_time f) start)))]. eexists. split; [reflexivity|]. split; reflexivity.
      + destruct (IH k f (f_time g) N) as (pre & post & EQ & EP & ECA). rewrite EQ.
        exists ([Ui (Update (f64_to_f32 (f64_sub (f_time g) start)))] ++ MainModel.render ++ [Swap] ++ a ++ pre), post. split; [rewrite <- !app_assoc; reflexivity|].
        rewrite !pictures_app, !calls_app, D1, D2, EP, ECA. split; [reflexivity|]. cbn [firstn told map]. cbn [calls flat_map MainModel.render app]. f_equal. rewrite app_assoc. f_equal. f_equal. f_equal. f_equal. f_equal.
        generalize (f_time g). generalize (map f_time (firstn k live)). clear. intros l. revert start. induction l as [|x l IHl]; intros; [reflexivity|]. cbn [List.last]. destruct l; [reflexivity|]. apply IHl. }
  intros start fs live k f P N. destruct (L _ _ P k f start N) as (pre & post & EQ & EP & EC). exists (set_up ++ pre), (post ++ shut_down). split.
  - unfold main. rewrite EQ, <- !app_assoc. reflexivity.
  - rewrite pictures_app, calls_app, EP, EC. split; reflexivity.
Qed.
Print Assumptions C105_picture.

(** When the window can be made, GLFW and OpenGL are used in the order they ask for, from start to
    end, whatever happens in between: nothing is drawn before there is a context with its
    functions and the program's objects, the objects are deleted while it is still there, and
    nothing of them is left in the end. *)
Theorem C105_order_partial : forall start fs, legal true nothing_yet (main start fs) nothing_yet.
Proof.
  intros start fs. set (on := {| p_init := true; p_window := true; p_current := true; p_loaded := true; p_objects := true |}).
  assert (PL : forall es b l q, legal true on l q -> legal true on (fst (poll b es) ++ l) q).
  { induction es as [|e es IH]; intros b l q H; [exact H|]. cbn [poll]. destruct (callback b e) as [a c] eqn:CB. specialize (IH c l q H). destruct (poll c es) as [a' c']. cbn [fst] in *. rewrite <- app_assoc.
    destruct e as [k ? ? ? ?| | | |[|]| |]; cbn in CB; try (destruct (k =? ESCAPE)); inversion CB; subst; cbn [app]; repeat (apply L_ui); try exact IH.
    apply L_gl; try reflexivity. apply L_ui. exact IH. }
  assert (LP : forall fs b start l q, legal true on l q -> legal true on (main_loop b start fs ++ l) q).
  { clear fs start. induction fs as [|f fs IH]; intros b start l q H; [destruct b; exact H|]. cbn [main_loop]. destruct b; [exact H|]. pose proof (PL (f_events f) false) as P. destruct (poll false (f_events f)) as [a c]. cbn [fst] in P.
    cbn [app MainModel.render]. apply L_ui. apply L_gl; try reflexivity; try exact I. apply L_draw; try reflexivity. apply L_swap; try reflexivity. rewrite <- app_assoc. apply P. apply IH. exact H. }
  unfold main, set_up, nothing_yet. cbn [app]. apply L_init. apply L_window. apply L_attach; [reflexivity|auto|]. apply L_current. apply L_load. apply L_gl; try reflexivity; try exact I. apply L_make.
  apply L_gl; try reflexivity; try exact I. apply L_ui. apply L_attach; [reflexivity|auto|]. fold on. apply LP. apply L_delete. apply L_terminate. apply L_end.
Qed.
Print Assumptions C105_order_partial.

(** The window asks for OpenGL 4.6.  Where there is none (as on macOS) [glfwCreateWindow] answers with
    a null pointer; the program does not look and hands it on to GLFW. *)
Theorem C105_no_window_refuted : forall start fs, ~ exists q, legal false nothing_yet (main start fs) q.
Proof.
  assert (K : forall p l q, legal false p l q -> match l with
    | Init :: l => legal false {| p_init := true; p_window := p_window p; p_current := p_current p; p_loaded := p_loaded p; p_objects := p_objects p |} l q
    | MakeWindow :: l => legal false {| p_init := true; p_window := false; p_current := p_current p; p_loaded := p_loaded p; p_objects := p_objects p |} l q
    | Attach :: l => p_window p = true | _ => True end).
  { intros p l q H. destruct H; try exact I; try assumption; destruct a; auto; try (destruct H0; discriminate); contradiction. }
  intros start fs (q & H). unfold main, set_up, nothing_yet in H. cbn [app] in H. apply K in H. apply K in H. apply K in H. discriminate H.
Qed.
Print Assumptions C105_no_window_refuted.

(** The caret keeps to the clock.  A key or the mouse puts the cursor somewhere in the frame that began at
    the reading [a] of the clock, and no more events come.  In the picture of every later frame the caret is on for half a
    second and off for half a second, and always on after five, by the time the clock has gone
    on since, up to an eight-millionth of a second for each frame and each second. *)
Theorem C105_caret : forall w al build strip tall following preceding decode white b clip c s a quiet bs b' clip',
  puts_cursor (view_of b) c -> Forall (fun f => f_events f = []) quiet ->
  reads s a -> Forall2 reads (map f_time quiet) bs -> goes_on a bs ->
  steps w al build strip tall following preceding decode white (b, clip) (c :: map CTick (updates (main_loop false s quiet))) = Ok (b', clip') ->
  exists time, (Rabs (time - (List.last bs a - a)) <= / 8000000 * (INR (List.length quiet) + (List.last bs a - a)))%R /\
  forall vars gi si image fm px py out, show_box vars gi si image fm w al px py b' = Ok out ->
  exists text mark, draw_formatted vars gi si image fm (tb_layout b') (plain_views (size (tb_content b'))) px py w al (tb_anchor b') (tb_cursor b') = Ok text /\
    out = text ++ mark /\
    (lit_at time -> BlinkSpec.bar image (px + ci_x (tb_info b')) (py + ci_y (tb_info b')) (ci_height (tb_info b')) mark) /\ (~ lit_at time -> mark = []).
Proof.
  intros w al build strip tall following preceding decode white b clip c s a quiet bs b' clip' PC Q A B G H.
  assert (EU : forall s, updates (main_loop false s quiet) = deltas s (map f_time quiet)).
  { clear - Q. induction Q as [|f fs E Q IH]; intros s; [reflexivity|]. cbn [main_loop]. rewrite E. cbn [poll app map deltas]. unfold updates. cbn. f_equal. apply IH. }
  rewrite EU in H. destruct (@deltas_near (map f_time quiet) s a bs A B G) as (rs & F & P & N).
  destruct (@C92_blink _ _ _ _ _ _ _ _ _ _ _ _ _ _ _ _ PC F H) as (time & T & D). exists time. split; [|exact D].
  assert (LD : List.length (deltas s (map f_time quiet)) = List.length quiet).
  { clear. revert s. induction quiet as [|f fs IH]; intros; [reflexivity|]. cbn [map deltas List.length]. rewrite IH. reflexivity. }
  rewrite LD in T. rewrite map_length in N. pose proof (pos_INR (List.length quiet)). set (e := (List.last bs a - a)%R) in *.
  apply Rabs_le. apply Rabs_le_inv in T. apply Rabs_le_inv in N. lra.
Qed.
Print Assumptions C105_caret.

(** On a screen with two pixels for each unit of the window the mouse is at half the numbers of the
    pixel it points at.  The program takes pixels for units: pointing at the menu View, one
    presses Format. *)
Theorem C105_scale_refuted : exists px py : Q, let m := nth 1 (b_menus (make_bar 1280 (map fst sample_menus))) {| m_left := 0; m_width := 0; m_open := false |} in
  in_menu px py m = true /\
  List.last (map snd (snd (window_run (make_window 1280 sample_box sample_menus) 0 0 [WMove (px / 2) (py / 2); WPress First]))) OnNothing = OnMenu 0.
Proof. exists 70%Q, 5%Q. vm_compute. auto. Qed.
Print Assumptions C105_scale_refuted.

(** A key in the first frame, Escape and a character in the second, and a third that is never
    played; the clock reads 1, 1.5 and 2 seconds. *)
Definition e_time (n : Z) : f64 := SpecFloat.binary_normalize 53 1024 n (-1) false.
Definition e_frames : list frame :=
  [ {| f_time := e_time 2; f_events := [Key 65 1 0 3 4; Focus true] |};
    {| f_time := e_time 3; f_events := [Key 256 1 0 3 4; Text 97] |}; {| f_time := e_time 4; f_events := [] |} ].
Example C105_played : plays e_frames (firstn 2 e_frames) /\
  calls (main (e_time 1) e_frames) = [SetSize 640 480; Update (f32_div f32_1 (f32_of_Z 2)); HandleKey 65 1 0 3 4; Update (f32_div f32_1 (f32_of_Z 2)); HandleText 97] /\
  pictures (main (e_time 1) e_frames) = 2%nat.
Proof.
  split; [|split; vm_compute; reflexivity]. apply P_on; [|apply P_last; left; reflexivity]. intros H. inversion H as [? ? K|? ? K]; subst; [discriminate K|]. inversion K as [? ? L|? ? L]; subst; [exact L|inversion L].
Qed.
Example C105_clock : reads (e_time 1) (/ 2) /\ Forall2 reads (map f_time e_frames) [1; 3 / 2; 2]%R /\ goes_on (/ 2) [1; 3 / 2; 2]%R.
Proof.
  assert (R : forall n r, r = (IZR n / 2)%R -> In n [1; 2; 3; 4] -> reads (e_time n) r).
  { intros n r -> [<-|[<-|[<-|[<-|[]]]]]; (split; [reflexivity|]; split; [reflexivity|]; vm_compute; lra). }
  split; [apply R; [lra|cbn; auto]|]. split; [repeat (constructor; [apply R; [lra|cbn; auto 6]|]); constructor|]. cbn. lra.
Qed.
