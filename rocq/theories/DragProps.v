(** C118: selecting with the mouse. *)
From Coq Require Import Lqa Qabs.
From Verif Require Import Base FloatModel BaseFacts PackingModel PackingProofs LayoutModel LayoutSpec LayoutProofs LayoutCursorProofs LayoutHitProofs LayoutTableProofs
  LayoutProps CursorModel CursorSpec CursorProofs CursorProps TextBoxModel TextBoxLayoutProofs ClickSpec ClickProofs ClickProps KeyCaretSpec KeyCaretProofs KeyCaretProps
  MultiClickSpec MultiClickProps DragSpec.
Open Scope Z_scope.

Section Drag.
Variables (w : Q) (al : xalign) (build : bool -> list Z -> layout) (strip : list Z -> list Z) (tall : Q).
Variables (B : Z -> Prop) (following preceding decode : list Z -> Z -> Z) (white : Z -> bool).
Variables (ctrl : list Z) (lay : layout) (d : sdoc) (y : Q).
Hypothesis OKD : doc_ok d.
Hypothesis ST : stored d y lay.
Hypothesis CT : clear_text B d.
Hypothesis HT : Forall (fun s => 0 <= sl_height s)%Q d.
Hypothesis W : walks B (following ctrl).
Hypothesis SM : Forall (fun r => sr_end r < 2 ^ 31 - 1) (doc_runs d).
Notation run := (steps w al build strip tall following preceding decode white).

Lemma point x q : exists c i, closest_to_position (following ctrl) lay w al x q = Ok c /\ calc_cursor_pixel_pos lay w al c = Ok i /\ nearest_to B d y w al x q c i /\
  cp_is_valid c = true.
Proof.
  pose proof CT as (J & NE & RO & BS & I & MX & ADJ & L & EM).
  destruct (C113_click B (following ctrl) d y w al x q lay OKD ST J NE HT W RO BS I MX ADJ L EM) as (c & i & s & r & X & E1 & E2 & E3 & E4 & E5 & E6 & E7 & E8 & E9 & E10).
  exists c, i. split; [exact E1|]. split; [exact E2|]. split; [exists s, r, X; auto 10|].
  unfold cp_is_valid. destruct (Z.eqb_spec c invalid_value) as [->|]; [exfalso|reflexivity].
  rewrite Forall_forall in SM. assert (In r (doc_runs d)) as Hr by (unfold doc_runs; apply in_flat_map; exists s; split; [exact (nth_error_In _ _ E3)|exact E7]).
  specialize (SM _ Hr). change (cp_get_position invalid_value) with (2 ^ 31 - 1) in E9. lia.
Qed.

(** While the button is down: the selection begins at [c], or nothing is selected yet. *)
Definition dragging (t : list Z) (c : Z) (b : box) : Prop :=
  tb_focused b = true /\ tb_drag b = true /\ tb_text b = t /\ tb_ctrl b = ctrl /\ tb_layout b = lay /\
  (tb_anchor b = c \/ cp_is_valid (tb_anchor b) = false /\ tb_cursor b = c).

Lemma set_drag b p i : calc_cursor_pixel_pos (tb_layout b) w al p = Ok i ->
  exists b', set_cursor w al b p true = Ok b' /\ tb_drag b' = tb_drag b /\ tb_text b' = tb_text b /\ tb_ctrl b' = tb_ctrl b /\ tb_layout b' = tb_layout b /\
    tb_focused b' = tb_focused b /\ tb_cursor b' = p /\ tb_info b' = i /\ tb_anchor b' = if cp_is_valid (tb_anchor b) then tb_anchor b else tb_cursor b.
Proof. intros E. unfold set_cursor. cbn [with_cursor tb_layout]. rewrite E. cbn [obind]. eexists. split; [reflexivity|]. repeat split. Qed.

Lemma drag_one t c b clip x q : cp_is_valid c = true -> dragging t c b -> exists c' i' b', closest_to_position (following ctrl) lay w al x q = Ok c' /\
  calc_cursor_pixel_pos lay w al c' = Ok i' /\ nearest_to B d y w al x q c' i' /\ run (b, clip) [CDrag x q] = Ok (b', clip) /\ dragging t c b' /\
  tb_anchor b' = c /\ tb_cursor b' = c' /\ tb_info b' = i'.
Proof.
  intros V (D1 & D2 & D3 & D4 & D5 & D6). destruct (point x q) as (c' & i' & E1 & E2 & E3 & _).
  pose proof E2 as E2'. rewrite <- D5 in E2'. destruct (set_drag b c' i' E2') as (b' & G & F1 & F2 & F3 & F4 & F5 & F6 & F7 & F8).
  assert (A : tb_anchor b' = c).
  { rewrite F8. destruct D6 as [D6|[D6 D7]]; [rewrite D6, V; reflexivity|rewrite D6; exact D7]. }
  exists c', i', b'. split; [exact E1|]. split; [exact E2|]. split; [exact E3|]. split.
  { cbn [steps step]. rewrite D1, D2. cbn [andb]. unfold move_mouse. rewrite D4, D5, E1. cbn [obind]. rewrite G. reflexivity. }
  split; [|auto]. unfold dragging. rewrite F1, F2, F3, F4, F5. auto 10.
Qed.
Lemma drag_all t c clip pts : cp_is_valid c = true -> forall b, dragging t c b ->
  exists b', run (b, clip) (map (fun p => CDrag (fst p) (snd p)) pts) = Ok (b', clip) /\ dragging t c b'.
Proof.
  intros V. induction pts as [|[x q] pts IH]; intros b D; [exists b; split; [reflexivity|exact D]|].
  destruct (drag_one t c b clip x q V D) as (c' & i' & b1 & _ & _ & _ & E & D1 & _). destruct (IH b1 D1) as (b2 & E2 & D2).
  exists b2. split; [|exact D2]. cbn [map steps fst snd] in *. destruct (step _ _ _ _ _ _ _ _ _ (b, clip) (CDrag x q)) as [st| |]; cbn [obind] in *; try discriminate.
  injection E as ->. exact E2.
Qed.
Lemma run_app st cs cs' : run st (cs ++ cs') = do st <- run st cs; run st cs'.
Proof. revert st. induction cs as [|c cs IH]; intros st; [reflexivity|]. cbn [app steps]. destruct (step _ _ _ _ _ _ _ _ _ st c); cbn [obind]; auto. Qed.
Lemma still_all b clip pts : tb_drag b = false -> run (b, clip) (map (fun p => CDrag (fst p) (snd p)) pts) = Ok (b, clip).
Proof. intros D. induction pts as [|p pts IH]; [reflexivity|]. cbn [map steps step]. rewrite D, andb_false_r. cbn [obind]. exact IH. Qed.

Lemma press_drag b clip x q m : tb_ctrl b = ctrl -> tb_layout b = lay -> tb_focused b = true -> m mod 4 = 0 ->
  exists c i b', closest_to_position (following ctrl) lay w al x q = Ok c /\ calc_cursor_pixel_pos lay w al c = Ok i /\ nearest_to B d y w al x q c i /\
    cp_is_valid c = true /\ run (b, clip) [CPress x q false m] = Ok (b', clip) /\ dragging (tb_text b) c b'.
Proof.
  intros D4 D5 FO M. destruct (point x q) as (c & i & E1 & E2 & E3 & V). pose proof E2 as E2'. rewrite <- D5 in E2'.
  destruct (set_cursor_kept w al b c false i E2') as (b' & G & F2 & F3 & F4 & F5 & F6 & F7 & F8).
  exists c, i, (with_focus b' true true). split; [exact E1|]. split; [exact E2|]. split; [exact E3|]. split; [exact V|]. split.
  - cbn [steps step]. unfold press. rewrite FO. unfold move_mouse. rewrite D4, D5, E1. cbn [obind]. rewrite G. cbn [obind]. rewrite M.
    cbn [obind]. unfold gain_focus. cbn [with_focus tb_focused]. rewrite ?F5, FO. reflexivity.
  - unfold dragging. cbn [with_focus tb_focused tb_drag tb_text tb_ctrl tb_layout tb_anchor tb_cursor]. rewrite F2, F3, F4, F6, F8, D4, D5. auto 10.
Qed.
(** The press that gives a box of plain text the focus lays the text out before and after it
    looks for the cursor: twice the same layout. *)
Lemma recalc_plain b i : tb_text b = ctrl -> ctrl <> [] -> build false ctrl = lay -> tb_rich b = false -> tb_font b = true ->
  calc_cursor_pixel_pos lay w al (tb_cursor b) = Ok i -> recalc w al build strip tall b = Ok (with_text b ctrl ctrl lay ctrl i).
Proof.
  intros D NE BL RI FT E. unfold recalc. rewrite RI, FT. cbn [andb negb]. replace (if tb_focused b then false else false) with false by (destruct (tb_focused b); reflexivity).
  destruct (tb_text b) as [|z zs] eqn:TX; [congruence|]. rewrite D, BL, E. reflexivity.
Qed.
Lemma first_press_drag b clip x q m : tb_text b = ctrl -> ctrl <> [] -> build false ctrl = lay -> tb_rich b = false -> tb_font b = true -> tb_focused b = false ->
  exists c i b', closest_to_position (following ctrl) lay w al x q = Ok c /\ calc_cursor_pixel_pos lay w al c = Ok i /\ nearest_to B d y w al x q c i /\
    cp_is_valid c = true /\ run (b, clip) [CPress x q false m] = Ok (b', clip) /\ dragging (tb_text b) c b'.
Proof.
  intros D4 NE D5 RI FT FO. destruct (point x q) as (c & i & E1 & E2 & E3 & V). pose proof CT as (_ & NN & _).
  destruct (caret_defined d y lay w al (tb_cursor b) OKD ST NN) as (i0 & E0 & _).
  exists c, i. eexists. split; [exact E1|]. split; [exact E2|]. split; [exact E3|]. split; [exact V|]. split.
  - cbn [steps step]. unfold press. rewrite FO, (recalc_plain b i0 D4 NE D5 RI FT E0). cbn [obind].
    unfold move_mouse. cbn [with_text tb_ctrl tb_layout]. rewrite E1. cbn [obind]. unfold set_cursor. cbn [with_cursor with_text tb_layout]. rewrite E2. cbn [obind].
    unfold gain_focus. cbn [with_focus with_blink with_visual with_text with_cursor tb_focused]. rewrite FO.
    rewrite (recalc_plain _ i); [reflexivity|reflexivity|exact NE|exact D5|exact RI|exact FT|exact E2].
  - unfold dragging. cbn [with_focus with_blink with_visual with_text with_cursor tb_focused tb_drag tb_text tb_ctrl tb_layout tb_anchor tb_cursor]. auto 10.
Qed.

(** From the press on. *)
Lemma drag_rest b b1 clip x q m c i pts x' q' pts' : run (b, clip) [CPress x q false m] = Ok (b1, clip) -> dragging (tb_text b) c b1 ->
  calc_cursor_pixel_pos lay w al c = Ok i -> nearest_to B d y w al x q c i -> cp_is_valid c = true ->
  let drags := map (fun p : Q * Q => CDrag (fst p) (snd p)) in
  exists i b' b'', run (b, clip) (CPress x q false m :: drags pts ++ [CDrag x' q']) = Ok (b', clip) /\ tb_text b' = tb_text b /\ tb_layout b' = lay /\
    cp_is_valid (tb_anchor b') = true /\
    calc_cursor_pixel_pos lay w al (tb_anchor b') = Ok i /\ nearest_to B d y w al x q (tb_anchor b') i /\
    calc_cursor_pixel_pos lay w al (tb_cursor b') = Ok (tb_info b') /\ nearest_to B d y w al x' q' (tb_cursor b') (tb_info b') /\
    run (b', clip) (CRelease :: drags pts') = Ok (b'', clip) /\ tb_text b'' = tb_text b' /\ tb_anchor b'' = tb_anchor b' /\ tb_cursor b'' = tb_cursor b' /\ tb_info b'' = tb_info b'.
Proof.
  intros G1 D1 E2 E3 V drags.
  destruct (drag_all (tb_text b) c clip pts V b1 D1) as (b2 & G2 & D2).
  destruct (drag_one (tb_text b) c b2 clip x' q' V D2) as (c' & i' & b3 & E4 & E5 & E6 & G3 & D3 & A3 & C3 & I3).
  exists i, b3, (with_focus b3 true false). split.
  { change (CPress x q false m :: drags pts ++ [CDrag x' q']) with ([CPress x q false m] ++ (drags pts ++ [CDrag x' q'])).
    rewrite run_app, G1. cbn [obind]. rewrite run_app. unfold drags. rewrite G2. cbn [obind]. exact G3. }
  destruct D3 as (P1 & P2 & P3 & P4 & P5 & P6). rewrite A3, C3, I3. split; [exact P3|]. split; [exact P5|]. split; [exact V|]. split; [exact E2|]. split; [exact E3|].
  split; [exact E5|]. split; [exact E6|]. split.
  - cbn [steps step]. rewrite P1. cbn [obind]. unfold drags. apply still_all. reflexivity.
  - cbn [with_focus tb_text tb_anchor tb_cursor tb_info]. auto.
Qed.
End Drag.

(** ** C118 *)

(** A box with the focus, in the text of C114.  The button is pressed somewhere, the mouse
    moves anywhere and then to [(x', q')]: what is selected begins at the caret nearest to the
    press and ends at the caret nearest to the mouse.  After the button is up, moving the
    mouse changes nothing.  Missing: the other clicks of a series (C116), and text with lines
    where C113 fails. *)
Theorem C118_drag_partial : forall w al build strip tall B following preceding decode white b clip d y x q m pts x' q' pts',
  doc_ok d -> stored d y (tb_layout b) -> clear_text B d -> Forall (fun s => 0 <= sl_height s)%Q d -> walks B (following (tb_ctrl b)) ->
  Forall (fun r => sr_end r < 2 ^ 31 - 1) (doc_runs d) -> tb_focused b = true -> m mod 4 = 0 ->
  let run := steps w al build strip tall following preceding decode white in
  let drags := map (fun p : Q * Q => CDrag (fst p) (snd p)) in
  exists i b' b'', run (b, clip) (CPress x q false m :: drags pts ++ [CDrag x' q']) = Ok (b', clip) /\ tb_text b' = tb_text b /\ tb_layout b' = tb_layout b /\
    cp_is_valid (tb_anchor b') = true /\
    calc_cursor_pixel_pos (tb_layout b) w al (tb_anchor b') = Ok i /\ nearest_to B d y w al x q (tb_anchor b') i /\
    calc_cursor_pixel_pos (tb_layout b) w al (tb_cursor b') = Ok (tb_info b') /\ nearest_to B d y w al x' q' (tb_cursor b') (tb_info b') /\
    run (b', clip) (CRelease :: drags pts') = Ok (b'', clip) /\ tb_text b'' = tb_text b' /\ tb_anchor b'' = tb_anchor b' /\ tb_cursor b'' = tb_cursor b' /\ tb_info b'' = tb_info b'.
Proof.
  intros w al build strip tall B following preceding decode white b clip d y x q m pts x' q' pts' OKD ST CT HT W SM FO M run drags.
  destruct (press_drag w al build strip tall B following preceding decode white (tb_ctrl b) (tb_layout b) d y OKD ST CT HT W SM b clip x q m eq_refl eq_refl FO M)
    as (c & i & b1 & E1 & E2 & E3 & V & G1 & D1).
  exact (drag_rest w al build strip tall B following preceding decode white (tb_ctrl b) (tb_layout b) d y OKD ST CT HT W SM b b1 clip x q m c i pts x' q' pts' G1 D1 E2 E3 V).
Qed.
Print Assumptions C118_drag_partial.

(** The same when the press gives a box of plain text the focus, whatever layout it had before
    and whatever the count of clicks.  Missing: rich text, where the press looks for the cursor
    in the text without its tags ([C44_rich_refuted]). *)
Theorem C118_first_press_partial : forall w al build strip tall B following preceding decode white b clip d y x q m pts x' q' pts',
  let lay := build false (tb_text b) in
  doc_ok d -> stored d y lay -> clear_text B d -> Forall (fun s => 0 <= sl_height s)%Q d -> walks B (following (tb_text b)) ->
  Forall (fun r => sr_end r < 2 ^ 31 - 1) (doc_runs d) -> tb_text b <> [] -> tb_rich b = false -> tb_font b = true -> tb_focused b = false ->
  let run := steps w al build strip tall following preceding decode white in
  let drags := map (fun p : Q * Q => CDrag (fst p) (snd p)) in
  exists i b' b'', run (b, clip) (CPress x q false m :: drags pts ++ [CDrag x' q']) = Ok (b', clip) /\ tb_text b' = tb_text b /\ tb_layout b' = lay /\
    cp_is_valid (tb_anchor b') = true /\
    calc_cursor_pixel_pos lay w al (tb_anchor b') = Ok i /\ nearest_to B d y w al x q (tb_anchor b') i /\
    calc_cursor_pixel_pos lay w al (tb_cursor b') = Ok (tb_info b') /\ nearest_to B d y w al x' q' (tb_cursor b') (tb_info b') /\
    run (b', clip) (CRelease :: drags pts') = Ok (b'', clip) /\ tb_text b'' = tb_text b' /\ tb_anchor b'' = tb_anchor b' /\ tb_cursor b'' = tb_cursor b' /\ tb_info b'' = tb_info b'.
Proof.
  intros w al build strip tall B following preceding decode white b clip d y x q m pts x' q' pts' lay OKD ST CT HT W SM NE RI FT FO run drags.
  destruct (first_press_drag w al build strip tall B following preceding decode white (tb_text b) lay d y OKD ST CT HT W SM b clip x q m eq_refl NE eq_refl RI FT FO)
    as (c & i & b1 & E1 & E2 & E3 & V & G1 & D1).
  exact (drag_rest w al build strip tall B following preceding decode white (tb_text b) lay d y OKD ST CT HT W SM b b1 clip x q m c i pts x' q' pts' G1 D1 E2 E3 V).
Qed.
Print Assumptions C118_first_press_partial.

(** "ab cd" of C116: pressed at 12 and moved to 60 and back to 38: "b c" is selected. *)
Example C118_used : doc_ok words_sample /\ clear_text (fun c => 0 <= c <= 5) words_sample /\ Forall (fun s => 0 <= sl_height s)%Q words_sample /\
  walks (fun c => 0 <= c <= 5) words_next /\ Forall (fun r => sr_end r < 2 ^ 31 - 1) (doc_runs words_sample) /\
  exists b b', steps 100 XLeft (fun _ _ => lo_empty) (fun t => t) 12%Q (fun _ => words_next) (fun _ => words_prev) (fun _ => words_decode) (fun c => c =? 32) (words_box, None)
      [CPress 12 5 false 0; CDrag 60 5; CDrag 38 5] = Ok (b, None) /\ tb_anchor b = 1 /\ tb_cursor b = 4 /\ (ci_x (tb_info b) == 40)%Q /\
    steps 100 XLeft (fun _ _ => lo_empty) (fun t => t) 12%Q (fun _ => words_next) (fun _ => words_prev) (fun _ => words_decode) (fun c => c =? 32) (b, None)
      [CRelease; CDrag 0 5; KCopy] = Ok (b', Some [98; 32; 99]).
Proof.
  destruct C116_used as (O & C & K & _). split; [exact O|]. split; [exact C|]. split; [repeat constructor; discriminate|]. split; [exact K|].
  split; [unfold words_sample, doc_runs; cbn -[Z.pow]; repeat constructor; cbn -[Z.pow]; lia|]. do 2 eexists. split; [vm_compute; reflexivity|].
  split; [reflexivity|]. split; [reflexivity|]. split; [reflexivity|]. vm_compute. reflexivity.
Qed.

(** The same without the focus before. *)
Example C118_first_press_used : exists b b', steps 100 XLeft (fun _ _ => layout_of words_sample 0) (fun t => t) 12%Q (fun _ => words_next) (fun _ => words_prev) (fun _ => words_decode)
      (fun c => c =? 32) (with_focus words_box false false, None) [CPress 12 5 false 1; CDrag 60 5; CDrag 38 5] = Ok (b, None) /\ tb_anchor b = 1 /\ tb_cursor b = 4 /\
    tb_focused b = true /\ steps 100 XLeft (fun _ _ => layout_of words_sample 0) (fun t => t) 12%Q (fun _ => words_next) (fun _ => words_prev) (fun _ => words_decode)
      (fun c => c =? 32) (b, None) [CRelease; CDrag 0 5; KCopy] = Ok (b', Some [98; 32; 99]).
Proof. do 2 eexists. split; [vm_compute; reflexivity|]. split; [reflexivity|]. split; [reflexivity|]. split; [reflexivity|]. vm_compute. reflexivity. Qed.
