(** Editing in a text box (C44), read-only boxes (C67), and the caret of any cursor (C32). *)
From Coq Require Import ZifyBool ZifyNat.
From Verif Require Import Base FloatModel BaseFacts PackingModel LayoutModel LayoutSpec CursorModel CursorSpec TextBoxModel TextBoxSpec
  TextBoxLayoutProofs TextBoxUtfProofs TextBoxProofs TextBoxExample.
Open Scope Z_scope.

(** ** C32 *)

(** Every cursor has a caret, on a line of the layout, in every stored document: also in
    lines of mixed direction and for positions outside the text. *)
Theorem C32_caret_defined : forall d y lay w al c, doc_ok d -> stored d y lay -> d <> [] ->
  exists i, calc_cursor_pixel_pos lay w al c = Ok i /\ (ci_line i < length d)%nat.
Proof. exact caret_defined. Qed.
Print Assumptions C32_caret_defined.
Example C32_caret_used : doc_ok (e_doc [104; 105]) /\ stored (e_doc [104; 105]) 0 (e_build false [104; 105]) /\ (exists i, calc_cursor_pixel_pos (e_build false [104; 105]) 100 XLeft 99 = Ok i /\ ci_line i = 0%nat).
Proof. split; [apply e_doc_ok|]. split; [apply LayoutProofs.stored_layout, e_doc_ok|]. eexists. split; vm_compute; reflexivity. Qed.

(** ** C44 *)

(** A new box is given a text and then any allowed history of events.  Nothing undefined
    happens, each event does to what the user sees what the specification says, and the
    text is well formed with cursor and selection between its characters after each of
    them.  Not covered: events that [allowed] excludes (see the refutations), rich text. *)
Theorem C44_history_partial : forall w al build strip tall B following preceding decode white editable multi t clip cs,
  good_stops B following preceding -> good_layouts (build false) B ->
  valid_utf8 t -> size t < 2 ^ 31 - 1 -> match clip with Some s => valid_utf8 s | None => True end ->
  allowed_all w al (build false) B following decode white (shows t editable multi) clip cs ->
  exists b clip', steps w al build strip tall following preceding decode white (fresh editable multi, clip) (CReplace t :: cs) = Ok (b, clip') /\
    does_all w al (build false) B following decode white (shows t editable multi) clip cs (view_of b) clip' /\ sound (view_of b).
Proof.
  intros w al build strip tall B following preceding decode white e m t clip cs GS GL V SZ CO AL.
  destruct (fresh_ready w al build strip tall B GL e m t V SZ) as (b0 & E & R & W). cbn [steps step]. rewrite E. cbn [obind]. rewrite <- W in AL.
  destruct (steps_ok w al build strip tall B following preceding decode white GS GL cs b0 clip R CO AL) as (b & clip' & E' & R' & D). rewrite W in D.
  exists b, clip'. split; [exact E'|]. split; [exact D|apply R'].
Qed.
Print Assumptions C44_history_partial.

(** Click at the start of "hé", type "x", press Backspace; then also Right, Shift+Right, cut, Tab and paste. *)
Definition he : list Z := [104; 195; 169].
Definition e_steps := steps 100 XLeft e_build e_strip 12%Q e_following e_preceding e_decode e_white.
Definition e_all := allowed_all 100 XLeft (e_build false) (fun t => on_char t) e_following e_decode e_white.
Definition e_history := [CPress 0 5 false 0; CType 120; KBackspace false].
Example C44_used : valid_utf8 he /\ e_all (shows he true true) None e_history /\
  exists b, e_steps (fresh true true, None) (CReplace he :: e_history ++ [KRight false false; KRight false true; KCut; KTab; KPaste]) = Ok (b, Some [195; 169]) /\
    tb_text b = [104; 9; 195; 169] /\ tb_cursor b = 4.
Proof.
  split; [exists [104; 233]; split; [repeat constructor; unfold scalar; lia|reflexivity]|]. split.
  - split; [discriminate|]. intros v1 clip1 (((P1 & P2) & P3 & P4 & p & _ & (M1 & M2 & M3)) & ->) S1. cbn in P1, P2, M1, M3.
    split; [|intros v2 clip2 (_ & I2) S2; split; [|intros; exact I]].
    + unfold allowed. rewrite P3. intros _. split; [unfold proper; rewrite M3; discriminate|]. split; [unfold scalar; lia|]. unfold room. rewrite M1. reflexivity.
    + rewrite P3, P1 in I2. cbn [andb] in I2. destruct I2 as (((Q1 & Q2) & Q3 & Q4) & (E1 & E2 & E3)). unfold allowed. destruct (v_focused v2); [|exact I].
      split; [congruence|]. unfold proper. rewrite E3. discriminate.
  - eexists. split; [vm_compute; reflexivity|]. split; reflexivity.
Qed.
(** The conditions on the other components can be met. *)
Example C44_components : good_stops (fun t => on_char t) e_following e_preceding /\ good_layouts (e_build false) (fun t => on_char t).
Proof. split; [exact e_stops|exact e_layouts]. Qed.

(** A selection of nothing is kept while typing, so the next character replaces the one
    before: Shift+Right, Shift+Left, "a", "b" in front of "xy" gives "bxy". *)
Theorem C44_empty_selection_refuted : exists b b' clip,
  e_steps (fresh true true, None) [CReplace [120; 121]; CPress 0 5 false 0; KRight false true; KLeft false true] = Ok (b, clip) /\
  tb_text b = [120; 121] /\ first (view_of b) = 0 /\ last (view_of b) = 0 /\
  e_steps (b, clip) [CType 97; CType 98] = Ok (b', clip) /\ tb_text b' = [98; 120; 121].
Proof. do 3 eexists. split; [vm_compute; reflexivity|]. split; [reflexivity|]. split; [reflexivity|]. split; [reflexivity|]. split; [vm_compute; reflexivity|reflexivity]. Qed.
Print Assumptions C44_empty_selection_refuted.

(** Once all text is deleted the layout of the old text is still used: End puts the cursor
    outside the text, and Backspace then leaves the program by an exception. *)
Theorem C44_stale_layout_refuted : exists b clip,
  e_steps (fresh true true, None) [CReplace [97]; CPress 0 5 false 0; KDelete false; KEnd false false] = Ok (b, clip) /\
  tb_text b = [] /\ pos (view_of b) = 1 /\ e_steps (b, clip) [KBackspace false] = UB.
Proof. do 2 eexists. split; [vm_compute; reflexivity|]. split; [reflexivity|]. split; [reflexivity|]. vm_compute. reflexivity. Qed.
Print Assumptions C44_stale_layout_refuted.

(** A click into a box without text reads outside the empty layout, whatever the other
    components do. *)
Theorem C44_empty_box_refuted : forall w al build strip tall following preceding decode white editable multi clip x y sel n,
  steps w al build strip tall following preceding decode white (fresh editable multi, clip) [CReplace []; CPress x y sel n] = UB.
Proof. reflexivity. Qed.
Print Assumptions C44_empty_box_refuted.

(** Pasting from a clipboard without text makes a string of a null pointer. *)
Theorem C44_empty_clipboard_refuted : exists b,
  e_steps (fresh true true, None) [CReplace [97]; CPress 0 5 false 0] = Ok (b, None) /\ sound (view_of b) /\ e_steps (b, None) [KPaste] = UB.
Proof.
  destruct (C44_history_partial 100 XLeft e_build e_strip 12%Q (fun t => on_char t) e_following e_preceding e_decode e_white true true [97] None [CPress 0 5 false 0]) as (b & clip & E & D & S).
  { exact e_stops. } { exact e_layouts. } { exact (valid_one 97 ltac:(unfold scalar; lia)). } { reflexivity. } { exact I. } { split; [discriminate|intros; exact I]. }
  pose proof E as E'. vm_compute in E'. inversion E' as [[HB HC]]. subst clip. exists b. split; [exact E|]. split; [exact S|]. rewrite <- HB. vm_compute. reflexivity.
Qed.
Print Assumptions C44_empty_clipboard_refuted.

(** A shorter text set by the program leaves the cursor outside. *)
Theorem C44_set_text_refuted : exists b clip,
  e_steps (fresh true true, None) [CReplace [97; 98]; CPress 100 5 false 0; CReplace [97]] = Ok (b, clip) /\
  tb_text b = [97] /\ pos (view_of b) = 2 /\ e_steps (b, clip) [KBackspace false] = UB.
Proof. do 2 eexists. split; [vm_compute; reflexivity|]. split; [reflexivity|]. split; [reflexivity|]. vm_compute. reflexivity. Qed.
Print Assumptions C44_set_text_refuted.

(** Rich text.  In a read-only box that shows "hi" for "<b>hi</b>", copying all copies
    "<b"; in an editable one, text typed after a click behind "hi" goes into the tag. *)
Definition rich_box (editable : bool) : box :=
  {| tb_text := []; tb_content := []; tb_cursor := 0; tb_anchor := invalid_value; tb_focused := false; tb_editable := editable;
     tb_rich := true; tb_multi := true; tb_selectable := true; tb_font := true; tb_drag := false; tb_layout := lo_empty; tb_ctrl := [];
     tb_info := no_info; tb_timer := f32_0; tb_flash := 0 |}.
Theorem C44_rich_refuted : e_strip tagged = [104; 105] /\
  (exists b, e_steps (rich_box false, None) [CReplace tagged; CPress 0 5 false 0; KAll; KCopy] = Ok (b, Some [60; 98]) /\ tb_content b = [104; 105]) /\
  (exists b, e_steps (rich_box true, None) [CReplace tagged; CPress 100 5 false 0; CType 120] = Ok (b, None) /\ tb_text b = [60; 98; 120; 62; 104; 105; 60; 47; 98; 62]).
Proof.
  split; [reflexivity|]. split; eexists; (split; [vm_compute; reflexivity|reflexivity]).
Qed.
Print Assumptions C44_rich_refuted.

(** ** C67 *)

(** In a box that is not editable no history of typing, moving, selecting, clicking,
    cutting, copying, pasting, losing focus and changing other settings changes the text.  Missing: Backspace,
    Delete, Enter and Tab, which do change it. *)
Definition spares (c : cmd) : Prop := match c with KBackspace _ | KDelete _ | KEnter | KTab | CReplace _ | CEditable _ => False | _ => True end.
Lemma recalc_keeps w al build strip tall b b' : recalc w al build strip tall b = Ok b' -> tb_text b' = tb_text b /\ tb_editable b' = tb_editable b.
Proof.
  unfold recalc. destruct (tb_font b); cbn [negb]; [|intros H; inversion H; auto]. set (r := if tb_focused b then _ else _). destruct (if r then strip (tb_text b) else tb_text b) as [|z l]; [intros H; inversion H; auto|].
  intros H. apply obind_ok_inv in H. destruct H as (i & _ & H). inversion H; auto.
Qed.
Lemma set_cursor_keeps w al b p sel b' : set_cursor w al b p sel = Ok b' -> tb_text b' = tb_text b /\ tb_editable b' = tb_editable b.
Proof. unfold set_cursor. intros H. apply obind_ok_inv in H. destruct H as (i & _ & H). inversion H; auto. Qed.
Ltac keeps_move := match goal with
  | H : obind _ (fun p => set_cursor _ _ _ p _) = Ok _ |- _ => apply obind_ok_inv in H; destruct H as (? & _ & H); exact (set_cursor_keeps _ _ _ _ _ _ H)
  | H : set_cursor _ _ _ _ _ = Ok _ |- _ => exact (set_cursor_keeps _ _ _ _ _ _ H) end.
Lemma press_keeps w al build strip tall following preceding decode white b x y sel n b' :
  press w al build strip tall following preceding decode white b x y sel n = Ok b' -> tb_text b' = tb_text b /\ tb_editable b' = tb_editable b.
Proof.
  assert (TR : forall b1 b2 b3, tb_text b2 = tb_text b1 /\ tb_editable b2 = tb_editable b1 -> tb_text b3 = tb_text b2 /\ tb_editable b3 = tb_editable b2 ->
    tb_text b3 = tb_text b1 /\ tb_editable b3 = tb_editable b1) by (intros b1 b2 b3 [A1 A2] [B1 B2]; split; congruence).
  unfold press. intros H. apply obind_ok_inv in H. destruct H as (b1 & H1 & H2). apply TR with (b2 := b1).
  - destruct (tb_focused b).
    + apply obind_ok_inv in H1. destruct H1 as (b2 & H1 & H3). apply TR with (b2 := b2); [unfold move_mouse in H1; keeps_move|].
      assert (CS : b1 = b2 \/ (exists b3 q q', set_cursor w al b2 q false = Ok b3 /\ set_cursor w al b3 q' true = Ok b1)).
      { pose proof (Z.mod_pos_bound n 4 ltac:(lia)) as NM. assert (C4 : n mod 4 = 0 \/ n mod 4 = 1 \/ n mod 4 = 2 \/ n mod 4 = 3) by lia.
        destruct C4 as [E|[E|[E|E]]]; rewrite E in H3; [inversion H3; auto|right..]; apply obind_ok_inv in H3; destruct H3 as (b3 & H3 & H4).
        - unfold move_prev_word, move_next_word in *. apply obind_ok_inv in H3, H4. destruct H3 as (q & _ & H3), H4 as (q' & _ & H4). eauto.
        - unfold move_line_start, move_line_end in *. apply obind_ok_inv in H3, H4. destruct H3 as (q & _ & H3), H4 as (q' & _ & H4). eauto.
        - unfold move_text_start, move_text_end in *. eauto. }
      destruct CS as [->|(b3 & q & q' & E1 & E2)]; [auto|]. apply TR with (b2 := b3); eapply set_cursor_keeps; eassumption.
    + apply obind_ok_inv in H1. destruct H1 as (b2 & H1 & H3). apply TR with (b2 := b2); [eapply recalc_keeps; exact H1|unfold move_mouse in H3; keeps_move].
  - unfold gain_focus in H2. destruct (tb_focused (with_focus b1 (tb_focused b1) true)); [inversion H2; auto|]. apply recalc_keeps in H2. exact H2.
Qed.
Theorem C67_read_only_partial : forall w al build strip tall following preceding decode white cs b clip b' clip',
  tb_editable b = false -> Forall spares cs ->
  steps w al build strip tall following preceding decode white (b, clip) cs = Ok (b', clip') -> tb_text b' = tb_text b /\ tb_editable b' = false.
Proof.
  intros w al build strip tall following preceding decode white cs. induction cs as [|c cs IH]; intros b clip b' clip' ED SP H.
  - inversion H; subst. auto.
  - cbn [steps] in H. apply obind_ok_inv in H. destruct H as ([b1 clip1] & H1 & H2). inversion SP as [|? ? S1 S2].
    assert (K : tb_text b1 = tb_text b /\ tb_editable b1 = tb_editable b); [|destruct K as [K1 K2]; rewrite <- K1; apply (IH b1 clip1 b' clip'); congruence].
    clear IH H2. destruct c; cbn [spares] in S1; try contradiction; cbn [step] in H1;
      try (destruct (tb_focused b); [|solve [inversion H1; auto]]); cbn [key andb] in H1; rewrite ?ED in H1; rewrite ?andb_false_r in H1;
      try (inversion H1; auto; fail).
    + apply obind_ok_inv in H1. destruct H1 as (b2 & H1 & HE). inversion HE; subst. unfold move_prev_line in H1. keeps_move.
    + apply obind_ok_inv in H1. destruct H1 as (b2 & H1 & HE). inversion HE; subst. unfold move_next_line in H1. keeps_move.
    + destruct ctrl; apply obind_ok_inv in H1; destruct H1 as (b2 & H1 & HE); inversion HE; subst; unfold move_prev_word, move_prev_char in H1; keeps_move.
    + destruct ctrl; apply obind_ok_inv in H1; destruct H1 as (b2 & H1 & HE); inversion HE; subst; unfold move_next_word, move_next_char in H1; keeps_move.
    + destruct ctrl; apply obind_ok_inv in H1; destruct H1 as (b2 & H1 & HE); inversion HE; subst; unfold move_text_start, move_line_start in H1; keeps_move.
    + destruct ctrl; apply obind_ok_inv in H1; destruct H1 as (b2 & H1 & HE); inversion HE; subst; unfold move_text_end, move_line_end in H1; keeps_move.
    + apply obind_ok_inv in H1. destruct H1 as (b2 & _ & HE). inversion HE; auto.
    + unfold paste in H1. rewrite ED in H1. inversion H1; auto.
    + apply obind_ok_inv in H1. destruct H1 as (b2 & H1 & HE). inversion HE; subst. apply obind_ok_inv in H1. destruct H1 as (b3 & H1 & H3).
      apply set_cursor_keeps in H1, H3. destruct H1, H3. split; congruence.
    + apply obind_ok_inv in H1. destruct H1 as (b2 & H1 & HE). inversion HE; subst. eapply press_keeps; exact H1.
    + destruct (tb_drag b); cbn [andb] in H1; [|inversion H1; auto]. apply obind_ok_inv in H1. destruct H1 as (b2 & H1 & HE). inversion HE; subst. unfold move_mouse in H1. keeps_move.
    + apply obind_ok_inv in H1. destruct H1 as (b2 & H1 & HE). inversion HE; subst. unfold lose_focus in H1. destruct (tb_focused b); [|inversion H1; auto]. apply recalc_keeps in H1. exact H1.
    + inversion H1; subst. unfold update. destruct (flash_loop _ _ _); auto.
    + apply obind_ok_inv in H1. destruct H1 as (b2 & H1 & HE). inversion HE; subst. apply recalc_keeps in H1. rewrite ED. exact H1.
Qed.
Print Assumptions C67_read_only_partial.
Example C67_used : exists b clip, e_steps (fresh false true, Some [98]) [CReplace he] = Ok (b, clip) /\
  exists b', e_steps (b, clip) [CPress 0 5 false 0; CType 120; KAll; KCut; KPaste; KCopy; CAway] = Ok (b', Some he) /\ tb_text b' = he.
Proof. do 2 eexists. split; [vm_compute; reflexivity|]. eexists. split; [vm_compute; reflexivity|reflexivity]. Qed.

(** Backspace, Delete, Enter and Tab change the text of a read-only box. *)
Theorem C67_keys_refuted : exists b clip, e_steps (fresh false true, None) [CReplace [97; 98]; CPress 0 5 false 0; KRight false false] = Ok (b, clip) /\ tb_editable b = false /\ tb_text b = [97; 98] /\
  forall c t, In (c, t) [(KBackspace false, [98]); (KDelete false, [97]); (KEnter, [97; 10; 98]); (KTab, [97; 9; 98])] -> exists b', e_steps (b, clip) [c] = Ok (b', clip) /\ tb_text b' = t.
Proof.
  do 2 eexists. split; [vm_compute; reflexivity|]. split; [reflexivity|]. split; [reflexivity|]. intros c t [E|[E|[E|[E|[]]]]]; inversion E; subst; eexists; (split; [vm_compute; reflexivity|reflexivity]).
Qed.
Print Assumptions C67_keys_refuted.
