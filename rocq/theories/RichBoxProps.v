(** C44 for a box of rich text, as in the sample program, while it has the focus. *)
From Coq Require Import Lia.
From Verif Require Import Base BaseFacts FloatModel PackingModel LayoutModel LayoutSpec CursorModel CursorSpec TextBoxModel TextBoxSpec TextBoxProofs TextBoxExample TextBoxProps.
Open Scope Z_scope.

Section Multi.
Variable multi : bool.
(** The same box for rich text. *)
Definition rich (b : box) : box := with_modes b (tb_editable b) true (tb_multi b) (tb_selectable b).
Definition live (b : box) : Prop := tb_focused b = true /\ tb_editable b = true /\ tb_rich b = false /\ tb_multi b = multi.
Definition sim (o1 o2 : outcome box) : Prop := match o2 with Ok b => o1 = Ok (rich b) /\ live b | UB => o1 = UB | OutOfFuel => o1 = OutOfFuel end.
Lemma sim_ret b : live b -> sim (Ok (rich b)) (Ok b).
Proof. cbn. auto. Qed.
Lemma sim_bind o1 o2 f g : sim o1 o2 -> (forall b, live b -> sim (f (rich b)) (g b)) -> sim (obind o1 f) (obind o2 g).
Proof. intros S H. destruct o2 as [b| |]; cbn in S; [destruct S as (-> & L); cbn; auto|subst; reflexivity|subst; reflexivity]. Qed.
Lemma sim_get {A} (o : outcome A) f g : (forall a, sim (f a) (g a)) -> sim (obind o f) (obind o g).
Proof. intros H. destruct o; cbn; auto. Qed.
Lemma sim_if (c : bool) a b a' b' : sim a a' -> sim b b' -> sim (if c then a else b) (if c then a' else b').
Proof. destruct c; auto. Qed.

Section Rich.
Variables (w : Q) (al : xalign) (build : bool -> list Z -> layout) (strip : list Z -> list Z) (tall : Q).
Variables (following preceding : list Z -> Z -> Z) (decode : list Z -> Z -> Z) (white : Z -> bool).
Notation recalc := (recalc w al build strip tall).
Notation set_text := (set_text w al build strip tall).

Lemma recalc_sim b : live b -> sim (recalc (rich b)) (recalc b).
Proof.
  intros (F & E & R & M). unfold TextBoxModel.recalc. cbn [rich with_modes tb_focused tb_editable tb_rich tb_font tb_text tb_cursor tb_layout]. rewrite F, E, R. cbn [andb negb].
  destruct (tb_font b); cbn [negb]; [|split; [reflexivity|repeat split; assumption]].
  destruct (tb_text b) as [|z t] eqn:T; [split; [reflexivity|repeat split; assumption]|].
  apply sim_get. intros i. split; [reflexivity|repeat split; assumption].
Qed.
Lemma set_text_sim b t : live b -> sim (set_text (rich b) t) (set_text b t).
Proof. intros L. exact (recalc_sim (with_text b t (tb_content b) (tb_layout b) (tb_ctrl b) (tb_info b)) L). Qed.
Lemma set_cursor_sim b p sel : live b -> sim (set_cursor w al (rich b) p sel) (set_cursor w al b p sel).
Proof. intros L. unfold set_cursor. apply sim_get. intros i. split; [reflexivity|exact L]. Qed.
Lemma go_sim b r sel : live b -> sim (do p <- r; set_cursor w al (rich b) p sel) (do p <- r; set_cursor w al b p sel).
Proof. intros L. apply sim_get. intros p. apply set_cursor_sim. exact L. Qed.
Lemma next_char_sim b sel : live b -> sim (move_next_char w al following (rich b) sel) (move_next_char w al following b sel).
Proof. intros L. apply (set_cursor_sim b). exact L. Qed.
Lemma prev_char_sim b sel : live b -> sim (move_prev_char w al preceding (rich b) sel) (move_prev_char w al preceding b sel).
Proof. intros L. apply (set_cursor_sim b). exact L. Qed.
Lemma next_word_sim b sel : live b -> sim (move_next_word w al following decode white (rich b) sel) (move_next_word w al following decode white b sel).
Proof. intros L. apply (go_sim b). exact L. Qed.
Lemma prev_word_sim b sel : live b -> sim (move_prev_word w al preceding decode white (rich b) sel) (move_prev_word w al preceding decode white b sel).
Proof. intros L. apply (go_sim b). exact L. Qed.
Lemma line_start_sim b sel : live b -> sim (move_line_start w al (rich b) sel) (move_line_start w al b sel).
Proof. intros L. apply (go_sim b). exact L. Qed.
Lemma line_end_sim b sel : live b -> sim (move_line_end w al (rich b) sel) (move_line_end w al b sel).
Proof. intros L. apply (go_sim b). exact L. Qed.
Lemma text_start_sim b sel : live b -> sim (move_text_start w al (rich b) sel) (move_text_start w al b sel).
Proof. intros L. apply (set_cursor_sim b). exact L. Qed.
Lemma text_end_sim b sel : live b -> sim (move_text_end w al (rich b) sel) (move_text_end w al b sel).
Proof. intros L. apply (set_cursor_sim b). exact L. Qed.
Lemma mouse_sim b x y sel : live b -> sim (move_mouse w al following (rich b) x y sel) (move_mouse w al following b x y sel).
Proof. intros L. apply (go_sim b). exact L. Qed.
Lemma remove_text_sim b i j : live b -> sim (remove_text w al build strip tall (rich b) i j) (remove_text w al build strip tall b i j).
Proof. intros L. unfold remove_text. apply sim_get. intros s. apply sim_get. intros e. apply (set_text_sim b). exact L. Qed.
Lemma insert_text_sim b s i : live b -> sim (insert_text w al build strip tall (rich b) s i) (insert_text w al build strip tall b s i).
Proof.
  intros L. unfold insert_text. cbn [rich with_modes with_cursor tb_text tb_cursor tb_anchor].
  set (b1 := with_cursor b (cp_make (cp_get_position (tb_cursor b) + Z.of_nat (length s))) (tb_anchor b)). assert (L1 : live b1) by exact L.
  apply sim_if; [apply sim_get; intros x; apply sim_get; intros y|]; apply (set_text_sim b1); exact L1.
Qed.
Lemma highlighted_sim b : live b -> sim (remove_highlighted w al build strip tall (rich b)) (remove_highlighted w al build strip tall b).
Proof.
  intros L. unfold remove_highlighted. cbn [rich with_modes tb_cursor tb_anchor]. apply sim_if; [apply sim_ret; exact L|].
  destruct (cp_get_position (tb_cursor b) <? cp_get_position (tb_anchor b)); apply (remove_text_sim (with_cursor b _ invalid_value)); exact L.
Qed.
Lemma typed_sim b c : live b -> sim (insert_typed w al build strip tall (rich b) c) (insert_typed w al build strip tall b c).
Proof.
  intros L. unfold insert_typed. apply sim_bind.
  - cbn [rich with_modes tb_anchor]. apply sim_if; [apply highlighted_sim; exact L|apply sim_ret; exact L].
  - intros b1 L1. apply (insert_text_sim b1). exact L1.
Qed.
Lemma backspace_sim b c : live b -> sim (key_backspace w al build strip tall preceding decode white (rich b) c) (key_backspace w al build strip tall preceding decode white b c).
Proof.
  intros L. unfold key_backspace. cbn [rich with_modes tb_anchor tb_cursor]. apply sim_if; [apply highlighted_sim; exact L|]. apply sim_if; [|apply sim_ret; exact L].
  apply sim_bind; [apply sim_if; [apply prev_word_sim|apply prev_char_sim]; exact L|]. intros b1 L1. apply (remove_text_sim b1). exact L1.
Qed.
Lemma delete_sim b c : live b -> sim (key_delete w al build strip tall following decode white (rich b) c) (key_delete w al build strip tall following decode white b c).
Proof.
  intros L. unfold key_delete. cbn [rich with_modes tb_anchor tb_cursor tb_text]. apply sim_if; [apply highlighted_sim; exact L|]. apply sim_if; [|apply sim_ret; exact L].
  apply sim_bind; [apply sim_if; [apply next_word_sim|apply next_char_sim]; exact L|]. intros b1 L1. apply (remove_text_sim (with_cursor b1 (tb_cursor b) (tb_anchor b1))). exact L1.
Qed.
Lemma paste_sim b clip : live b -> sim (paste w al build strip tall (rich b) clip) (paste w al build strip tall b clip).
Proof.
  intros L. unfold paste. cbn [rich with_modes tb_editable]. apply sim_if; [|apply sim_ret; exact L]. apply sim_bind; [apply highlighted_sim; exact L|].
  intros b1 L1. destruct clip; [apply (insert_text_sim b1); exact L1|reflexivity].
Qed.
Lemma press_sim b x y sel n : live b ->
  sim (press w al build strip tall following preceding decode white (rich b) x y sel n) (press w al build strip tall following preceding decode white b x y sel n).
Proof.
  intros L. unfold press. cbn [rich with_modes tb_focused]. pose proof L as (F & _). rewrite F. apply sim_bind.
  - apply sim_bind; [apply (mouse_sim b); exact L|]. intros b1 L1. destruct (n mod 4) as [|[[p|p|]|[p|p|]|]|]; try (apply sim_ret; exact L1).
    + apply sim_bind; [apply text_start_sim; exact L1|intros b2 L2; apply text_end_sim; exact L2].
    + apply sim_bind; [apply line_start_sim; exact L1|intros b2 L2; apply line_end_sim; exact L2].
    + apply sim_bind; [apply prev_word_sim; exact L1|intros b2 L2; apply next_word_sim; exact L2].
  - intros b1 L1. unfold gain_focus. cbn [rich with_modes with_focus tb_focused]. pose proof L1 as (F1 & _). rewrite F1. split; [reflexivity|]. repeat split; apply L1.
Qed.

(** Events that leave the box its focus and its modes. *)
Definition stays (c : cmd) : Prop :=
  match c with CAway | CMulti _ | CRich _ | CEditable _ => False | KEnter => multi = true | _ => True end.
Definition sim2 (o1 o2 : outcome (box * option (list Z))) : Prop :=
  match o2 with Ok (b, clip) => o1 = Ok (rich b, clip) /\ live b | UB => o1 = UB | OutOfFuel => o1 = OutOfFuel end.
Lemma sim_keep (o1 o2 : outcome box) (clip : option (list Z)) : sim o1 o2 -> sim2 (do b <- o1; Ok (b, clip)) (do b <- o2; Ok (b, clip)).
Proof. destruct o2; cbn; [intros (-> & L); auto|intros ->; reflexivity|intros ->; reflexivity]. Qed.
Lemma step_sim b clip c : live b -> stays c ->
  sim2 (step w al build strip tall following preceding decode white (rich b, clip) c) (step w al build strip tall following preceding decode white (b, clip) c).
Proof.
  intros L ST. assert (SELF : sim2 (Ok (rich b, clip)) (Ok (b, clip))) by (split; [reflexivity|exact L]). pose proof L as (F & ED & _ & MU).
  destruct c; cbn [stays] in ST; try contradiction; cbn [step]; change (tb_focused (rich b)) with (tb_focused b); change (tb_editable (rich b)) with (tb_editable b);
    change (tb_drag (rich b)) with (tb_drag b); change (tb_multi (rich b)) with (tb_multi b); change (tb_selectable (rich b)) with (tb_selectable b);
    rewrite ?F; cbn [key andb]; change (tb_editable (rich b)) with (tb_editable b); rewrite ?ED; cbn [andb].
  - apply sim_keep. apply (go_sim b). exact L.
  - apply sim_keep. apply (go_sim b). exact L.
  - destruct ctrl; apply sim_keep; [apply prev_word_sim|apply prev_char_sim]; exact L.
  - destruct ctrl; apply sim_keep; [apply next_word_sim|apply next_char_sim]; exact L.
  - destruct ctrl; apply sim_keep; [apply text_start_sim|apply line_start_sim]; exact L.
  - destruct ctrl; apply sim_keep; [apply text_end_sim|apply line_end_sim]; exact L.
  - apply sim_keep. apply backspace_sim. exact L.
  - apply sim_keep. apply delete_sim. exact L.
  - apply sim_keep. unfold key_enter. change (tb_multi (rich b)) with (tb_multi b). rewrite MU, ST. apply sim_bind; [apply highlighted_sim; exact L|]. intros b1 L1. apply typed_sim. exact L1.
  - apply sim_keep. apply typed_sim. exact L.
  - change (copy (rich b) clip) with (copy b clip). destruct (copy b clip) as [clip1| |]; cbn [obind]; try reflexivity. apply sim_keep. apply highlighted_sim. exact L.
  - change (copy (rich b) clip) with (copy b clip). destruct (copy b clip) as [clip1| |]; cbn [obind]; try reflexivity. split; [reflexivity|exact L].
  - apply sim_keep. apply paste_sim. exact L.
  - apply sim_keep. apply sim_bind; [apply text_start_sim; exact L|intros b2 L2; apply text_end_sim; exact L2].
  - apply sim_keep. apply typed_sim. exact L.
  - apply sim_keep. apply press_sim. exact L.
  - split; [reflexivity|]. repeat split; [exact ED|apply L|exact MU].
  - destruct (tb_drag b); [|exact SELF]. apply sim_keep. apply mouse_sim. exact L.
  - apply sim_keep. apply set_text_sim. exact L.
  - split; [reflexivity|exact L].
  - unfold update. change (tb_timer (rich b)) with (tb_timer b). change (tb_flash (rich b)) with (tb_flash b). destruct (flash_loop _ _ _). split; [reflexivity|exact L].
  - split; [reflexivity|]. split; [exact F|]. split; [reflexivity|]. split; [apply L|exact MU].
Qed.
Lemma steps_sim cs : forall b clip, live b -> Forall stays cs ->
  sim2 (steps w al build strip tall following preceding decode white (rich b, clip) cs) (steps w al build strip tall following preceding decode white (b, clip) cs).
Proof.
  induction cs as [|c cs IH]; intros b clip L ST; [split; [reflexivity|exact L]|]. inversion ST as [|? ? S1 S2]. cbn [steps]. pose proof (step_sim b clip c L S1) as SM.
  destruct (step _ _ _ _ _ _ _ _ _ (b, clip) c) as [[b1 clip1]| |]; cbn [sim2] in SM; [destruct SM as (-> & L1); apply IH; assumption|rewrite SM; reflexivity..].
Qed.
End Rich.
End Multi.

(** A box of rich text that can be edited and has the focus shows its source, and every
    history of events up to the loss of the focus does what C44 says: the sample program's box.
    It may start with any text, cursor and selection between characters, as soon as the box has
    laid out the text with the focus ([recalc]).  Missing: boxes without focus, where the click
    that gives it looks for the cursor in the text without its tags ([C44_rich_refuted]). *)
Theorem C44_rich_partial : forall w al build strip tall B following preceding decode white b clip cs,
  good_stops B following preceding -> good_layouts (build false) B ->
  tb_rich b = true -> tb_font b = true -> tb_focused b = true -> tb_editable b = true ->
  sound (view_of b) -> match clip with Some s => valid_utf8 s | None => True end ->
  Forall (stays (tb_multi b)) cs -> allowed_all w al (build false) B following decode white (view_of b) clip cs ->
  exists b' clip', (do b1 <- recalc w al build strip tall b; steps w al build strip tall following preceding decode white (b1, clip) cs) = Ok (b', clip') /\
    does_all w al (build false) B following decode white (view_of b) clip cs (view_of b') clip' /\ sound (view_of b') /\ tb_rich b' = true.
Proof.
  intros w al build strip tall B following preceding decode white b clip cs GS GL RI FO FC ED SO CV ST AL.
  set (p := with_modes b (tb_editable b) false (tb_multi b) (tb_selectable b)).
  assert (LP : live (tb_multi b) p) by (repeat split; assumption). assert (RP : rich p = b) by (destruct b; cbn in *; subst; reflexivity).
  destruct (recalc_ready w al build strip tall B GL p (conj eq_refl FO) SO) as (p1 & E1 & R1 & V1).
  pose proof (recalc_sim (tb_multi b) w al build strip tall p LP) as S1. rewrite RP, E1 in S1. destruct S1 as (S1 & L1). rewrite S1. cbn [obind].
  change (view_of b) with (view_of p) in AL. rewrite <- V1 in AL.
  destruct (steps_ok w al build strip tall B following preceding decode white GS GL cs p1 clip R1 CV AL) as (p' & clip' & E2 & R2 & D).
  pose proof (steps_sim (tb_multi b) w al build strip tall following preceding decode white cs p1 clip L1 ST) as S2. rewrite E2 in S2. destruct S2 as (S2 & _).
  exists (rich p'), clip'. split; [exact S2|]. change (view_of (rich p')) with (view_of p'). rewrite V1 in D. split; [exact D|]. split; [|reflexivity]. apply R2.
Qed.
Print Assumptions C44_rich_partial.

(** "<b>hi</b>" in the sample's box: the cursor goes behind "<b>" and "x" is typed there. *)
Example C44_rich_used : exists b clip, e_steps (rich_box true, None) [CReplace tagged; CPress 0 5 false 0; KRight false false; KRight false false; KRight false false; CType 120] = Ok (b, clip) /\ tb_focused b = true /\ tb_rich b = true /\ tb_text b = [60; 98; 62; 120; 104; 105; 60; 47; 98; 62] /\ sound (view_of b).
Proof.
  do 2 eexists. split; [vm_compute; reflexivity|]. repeat split; try reflexivity; try (vm_compute; discriminate).
  - exists [60; 98; 62; 120; 104; 105; 60; 47; 98; 62]. split; [repeat constructor; unfold scalar; lia|reflexivity].
  - intros c H. vm_compute in H. injection H as <-. lia.
  - intros c H. vm_compute in H. injection H as <-. lia.
Qed.
