(** C115: carets in reading order. *)
From Coq Require Import Lqa.
From Verif Require Import Base FloatModel BaseFacts PackingModel PackingProofs LayoutModel LayoutSpec LayoutProofs LayoutCursorProofs LayoutHitProofs LayoutTableProofs
  LayoutProps CursorModel CursorSpec CursorProofs CursorProps TextBoxModel TextBoxLayoutProofs ClickSpec ClickProofs ClickProps KeyCaretSpec KeyCaretProofs KeyCaretProps
  ReadOrderSpec ReadOrderProofs.
Open Scope Z_scope.

(** ** C115 *)

(** In left-to-right text a cursor further on is drawn in a lower line, or in the same line
    and not further left. *)
Theorem C115_reading_order : forall d y lay w al c c', doc_ok d -> stored d y lay -> ltr_text d ->
  has_caret d (cp_get_position c) -> has_caret d (cp_get_position c') -> cp_get_position c < cp_get_position c' ->
  exists i i', calc_cursor_pixel_pos lay w al c = Ok i /\ calc_cursor_pixel_pos lay w al c' = Ok i' /\ not_after i i'.
Proof. intros d y lay w al c c' OKD ST T H H' L. rewrite (stored_eq OKD ST). exact (@carets_in_order d y w al OKD T c c' H H' L). Qed.
Print Assumptions C115_reading_order.

(** So Right and Ctrl+Right never draw the caret before the place where it was, Left and
    Ctrl+Left never after it, and each moves the cursor unless it is at the end (start). *)
Theorem C115_right_left : forall w al build strip tall B following preceding decode white b clip d y ctrl sel,
  let n := Z.of_nat (length (tb_ctrl b)) in let p := cp_get_position (tb_cursor b) in
  doc_ok d -> stored d y (tb_layout b) -> ltr_text d -> n < 2 ^ 31 -> stops_ok B n -> (forall q, B q -> has_caret d q) ->
  follows_stops B (following (tb_ctrl b)) -> precedes_stops B (preceding (tb_ctrl b)) ->
  p <= n -> has_caret d p -> calc_cursor_pixel_pos (tb_layout b) w al (tb_cursor b) = Ok (tb_info b) ->
  (exists b', key w al build strip tall following preceding decode white b clip (KRight ctrl sel) = Ok (b', clip) /\ only_moved b b' sel /\
     not_after (tb_info b) (tb_info b') /\ (p < n -> p < cp_get_position (tb_cursor b')) /\ (p = n -> tb_cursor b' = tb_cursor b)) /\
  (exists b', key w al build strip tall following preceding decode white b clip (KLeft ctrl sel) = Ok (b', clip) /\ only_moved b b' sel /\
     not_after (tb_info b') (tb_info b) /\ (0 < p -> cp_get_position (tb_cursor b') < p) /\ (p = 0 -> tb_cursor b' = tb_cursor b)).
Proof.
  intros w al build strip tall B following preceding decode white b clip d y ctrl sel n p OKD ST T N SO HB F P Hp HC HI.
  pose proof SO as (S0 & SN & SR). assert (RN : 0 <= n < 2 ^ 31) by (unfold n in *; lia). pose proof (position_range (tb_cursor b)) as PR. fold p in PR.
  assert (SELF : not_after (tb_info b) (tb_info b)) by (right; split; [reflexivity|apply Qle_refl]).
  assert (GO : forall c, (B (cp_get_position c) /\ p < cp_get_position c) \/ c = tb_cursor b /\ p = n ->
    exists b', set_cursor w al b c sel = Ok b' /\ only_moved b b' sel /\ not_after (tb_info b) (tb_info b') /\ (p < n -> p < cp_get_position (tb_cursor b')) /\ (p = n -> tb_cursor b' = tb_cursor b)).
  { intros c [[H1 H2]|[-> H2]].
    - destruct (C115_reading_order d y (tb_layout b) w al (tb_cursor b) c OKD ST T HC (HB _ H1) H2) as (i & i' & E1 & E2 & E3).
      assert (i = tb_info b) by congruence. subst i. destruct (set_cursor_moved w al b c sel i' E2) as (b' & F1 & F2 & F3 & F4).
      exists b'. split; [exact F1|]. split; [exact F2|]. rewrite F3, F4. split; [exact E3|]. split; [auto|]. intros E. destruct (SR _ H1). lia.
    - destruct (set_cursor_moved w al b (tb_cursor b) sel _ HI) as (b' & F1 & F2 & F3 & F4).
      exists b'. split; [exact F1|]. split; [exact F2|]. rewrite F3, F4. split; [exact SELF|]. split; [lia|auto]. }
  assert (BACK : forall c, (B (cp_get_position c) /\ cp_get_position c < p) \/ c = tb_cursor b /\ p = 0 ->
    exists b', set_cursor w al b c sel = Ok b' /\ only_moved b b' sel /\ not_after (tb_info b') (tb_info b) /\ (0 < p -> cp_get_position (tb_cursor b') < p) /\ (p = 0 -> tb_cursor b' = tb_cursor b)).
  { intros c [[H1 H2]|[-> H2]].
    - destruct (C115_reading_order d y (tb_layout b) w al c (tb_cursor b) OKD ST T (HB _ H1) HC H2) as (i & i' & E1 & E2 & E3).
      assert (i' = tb_info b) by congruence. subst i'. destruct (set_cursor_moved w al b c sel i E1) as (b' & F1 & F2 & F3 & F4).
      exists b'. split; [exact F1|]. split; [exact F2|]. rewrite F3, F4. split; [exact E3|]. split; [auto|]. intros E. destruct (SR _ H1). lia.
    - destruct (set_cursor_moved w al b (tb_cursor b) sel _ HI) as (b' & F1 & F2 & F3 & F4).
      exists b'. split; [exact F1|]. split; [exact F2|]. rewrite F3, F4. split; [exact SELF|]. split; [lia|auto]. }
  assert (LM : Z.of_nat (length (ctrl_memory b)) = n + 1) by (unfold ctrl_memory, n; rewrite app_length; cbn; lia).
  split; destruct ctrl; cbn [key].
  - unfold move_next_word.
    destruct (C37_next_word_partial (ctrl_memory b) B n (following (tb_ctrl b)) (decode (tb_ctrl b)) white (tb_cursor b) RN SO F ltac:(lia) ltac:(fold p; lia)) as (r & E & H).
    cbv zeta in H. fold p in H. rewrite E. cbn [obind]. destruct (GO r) as (b' & G & G').
    { destruct H as [[H ->]|(H1 & H2 & _)]; [right|left; auto]. specialize (H _ SN). split; [reflexivity|lia]. }
    rewrite G. exists b'. split; [reflexivity|exact G'].
  - unfold move_next_char. destruct (C37_next_character B n (following (tb_ctrl b)) (tb_cursor b) RN SO F) as [[(H1 & H2 & _) _]|[H E]].
    + fold p in H2. destruct (GO (next_character (following (tb_ctrl b)) (tb_cursor b)) (or_introl (conj H1 H2))) as (b' & G & G'). rewrite G. exists b'. split; [reflexivity|exact G'].
    + fold p in H. specialize (H _ SN). destruct (GO (next_character (following (tb_ctrl b)) (tb_cursor b))) as (b' & G & G'); [right; split; [exact E|lia]|].
      rewrite G. exists b'. split; [reflexivity|exact G'].
  - unfold move_prev_word.
    destruct (C37_prev_word (ctrl_memory b) B n (preceding (tb_ctrl b)) (decode (tb_ctrl b)) white (tb_cursor b) RN SO P ltac:(lia) ltac:(fold p; lia)) as (r & E & H).
    cbv zeta in H. fold p in H. rewrite E. cbn [obind]. destruct (BACK r) as (b' & G & G').
    { destruct H as [[H ->]|(H1 & H2 & _)]; [right|left; auto]. specialize (H _ S0). split; [reflexivity|lia]. }
    rewrite G. exists b'. split; [reflexivity|exact G'].
  - unfold move_prev_char. destruct (C37_prev_character B n (preceding (tb_ctrl b)) (tb_cursor b) RN SO P) as [[(H1 & H2 & _) _]|[H E]].
    + fold p in H2. destruct (BACK (prev_character (preceding (tb_ctrl b)) (tb_cursor b)) (or_introl (conj H1 H2))) as (b' & G & G'). rewrite G. exists b'. split; [reflexivity|exact G'].
    + fold p in H. specialize (H _ S0). destruct (BACK (prev_character (preceding (tb_ctrl b)) (tb_cursor b))) as (b' & G & G'); [right; split; [exact E|lia]|].
      rewrite G. exists b'. split; [reflexivity|exact G'].
Qed.
Print Assumptions C115_right_left.

(** "ab" and "c" in the first line, broken before "d"; a line feed; "e".  The first two
    glyphs are one beside the other, the third is in a run of its own. *)
Definition plain_sample : sdoc :=
  [mkline [mkrun 0 2 0 false [gl 10 0 0; gl 11 1 10] 20; mkrun 2 3 0 false [gl 12 2 20] 30] 12;
   mkline [mkrun 3 4 1 false [gl 13 3 0] 10] 12; mkline [mkrun 5 6 0 false [gl 14 5 0] 10] 12].
Definition plain_next (x : Z) : Z := if x <? 6 then x + 1 else -1.
Definition plain_prev (x : Z) : Z := if x <=? 0 then -1 else if x <=? 6 then x - 1 else 6.
Definition plain_box (c : Z) (i : cursor_info) : box :=
  {| tb_text := []; tb_content := []; tb_cursor := c; tb_anchor := cp_set_invalid 0; tb_focused := true; tb_editable := true; tb_rich := false; tb_multi := true;
     tb_selectable := true; tb_font := true; tb_drag := false; tb_layout := layout_of plain_sample 0; tb_ctrl := [97; 98; 99; 100; 10; 101]; tb_info := i; tb_timer := f32_0; tb_flash := 0 |}.
Definition plain_key (b : box) (k : cmd) :=
  key 100 XLeft (fun _ _ => lo_empty) (fun t => t) 12%Q (fun _ => plain_next) (fun _ => plain_prev) (fun _ c => nth (Z.to_nat c) [97; 98; 99; 100; 10; 101; 0] 0) (fun c => c =? 10) b None k.
Example C115_used : doc_ok plain_sample /\ ltr_text plain_sample /\ stops_ok (fun c => 0 <= c <= 6) 6 /\ (forall q, 0 <= q <= 6 -> has_caret plain_sample q) /\
  follows_stops (fun c => 0 <= c <= 6) plain_next /\ precedes_stops (fun c => 0 <= c <= 6) plain_prev /\
  (* Right from "c": first to its end, which is drawn at the start of the next line; Ctrl+Left goes back to the start *)
  exists i b1 b2, calc_cursor_pixel_pos (layout_of plain_sample 0) 100 XLeft 2 = Ok i /\ (ci_x i == 20)%Q /\ ci_line i = 0%nat /\
    plain_key (plain_box 2 i) (KRight false true) = Ok (b1, None) /\ (ci_x (tb_info b1) == 0)%Q /\ tb_line b1 = 1%nat /\ tb_anchor b1 = 2 /\
    plain_key b1 (KLeft true false) = Ok (b2, None) /\ (ci_x (tb_info b2) == 0)%Q /\ tb_line b2 = 0%nat.
Proof.
  split; [repeat constructor; discriminate|]. split.
  { split.
    { intros [|[|[|i]]] r q Er Eq; cbn in Er, Eq; try (injection Er as <-; injection Eq as <-); cbn; [| | |destruct i; discriminate]; (split; [reflexivity|]; split; [reflexivity|reflexivity]). }
    split; [discriminate|]. split; [unfold plain_sample, doc_runs, run_ok; cbn -[Z.pow]; repeat constructor; cbn -[Z.pow]; lia|].
    split; [repeat constructor|]. split; [unfold plain_sample, doc_runs; cbn; repeat constructor; cbn; discriminate|].
    unfold plain_sample; repeat constructor; cbn; repeat split; reflexivity. }
  split; [split; [lia|split; [lia|auto]]|]. split.
  { intros q Hq. unfold has_caret. destruct (Z_le_gt_dec q 2); [eexists; split; [left; reflexivity|cbn; lia]|].
    destruct (Z_le_gt_dec q 4); [eexists; split; [right; right; left; reflexivity|cbn; lia]|]. eexists; split; [right; right; right; left; reflexivity|cbn; lia]. }
  split.
  { intros x Hx. unfold plain_next. destruct (Z.ltb_spec x 6); [left; split; [lia|split; [lia|intros; lia]]|right; split; [reflexivity|intros; lia]]. }
  split.
  { intros x Hx. unfold plain_prev. destruct (Z.leb_spec x 0); [right; split; [reflexivity|intros; lia]|].
    destruct (Z.leb_spec x 6); left; (split; [lia|split; [lia|intros; lia]]). }
  do 3 eexists. split; [vm_compute; reflexivity|]. split; [reflexivity|]. split; [reflexivity|]. split; [vm_compute; reflexivity|].
  split; [reflexivity|]. split; [reflexivity|]. split; [reflexivity|]. split; [vm_compute; reflexivity|]. split; reflexivity.
Qed.
