(** C114: Up, Down, Home and End. *)
From Coq Require Import Lqa Qabs.
From Verif Require Import Base FloatModel BaseFacts PackingModel PackingProofs LayoutModel LayoutSpec LayoutProofs LayoutCursorProofs LayoutHitProofs LayoutTableProofs
  LayoutProps CursorModel TextBoxModel TextBoxLayoutProofs ClickSpec ClickProofs ClickProps KeyCaretSpec KeyCaretProofs.
Open Scope Z_scope.

(** ** C114 *)

Lemma set_cursor_moved w al b p sel i : calc_cursor_pixel_pos (tb_layout b) w al p = Ok i ->
  exists b', set_cursor w al b p sel = Ok b' /\ only_moved b b' sel /\ tb_cursor b' = p /\ tb_info b' = i.
Proof.
  intros E. unfold set_cursor. cbn [with_cursor tb_layout]. rewrite E. cbn [obind]. eexists. split; [reflexivity|].
  cbn. split; [|split; reflexivity]. unfold only_moved. cbn. split; [reflexivity|]. split; [reflexivity|].
  split; intros ->; reflexivity.
Qed.

(** Down shows the caret in the next line and Up in the line before, at the place nearest
    to where it was; in the last (first) line the cursor stays. *)
Theorem C114_up_down : forall w al build strip tall B following preceding decode white b clip d y sel,
  doc_ok d -> stored d y (tb_layout b) -> clear_text B d -> walks B (following (tb_ctrl b)) -> (tb_line b < length d)%nat ->
  let k := tb_line b in
  (exists b', key w al build strip tall following preceding decode white b clip (KDown sel) = Ok (b', clip) /\ only_moved b b' sel /\
     ((S k < length d)%nat -> nearest_in B d y w al (S k) (ci_x (tb_info b)) b') /\ (S k = length d -> tb_cursor b' = tb_cursor b)) /\
  (exists b', key w al build strip tall following preceding decode white b clip (KUp sel) = Ok (b', clip) /\ only_moved b b' sel /\
     (forall j, k = S j -> nearest_in B d y w al j (ci_x (tb_info b)) b') /\ (k = 0%nat -> tb_cursor b' = tb_cursor b)).
Proof.
  intros w al build strip tall B following preceding decode white b clip d y sel OKD ST CT W KL k.
  pose proof CT as (J & NE & RO & BS & I & MX & ADJ & L & EM).
  assert (LL : length (lo_lines (tb_layout b)) = length d).
  { rewrite (stored_eq OKD ST). cbn [layout_of lo_lines]. unfold doc_lines. apply length_lines_of. }
  assert (STEP : forall j x, (j < length d)%nat -> exists c b', find_closest_cursor_position (following (tb_ctrl b)) (tb_layout b) w al j x = Ok c /\
    set_cursor w al b c sel = Ok b' /\ only_moved b b' sel /\ nearest_in B d y w al j x b').
  { intros j x Hj. destruct (nth_error d j) as [s|] eqn:Es; [|apply nth_error_None in Es; lia].
    assert (SUB : forall t, In t (sl_runs s) -> In t (doc_runs d)) by (intros t R; unfold doc_runs; apply in_flat_map; exists s; split; [exact (nth_error_In _ _ Es)|exact R]).
    rewrite Forall_forall in BS, I, MX, ADJ. pose proof (nth_error_In _ _ Es) as In_s.
    destruct (@click_shows B (following (tb_ctrl b)) d y j s w al x W OKD J RO EM Es) as (c & i & r & X & F1 & F2 & F3 & F4 & F5 & F6 & F7 & F8 & F9 & F10 & F11);
      try (apply Forall_forall; intros t R); auto.
    rewrite <- (stored_eq OKD ST) in F1, F2. destruct (set_cursor_moved w al b c sel i F2) as (b' & E1 & E2 & E3 & E4).
    exists c, b'. split; [exact F1|]. split; [exact E1|]. split; [exact E2|]. exists s, r, X. rewrite E3, E4.
    split; [exact Es|]. split; [exact F4|]. split; [exact F3|]. split; [exact F6|]. split; [exact F5|]. split; [|exact F11].
    exists s. auto 10. }
  assert (STAY : exists b', set_cursor w al b (tb_cursor b) sel = Ok b' /\ only_moved b b' sel /\ tb_cursor b' = tb_cursor b).
  { destruct (caret_defined d y (tb_layout b) w al (tb_cursor b) OKD ST NE) as (i & E & _).
    destruct (set_cursor_moved w al b (tb_cursor b) sel i E) as (b' & E1 & E2 & E3 & _). eauto. }
  split; cbn [key].
  - unfold move_next_line. rewrite LL. replace (length d =? 0)%nat with false by (symmetry; apply Nat.eqb_neq; lia). cbn [orb].
    destruct (Nat.ltb_spec (tb_line b) (length d - 1)) as [H|H].
    + destruct (STEP (tb_line b + 1)%nat (tb_x b) ltac:(lia)) as (c & b' & E1 & E2 & E3 & E4). rewrite E1. cbn [obind]. rewrite E2. cbn [obind].
      exists b'. split; [reflexivity|]. split; [exact E3|]. split; [intros _; replace (S k) with (tb_line b + 1)%nat by (unfold k; lia); exact E4|unfold k; lia].
    + destruct STAY as (b' & E1 & E2 & E3). cbn [obind]. rewrite E1. cbn [obind]. exists b'. split; [reflexivity|]. split; [exact E2|]. split; [unfold k; lia|auto].
  - unfold move_prev_line. destruct (Nat.ltb_spec 0 (tb_line b)) as [H|H].
    + destruct (STEP (tb_line b - 1)%nat (tb_x b) ltac:(lia)) as (c & b' & E1 & E2 & E3 & E4). rewrite E1. cbn [obind]. rewrite E2. cbn [obind].
      exists b'. split; [reflexivity|]. split; [exact E3|]. split; [intros j Hj; replace j with (tb_line b - 1)%nat by (unfold k in Hj; lia); exact E4|unfold k; lia].
    + destruct STAY as (b' & E1 & E2 & E3). cbn [obind]. rewrite E1. cbn [obind]. exists b'. split; [reflexivity|]. split; [exact E2|]. split; [unfold k; intros; lia|auto].
Qed.
Print Assumptions C114_up_down.

(** Home shows the caret at the left edge of the line it is in, End at the right edge.  The
    line begins (ends) left-to-right, or is a paragraph of one run; it does not end with an
    empty run after another. *)
Theorem C114_home_end : forall w al build strip tall B following preceding decode white b clip d y sel s first last,
  doc_ok d -> stored d y (tb_layout b) -> clear_text B d -> nth_error d (tb_line b) = Some s ->
  nth_error (sl_runs s) 0 = Some first -> nth_error (sl_runs s) (length (sl_runs s) - 1) = Some last ->
  (sr_rtl first = false \/ one_run_paragraph d (tb_line b) s -> exists b',
     key w al build strip tall following preceding decode white b clip (KHome false sel) = Ok (b', clip) /\ only_moved b b' sel /\
     caret_in d y (tb_line b) (align_x w al s + run_first_x first) (tb_info b')) /\
  (sr_start last < sr_end last \/ length (sl_runs s) = 1%nat -> exists b',
     key w al build strip tall following preceding decode white b clip (KEnd false sel) = Ok (b', clip) /\ only_moved b b' sel /\
     caret_in d y (tb_line b) (align_x w al s + sr_end_x last) (tb_info b')).
Proof.
  intros w al build strip tall B following preceding decode white b clip d y sel s first last OKD ST CT Es E0 En.
  pose proof CT as (J & NE & RO & BS & I & MX & ADJ & L & EM).
  assert (ONE : Forall (fun r => increasing (logical_chars r)) (sl_runs s)).
  { apply Forall_forall. intros t Ht. rewrite Forall_forall in I. apply I. unfold doc_runs. apply in_flat_map. exists s. split; [exact (nth_error_In _ _ Es)|exact Ht]. }
  split; cbn [key].
  - intros H. destruct (@home_shows d y (tb_line b) s w al OKD J RO EM Es ONE first E0 H) as (c & i & F1 & F2 & F3 & F4 & F5 & F6).
    rewrite <- (stored_eq OKD ST) in F1, F2. destruct (set_cursor_moved w al b c sel i F2) as (b' & E1 & E2 & E3 & E4).
    unfold move_line_start. rewrite F1. cbn [obind]. rewrite E1. cbn [obind]. exists b'. split; [reflexivity|]. split; [exact E2|]. rewrite E4. exists s. auto.
  - intros H. assert (H' : (sr_rtl last = false /\ (sr_start last < sr_end last \/ length (sl_runs s) = 1%nat)) \/ one_run_paragraph d (tb_line b) s).
    { destruct (L _ _ Es) as [[_ M]|M]; [left; split; [exact (M _ En)|exact H]|right; exact M]. }
    destruct (@end_shows d y (tb_line b) s w al OKD J RO EM Es ONE last En H') as (c & i & F1 & F2 & F3 & F4 & F5 & F6).
    rewrite <- (stored_eq OKD ST) in F1, F2. destruct (set_cursor_moved w al b c sel i F2) as (b' & E1 & E2 & E3 & E4).
    unfold move_line_end. rewrite F1. cbn [obind]. rewrite E1. cbn [obind]. exists b'. split; [reflexivity|]. split; [exact E2|]. rewrite E4. exists s. auto.
Qed.
Print Assumptions C114_home_end.

(** A box that shows a layout with its cursor at [c]. *)
Definition box_with (lay : layout) (c : Z) (i : cursor_info) : box :=
  {| tb_text := []; tb_content := []; tb_cursor := c; tb_anchor := cp_set_invalid 0; tb_focused := true; tb_editable := true; tb_rich := false; tb_multi := true;
     tb_selectable := true; tb_font := true; tb_drag := false; tb_layout := lay; tb_ctrl := []; tb_info := i; tb_timer := f32_0; tb_flash := 0 |}.
Definition press_key (b : box) (k : cmd) :=
  key 100 XLeft (fun _ _ => lo_empty) (fun t => t) 12%Q (fun _ => each) (fun _ c => c - 1) (fun _ c => c) (fun _ => false) b None k.
(** In the sample of C113 the caret stands after "g", at 70.  Down puts it at the end of the
    next line, at 10; Shift+Up after "a", at 10 in the first line, and begins a selection;
    End puts it at 80, still in the first line. *)
Example C114_used : clear_text (fun c => 0 <= c <= 11) logical_sample /\ walks (fun c => 0 <= c <= 11) each /\
  exists i b1 b2 b3, calc_cursor_pixel_pos (layout_of logical_sample 0) 100 XLeft 7 = Ok i /\ (ci_x i == 70)%Q /\ ci_line i = 0%nat /\
    press_key (box_with (layout_of logical_sample 0) 7 i) (KDown false) = Ok (b1, None) /\ (ci_x (tb_info b1) == 10)%Q /\ tb_line b1 = 1%nat /\
    press_key b1 (KUp true) = Ok (b2, None) /\ (ci_x (tb_info b2) == 10)%Q /\ tb_line b2 = 0%nat /\ tb_anchor b2 = tb_cursor b1 /\
    press_key b2 (KEnd false false) = Ok (b3, None) /\ (ci_x (tb_info b3) == 80)%Q /\ tb_line b3 = 0%nat /\ tb_cursor b3 = 2 ^ 31 + 8.
Proof.
  destruct C113_used as (J & O & R & M & EM & _ & BS & I & MX & ADJ & W & _). split.
  { split; [exact J|]. split; [discriminate|]. split; [exact R|]. split; [exact BS|]. split; [exact I|]. split; [exact MX|]. split; [exact ADJ|].
    split; [|exact EM]. intros k s E. left. rewrite Forall_forall in M. exact (M _ (nth_error_In _ _ E)). }
  split; [exact W|]. do 4 eexists. split; [vm_compute; reflexivity|]. split; [reflexivity|]. split; [reflexivity|].
  split; [vm_compute; reflexivity|]. split; [reflexivity|]. split; [reflexivity|].
  split; [vm_compute; reflexivity|]. split; [reflexivity|]. split; [reflexivity|]. split; [reflexivity|].
  split; [vm_compute; reflexivity|]. repeat split.
Qed.

(** In a left-to-right line that ends with a right-to-left word, End draws the caret on the
    left of that word: "abc" and "DEF", 60 wide, give 30. *)
Definition ends_rtl : sdoc :=
  [mkline [mkrun 0 3 0 false [gl 10 0 0; gl 11 1 10; gl 12 2 20] 30; mkrun 3 6 0 true [gl 12 5 30; gl 13 4 40; gl 14 3 50] 60] 12].
Theorem C114_end_refuted : exists d i b last s, doc_ok d /\ joined d /\ Forall run_ok (doc_runs d) /\ nth_error d 0 = Some s /\
  nth_error (sl_runs s) (length (sl_runs s) - 1) = Some last /\ calc_cursor_pixel_pos (layout_of d 0) 100 XLeft 1 = Ok i /\ ci_line i = 0%nat /\
  press_key (box_with (layout_of d 0) 1 i) (KEnd false false) = Ok (b, None) /\
  (align_x 100 XLeft s + sr_end_x last == 60)%Q /\ (ci_x (tb_info b) == 30)%Q.
Proof.
  exists ends_rtl. do 4 eexists. split; [repeat constructor; discriminate|]. split.
  { intros [|i] r q Er Eq; cbn in Er, Eq; [|destruct i; discriminate]. injection Er as <-; injection Eq as <-. cbn. split; [reflexivity|]. split; [reflexivity|].
    intros k [K1 K2] N; exfalso; apply N; cbn in K1; destruct k as [|k]; cbn in K2; try lia; split; cbn; lia. }
  split; [unfold ends_rtl, doc_runs, run_ok; cbn -[Z.pow]; repeat constructor; cbn -[Z.pow]; lia|].
  split; [reflexivity|]. split; [reflexivity|]. split; [vm_compute; reflexivity|]. split; [reflexivity|]. split; [vm_compute; reflexivity|]. split; reflexivity.
Qed.
Print Assumptions C114_end_refuted.

(** Where the lines of a right-to-left paragraph are broken without a separator, Home in the
    first line goes to the next one: the left edge of the first line and the right edge of
    the second are one position, and Home always means the second. *)
Definition broken_rtl : sdoc :=
  [mkline [mkrun 0 3 0 true [gl 12 2 0; gl 13 1 10; gl 14 0 20] 30] 12; mkline [mkrun 3 6 0 true [gl 12 5 0; gl 13 4 10; gl 14 3 20] 30] 12].
Theorem C114_home_refuted : exists d i b, doc_ok d /\ joined d /\ Forall run_ok (doc_runs d) /\
  calc_cursor_pixel_pos (layout_of d 0) 100 XLeft 1 = Ok i /\ ci_line i = 0%nat /\
  press_key (box_with (layout_of d 0) 1 i) (KHome false false) = Ok (b, None) /\ tb_line b = 1%nat.
Proof.
  exists broken_rtl. do 2 eexists. split; [repeat constructor; discriminate|]. split.
  { intros [|i] r q Er Eq; cbn in Er, Eq; [|destruct i; [discriminate|destruct i; discriminate]]. injection Er as <-; injection Eq as <-. cbn. split; [reflexivity|]. split; [reflexivity|]. reflexivity. }
  split; [unfold broken_rtl, doc_runs, run_ok; cbn -[Z.pow]; repeat constructor; cbn -[Z.pow]; lia|].
  split; [vm_compute; reflexivity|]. split; [reflexivity|]. split; [vm_compute; reflexivity|]. reflexivity.
Qed.
Print Assumptions C114_home_refuted.
