(** C113: the caret appears where the text is clicked. *)
From Coq Require Import Lqa Qabs.
From Verif Require Import Base BaseFacts PackingModel PackingProofs LayoutModel LayoutSpec LayoutProofs LayoutGeomProofs
  LayoutCaretProofs LayoutCursorProofs LayoutHitProofs LayoutTableProofs LayoutProps CursorModel CursorProps ClickSpec ClickProofs.
Open Scope Z_scope.

(** ** C113 *)

(** In text of left-to-right lines with single right-to-left words in them, and of paragraphs
    that are one line and one run of either direction, the caret drawn
    for the cursor that a click gives is in the clicked line, as high as that line, before
    or after a character of it where one can stop, and of all such places the nearest to
    the click.  Which of two carets of one position is meant, and at which end of a run it is
    drawn, is part of the cursor. *)
Theorem C113_click : forall B following d y w al x q lay, doc_ok d -> stored d y lay -> joined d -> d <> [] ->
  Forall (fun s => 0 <= sl_height s)%Q d -> walks B following -> Forall run_ok (doc_runs d) -> Forall (begins_at_stops B) (doc_runs d) ->
  Forall (fun r => increasing (logical_chars r)) (doc_runs d) -> Forall (fun r => qnondecreasing (run_xs r)) (doc_runs d) ->
  Forall (fun s => adjacent (sl_runs s)) d -> 
  (forall k s, nth_error d k = Some s -> mostly_ltr s \/ one_run_paragraph d k s) -> empty_after_separator d ->
  exists c i s r X, closest_to_position following lay w al x q = Ok c /\ calc_cursor_pixel_pos lay w al c = Ok i /\
    nth_error d (ci_line i) = Some s /\ (ci_y i == y + heights (firstn (ci_line i) d))%Q /\ (ci_height i == sl_height s)%Q /\
    (0 < q <= heights d -> heights (firstn (ci_line i) d) < q <= heights (firstn (ci_line i) d) + sl_height s)%Q /\
    In r (sl_runs s) /\ B (cp_get_position c) /\ sr_start r <= cp_get_position c <= sr_end r /\ place r (cp_get_position c) X /\
    (ci_x i == align_x w al s + X)%Q /\
    forall r' p' X', In r' (sl_runs s) -> B p' -> sr_start r' <= p' <= sr_end r' -> place r' p' X' ->
      (Qabs (x - ci_x i) <= Qabs (x - (align_x w al s + X')))%Q.
Proof.
  intros B following d y w al x q lay OKD ST J NE HT W RO BS I MX ADJ L EM.
  destruct (C56_hit B following d y w al x q lay OKD ST NE HT W RO BS) as (k & s & c & r0 & Es & K1 & K2 & E1 & E2 & _).
  assert (SUB : forall t, In t (sl_runs s) -> In t (doc_runs d)) by (intros t R; unfold doc_runs; apply in_flat_map; exists s; split; [exact (nth_error_In _ _ Es)|exact R]).
  rewrite Forall_forall in BS, I, MX, ADJ. pose proof (nth_error_In _ _ Es) as In_s.
  destruct (@click_shows B following d y k s w al x W OKD J RO EM Es) as (c' & i & r & X & F1 & F2 & F3 & F4 & F5 & F6 & F7 & F8 & F9 & F10 & F11);
    try (apply Forall_forall; intros t R); auto.
  rewrite (stored_eq OKD ST) in *. rewrite F1 in E2. injection E2 as ->. exists c, i, s, r, X. rewrite F7.
  split; [exact E1|]. split; [exact F2|]. split; [exact Es|]. split; [exact F9|]. split; [exact F10|]. split.
  - intros [Q1 Q2].
    assert (BK : (bottom d k == heights (firstn k d) + sl_height s)%Q).
    { unfold bottom. rewrite (firstn_succ _ _ Es), heights_app. cbn [heights]. ring. }
    split.
    + destruct k as [|j]; [exact Q1|]. exact (K1 j ltac:(lia)).
    + rewrite <- BK. destruct K2 as [H|H]; [exact H|]. unfold bottom. rewrite firstn_all2 by lia. exact Q2.
  - auto 10.
Qed.
Print Assumptions C113_click.

Example C113_used : joined logical_sample /\ doc_ok logical_sample /\ Forall run_ok (doc_runs logical_sample) /\
  Forall mostly_ltr logical_sample /\ empty_after_separator logical_sample /\
  Forall (fun s => 0 <= sl_height s)%Q logical_sample /\ Forall (begins_at_stops (fun c => 0 <= c <= 11)) (doc_runs logical_sample) /\
  Forall (fun r => increasing (logical_chars r)) (doc_runs logical_sample) /\ Forall (fun r => qnondecreasing (run_xs r)) (doc_runs logical_sample) /\
  Forall (fun s => adjacent (sl_runs s)) logical_sample /\ walks (fun c => 0 <= c <= 11) each /\
  (* left of the right-to-left word, inside it, and at the end of a line that was broken in a word *)
  (exists c i, closest_to_position each (layout_of logical_sample 0) 100 XRight (20 + 28) 5 = Ok c /\ c = 2 ^ 31 + 3 /\
     calc_cursor_pixel_pos (layout_of logical_sample 0) 100 XRight c = Ok i /\ (ci_x i == 20 + 30)%Q /\ ci_line i = 0%nat) /\
  (exists c i, closest_to_position each (layout_of logical_sample 0) 100 XRight (20 + 44) 5 = Ok c /\ c = 5 /\
     calc_cursor_pixel_pos (layout_of logical_sample 0) 100 XRight c = Ok i /\ (ci_x i == 20 + 40)%Q /\ ci_line i = 0%nat) /\
  (exists c i, closest_to_position each (layout_of logical_sample 0) 100 XRight (20 + 99) 5 = Ok c /\ c = 2 ^ 31 + 8 /\
     calc_cursor_pixel_pos (layout_of logical_sample 0) 100 XRight c = Ok i /\ (ci_x i == 20 + 80)%Q /\ ci_line i = 0%nat).
Proof.
  destruct C32_witness as (J & O & R & _). split; [exact J|]. split; [exact O|]. split; [exact R|]. split.
  { repeat apply Forall_cons; [| | |apply Forall_nil]; split.
    1, 3, 5: intros j r q; do 3 (destruct j as [|j]; [cbn; intros E1 E2; try discriminate E2; injection E1 as <-; injection E2 as <-; intros; try discriminate; reflexivity|]); destruct j; discriminate.
    all: intros r E; injection E as <-; reflexivity. }
  split.
  { intros i r q Er Eq. do 4 (destruct i as [|i]; [cbn in Er, Eq; injection Er as <-; injection Eq as <-; cbn; lia|]). cbn in Eq. destruct i; discriminate. }
  split; [repeat constructor; discriminate|].
  split; [unfold logical_sample, doc_runs, begins_at_stops; cbn; repeat constructor; cbn; lia|].
  split; [unfold logical_sample, doc_runs; cbn; repeat constructor; cbn; lia|].
  split; [unfold logical_sample, doc_runs; cbn; repeat constructor; cbn; discriminate|].
  split; [unfold logical_sample; repeat constructor; cbn; repeat split; reflexivity|]. split; [exact (proj1 C35_witness)|].
  split; [|split]; (do 2 eexists; split; [vm_compute; reflexivity|]; split; [reflexivity|]; split; [vm_compute; reflexivity|]; split; reflexivity).
Qed.

(** "DEF" and a separator, then "GH", both right to left: one paragraph each. *)
Definition rtl_sample : sdoc :=
  [mkline [mkrun 0 3 1 true [gl 12 2 0; gl 13 1 10; gl 14 0 20] 30] 12; mkline [mkrun 4 6 0 true [gl 15 5 0; gl 16 4 10] 20] 12].
Example C113_rtl_used : joined rtl_sample /\ doc_ok rtl_sample /\ Forall run_ok (doc_runs rtl_sample) /\ empty_after_separator rtl_sample /\
  (forall k s, nth_error rtl_sample k = Some s -> one_run_paragraph rtl_sample k s) /\
  (exists c i, closest_to_position each (layout_of rtl_sample 0) 100 XRight 99 20 = Ok c /\ c = 2 ^ 31 + 4 /\
     calc_cursor_pixel_pos (layout_of rtl_sample 0) 100 XRight c = Ok i /\ (ci_x i == 100)%Q /\ ci_line i = 1%nat).
Proof.
  split.
  { intros [|i] r q Er Eq; cbn in Er, Eq; [|destruct i; [discriminate|destruct i; discriminate]]. injection Er as <-; injection Eq as <-. cbn. split; [reflexivity|]. split; [reflexivity|]. reflexivity. }
  split; [repeat constructor; discriminate|]. split; [unfold rtl_sample, doc_runs, run_ok; cbn -[Z.pow]; repeat constructor; cbn -[Z.pow]; lia|].
  split.
  { intros [|i] r q Er Eq; cbn in Er, Eq; [|destruct i; [discriminate|destruct i; discriminate]]. injection Er as <-; injection Eq as <-. cbn. lia. }
  split.
  - intros [|[|k]] s E; [| |destruct k; discriminate]; injection E as <-; (split; [reflexivity|]); (split; [|intros k' H; injection H as <- || discriminate H]).
    1, 3: right; intros s r E1 E2; injection E1 as <-; injection E2 as <-; cbn; lia.
    left. reflexivity.
  - do 2 eexists. split; [vm_compute; reflexivity|]. split; [reflexivity|]. split; [vm_compute; reflexivity|]. split; reflexivity.
Qed.

(** A left-to-right line that ends with a right-to-left word: a click at its right end, or
    right of it, puts the cursor before the word's first letter, which is there, but with
    the affinity that draws the caret at the end of the text before, on the left of the
    word.  The sample is "abc" and "DEF" in one line of width 60: the click at 60 shows the
    caret at 30, although there is a place for it at 60. *)
Theorem C113_rtl_at_the_end_refuted : exists B following d y w al x q c i s r, doc_ok d /\ joined d /\ d <> [] /\
  Forall (fun s => 0 <= sl_height s)%Q d /\ walks B following /\ Forall run_ok (doc_runs d) /\ Forall (begins_at_stops B) (doc_runs d) /\
  Forall (fun r => increasing (logical_chars r)) (doc_runs d) /\ Forall (fun r => qnondecreasing (run_xs r)) (doc_runs d) /\
  Forall (fun s => adjacent (sl_runs s)) d /\ empty_after_separator d /\
  closest_to_position following (layout_of d y) w al x q = Ok c /\ calc_cursor_pixel_pos (layout_of d y) w al c = Ok i /\
  nth_error d 0 = Some s /\ In r (sl_runs s) /\ B (cp_get_position c) /\ place r (cp_get_position c) 60 /\
  (x == align_x w al s + 60)%Q /\ (ci_x i == align_x w al s + 30)%Q.
Proof.
  exists (fun c => 0 <= c <= 11), each, [mkline [mkrun 0 3 0 false [gl 10 0 0; gl 11 1 10; gl 12 2 20] 30; mkrun 3 6 0 true [gl 12 5 30; gl 13 4 40; gl 14 3 50] 60] 12],
    0%Q, 100%Q, XLeft, 60%Q, 5%Q.
  do 2 eexists. exists (mkline [mkrun 0 3 0 false [gl 10 0 0; gl 11 1 10; gl 12 2 20] 30; mkrun 3 6 0 true [gl 12 5 30; gl 13 4 40; gl 14 3 50] 60] 12),
    (mkrun 3 6 0 true [gl 12 5 30; gl 13 4 40; gl 14 3 50] 60).
  split; [repeat constructor; discriminate|]. split.
  { intros [|i] r q Er Eq; cbn in Er, Eq; [|destruct i; discriminate]. injection Er as <-; injection Eq as <-. cbn. split; [reflexivity|]. split; [reflexivity|].
    intros k [K1 K2] N; exfalso; apply N; cbn in K1; destruct k as [|k]; cbn in K2; try lia; split; cbn; lia. }
  split; [discriminate|]. split; [repeat constructor; discriminate|]. split; [exact (proj1 C35_witness)|].
  split; [unfold doc_runs, run_ok; cbn -[Z.pow]; repeat constructor; cbn -[Z.pow]; lia|].
  split; [unfold doc_runs, begins_at_stops; cbn; repeat constructor; cbn; lia|].
  split; [unfold doc_runs; cbn; repeat constructor; cbn; lia|].
  split; [unfold doc_runs; cbn; repeat constructor; cbn; discriminate|].
  split; [repeat constructor; cbn; repeat split; reflexivity|].
  split; [intros [|i] r q Er Eq; cbn in Er, Eq; [|destruct i; discriminate]; injection Er as <-; injection Eq as <-; cbn; lia|].
  split; [vm_compute; reflexivity|]. split; [vm_compute; reflexivity|]. split; [reflexivity|]. split; [cbn; auto|].
  split; [vm_compute; split; discriminate|]. split; [|split; reflexivity].
  right. exists 0%nat. split; [cbn; lia|]. split; [vm_compute; split; discriminate|]. vm_compute. reflexivity.
Qed.
Print Assumptions C113_rtl_at_the_end_refuted.
