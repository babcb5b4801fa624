(** C90: a layout builder's memory. *)
From Coq Require Import Lia Bool.
From Verif Require Import Base BaseFacts WorkModel WorkSpec WorkProofs.
Open Scope list_scope.

(** Whatever a program does with its builders, they use and release only what exists, and everything that exists between two calls, apart
    from ICU's text blocks, is held by exactly one builder: nothing that bidirectional analysis makes outlives the call, not even of a text whose lines and
    paragraphs come in any number. *)
Theorem C90_owned : forall os w, work_steps work_start os = Ok w ->
  work_proper (ww_record w) /\
  (forall k n, k <> TextBlock -> exists_now (ww_record w) k n -> exists! i, exists b, nth_error (ww_builders w) i = Some (Some b) /\ held_by b k n) /\
  (forall i b k n, nth_error (ww_builders w) i = Some (Some b) -> held_by b k n -> exists_now (ww_record w) k n).
Proof.
  intros os w E. destruct (steps_inv _ _ _ winv_start E) as [I _]. split; [apply I|]. split.
  - intros k n K X. apply (wi_held _ I) in X; [|exact K]. destruct X as (i & b & P & H). exists i. split; [exists b; auto|]. intros j (c & PC & HC). exact (wi_once _ I _ _ _ _ _ _ P PC H HC).
  - intros i b k n P H. exact (holds_of _ _ _ I P k n H).
Qed.
Print Assumptions C90_owned.

(** When the last builder has ended nothing is left but text blocks. What is missing: these. *)
Theorem C90_end_partial : forall os w, work_steps work_start os = Ok w -> (forall i b, nth_error (ww_builders w) i = Some b -> b = None) ->
  forall k n, exists_now (ww_record w) k n -> k = TextBlock.
Proof.
  intros os w E N k n X. destruct (kind_dec k TextBlock) as [K|K]; [exact K|]. destruct (C90_owned os w E) as (_ & O & _). destruct (O k n K X) as (i & (b & P & _) & _). discriminate (N _ _ P).
Qed.
Print Assumptions C90_end_partial.

(** Builders are created, moved, assigned to (also to themselves) and ended without undefined behaviour, and any text can be laid out with one that
    was not moved from. A move hands over what the builder holds. *)
Theorem C90_defined_partial : forall os w, work_steps work_start os = Ok w ->
  (exists w' b, work_step w NewBuilder = Ok w' /\ nth_error (ww_builders w') (length (ww_builders w)) = Some (Some b) /\ whole b) /\
  forall i b, nth_error (ww_builders w) i = Some (Some b) ->
    (exists w', work_step w (EndBuilder i) = Ok w' /\ nth_error (ww_builders w') i = Some None) /\
    (exists w' new, work_step w (MoveBuilder i) = Ok w' /\ nth_error (ww_builders w') (length (ww_builders w)) = Some (Some new) /\ (forall k n, held_by new k n <-> held_by b k n)) /\
    (forall j c, nth_error (ww_builders w) j = Some (Some c) -> exists w' b', work_step w (AssignBuilder i j) = Ok w' /\ nth_error (ww_builders w') i = Some (Some b') /\ (forall k n, held_by b' k n <-> held_by c k n)) /\
    (whole b -> forall breaking ps, exists w' b', work_step w (Layout i breaking ps) = Ok w' /\ nth_error (ww_builders w') i = Some (Some b') /\ whole b').
Proof.
  intros os w E. destruct (steps_inv _ _ _ winv_start E) as [I _]. split.
  { cbn [work_step]. destruct (new_builder (ww_record w)) as [tr b] eqn:NB. destruct (new_held _ _ _ (wi_good _ I) NB) as (_ & _ & W & _). eexists; exists b. split; [reflexivity|]. split; [apply (in_snoc tr); auto|exact W]. }
  intros i b P. assert (A : at_place w i = Ok b) by (apply at_place_ok; exact P). pose proof (in_place_lt _ _ _ P) as L. split; [|split; [|split]].
  - eexists. split; [cbn [work_step]; rewrite A; reflexivity|]. cbn [ww_builders]. apply nth_error_list_set_same, L.
  - eexists. eexists. split; [cbn [work_step]; rewrite A; reflexivity|]. cbn [ww_builders]. split; [apply (in_snoc []); left; split; [rewrite length_list_set; reflexivity|reflexivity]|]. intros k n. unfold held_by. cbn. tauto.
  - intros j c PC. assert (AC : at_place w j = Ok c) by (apply at_place_ok; exact PC). cbn [work_step]. rewrite A, AC. cbn [obind]. unfold assign_builder. cbv beta iota zeta. destruct (Nat.eqb_spec i j) as [->|NE].
    + do 2 eexists. split; [reflexivity|]. split; [exact P|]. unfold in_place in *. rewrite P in PC. injection PC as ->. tauto.
    + do 2 eexists. split; [reflexivity|]. cbn [ww_builders]. split; [rewrite nth_error_list_set_other by congruence; apply nth_error_list_set_same, L|]. intros k n. unfold held_by. cbn. tauto.
  - intros W breaking ps. destruct (layout_frame _ _ breaking ps (wi_good _ I) (holds_of _ _ _ I P) W) as (tr & b' & EL & _ & (E1 & E2) & _). exists {| ww_record := tr; ww_builders := list_set (ww_builders w) i (Some b') |}, b'. split; [cbn [work_step]; rewrite A; cbn [obind]; rewrite EL; reflexivity|]. cbn [ww_builders].
    split; [apply nth_error_list_set_same, L|]. unfold whole. rewrite E1, E2. exact W.
Qed.
Print Assumptions C90_defined_partial.

(** Every text block that was ever made is still there, and how many there are follows from the texts laid out: one for each run of a font and, if lines are
    broken, one for each paragraph with text. *)
Theorem C90_blocks : forall os w, work_steps work_start os = Ok w ->
  (forall n, exists_now (ww_record w) TextBlock n <-> In (Got TextBlock n) (ww_record w)) /\
  blocks_made (ww_record w) = list_sum (map (fun o => match o with Layout _ breaking ps => runs_of ps + (if breaking then texts ps else 0) | _ => 0 end) os).
Proof. intros os w E. destruct (steps_inv _ _ _ winv_start E) as [I C]. split; [apply I|]. rewrite C. reflexivity. Qed.
Print Assumptions C90_blocks.

(** "Two paragraphs with an empty one between them". *)
Definition three : list work_paragraph := [{| wp_empty := false; wp_runs := 2; wp_lines := 3 |}; {| wp_empty := true; wp_runs := 0; wp_lines := 0 |}; {| wp_empty := false; wp_runs := 1; wp_lines := 1 |}].
Definition life : list work_op := [NewBuilder; Layout 0 true three; NewBuilder; MoveBuilder 0; Layout 2 false three; AssignBuilder 1 2; Layout 1 true three; EndBuilder 0; EndBuilder 1; EndBuilder 2].
Example life_runs : exists w, work_steps work_start life = Ok w /\ ww_builders w = [None; None; None] /\ blocks_made (ww_record w) = 13. Proof. eexists. split; [vm_compute; reflexivity|]. split; reflexivity. Qed.

(** Laying out a text leaves memory behind that is never released: the text ICU was given to look at is opened for every run and for every broken
    paragraph, and never closed. A program that lays out the same text on and on takes more and more memory. *)
Theorem C90_leak_refuted : exists os w, work_steps work_start os = Ok w /\ (forall i b, nth_error (ww_builders w) i = Some b -> b = None) /\ exists n, exists_now (ww_record w) TextBlock n.
Proof.
  exists [NewBuilder; Layout 0 true three; EndBuilder 0]. eexists. split; [vm_compute; reflexivity|]. split; [intros [|[|i]] b X; cbn in X; congruence|].
  exists 8. exists [Got Buffer 0; Got LineIterator 1; Used Buffer 0; Got Algorithm 3; Used Algorithm 3; Used Algorithm 3; Got Paragraph 6; Used Paragraph 6]. eexists. split; [reflexivity|]. cbn. intuition discriminate.
Qed.
Print Assumptions C90_leak_refuted.

(** Moving a builder always reads a number that was never written: the new builder's own, which the assignment swaps. *)
Theorem C90_move_refuted : forall w i w', work_step w (MoveBuilder i) = Ok w' -> exists before, ww_record w' = before ++ [Unwritten].
Proof. intros w i w' E. cbn [work_step] in E. destruct (at_place w i) as [b| |]; cbn [obind] in E; try discriminate. injection E as <-. eexists. reflexivity. Qed.
Print Assumptions C90_move_refuted.

(** A builder that was moved from has nothing to lay out with: any text but line breaks makes it use null pointers. *)
Theorem C90_moved_refuted : exists os w, work_steps work_start os = Ok w /\ nth_error (ww_builders w) 0 <> None /\ work_step w (Layout 0 false three) = UB.
Proof. exists [NewBuilder; MoveBuilder 0]. eexists. split; [vm_compute; reflexivity|]. split; [discriminate|reflexivity]. Qed.
Print Assumptions C90_moved_refuted.
