(** How long UI objects live. *)
From Verif Require Import Base BaseFacts LifeModel LifeSpec LifeProofs LifeShape.

(** C94: after every history nothing that is held or used by a living object is gone, and nothing
    lives that is neither held nor used; and every further call of [set_parent] works whose
    object and new parent the program holds. *)
Theorem C94_held_partial : forall xs m, run nothing xs = Ok m ->
  (forall o, In o (held m) -> alive m o) /\ (forall a b, leads m a b -> alive m b) /\
  (forall o, alive m o -> In o (held m) \/ exists a, leads m a o) /\
  (forall c new, In c (held m) -> (forall p, new = Some p -> In p (held m)) ->
     exists m', step m (Put c new) = Ok m' /\ held m' = held m).
Proof.
  intros xs m H. pose proof (run_good nothing_good H) as G. split; [apply G|]. split; [apply G|]. split; [apply G|].
  intros c new Hc Hn. destruct (set_parent_works G Hc Hn) as [m' E]. exists m'. split; [exact E|]. exact (proj1 (proj2 (set_parent_good G E))).
Qed.
Print Assumptions C94_held_partial.

(** Every object is put under another one once: exactly those live that should. *)
Theorem C94_lives_partial : forall xs m, orderly xs -> run nothing xs = Ok m ->
  forall o, alive m o <-> lives (fun x => In x (held m)) (puts xs) o.
Proof.
  intros xs m (N & NN & level & LV) H. apply (shape_lives (level := level)); [exact (run_good nothing_good H)| |exact N|exact LV].
  exact (@run_shape level xs nothing [] m nothing_good nothing_shape N NN LV H).
Qed.
Print Assumptions C94_lives_partial.

(** A program that lets everything go leaves nothing behind. *)
Theorem C94_end_partial : forall xs m, orderly xs -> run nothing xs = Ok m -> held m = [] -> forall o, ~ alive m o.
Proof.
  intros xs m O H E o A. apply (C94_lives_partial xs m O H) in A. rewrite E in A. cbn in A. induction A; auto.
Qed.
Print Assumptions C94_end_partial.

(** The sample program: a container with a text box and a tool bar, which has a menu with a tray
    with an item; the program lets the menu, the tray and the item go at once, then all. *)
Definition sample : list op :=
  [New; New; Put 1 (Some 0); New; New; New; Put 4 (Some 3); Put 3 (Some 2); Drop 4; New; Put 5 (Some 4); Drop 5; Drop 3; Put 2 (Some 0); Drop 2].
Example sample_orderly : orderly sample.
Proof.
  split; [repeat constructor; cbn; intuition congruence|]. split; [intros c H; cbn in H; intuition congruence|].
  exists (fun o => o). cbn. intros c p H. repeat (destruct H as [H|H]; [injection H as <- <-; lia|]). destruct H.
Qed.
Example sample_lives : exists m, run nothing sample = Ok m /\ held m = [1; 0] /\ (forall o, o < 6 -> alive m o).
Proof.
  eexists. split; [vm_compute; reflexivity|]. split; [reflexivity|]. intros o L.
  do 6 (destruct o as [|o]; [unfold alive; vm_compute; discriminate|]). lia.
Qed.
Example sample_ends : exists m, run nothing (sample ++ [Drop 0; Drop 1]) = Ok m /\ held m = [] /\ objs m = [None; None; None; None; None; None].
Proof. eexists. split; [vm_compute; reflexivity|]. split; reflexivity. Qed.

(** An object that only its parent holds cannot be taken away or put elsewhere: the parent lets it
    go in the middle of [set_parent], which then goes on with the destroyed object. *)
Theorem C94_taken_refuted : exists xs m, run nothing xs = Ok m /\ In 0 (held m) /\ leads m 0 1 /\ step m (Put 1 None) = UB.
Proof.
  exists [New; New; Put 1 (Some 0); Drop 1]. eexists. split; [vm_compute; reflexivity|]. split; [cbn; auto|].
  split; [|vm_compute; reflexivity]. eexists. split; [vm_compute; reflexivity|]. left. reflexivity.
Qed.
Print Assumptions C94_taken_refuted.

(** An object that was taken away still holds the sibling that followed it: the sibling lives on
    although neither the program nor a parent has it. *)
Theorem C94_sibling_refuted : exists xs m, run nothing xs = Ok m /\ held m = [1] /\ puts xs = [(1, 0); (2, 0)] /\ In (Put 1 None) xs /\
  ~ alive m 0 /\ alive m 2.
Proof.
  exists [New; New; New; Put 1 (Some 0); Put 2 (Some 0); Put 1 None; Drop 0; Drop 2]. eexists. split; [vm_compute; reflexivity|].
  split; [reflexivity|]. split; [reflexivity|]. split; [cbn; intuition|]. split; [intros H; apply H; reflexivity|]. unfold alive. vm_compute. discriminate.
Qed.
Print Assumptions C94_sibling_refuted.

(** An object taken away and put back makes a ring of siblings that nobody holds and that is
    never destroyed. *)
Theorem C94_leak_refuted : exists xs m, run nothing xs = Ok m /\ held m = [] /\ puts xs = [(1, 0); (2, 0); (1, 0)] /\ alive m 1 /\ alive m 2.
Proof.
  exists [New; New; New; Put 1 (Some 0); Put 2 (Some 0); Put 1 None; Put 1 (Some 0); Drop 0; Drop 1; Drop 2]. eexists. split; [vm_compute; reflexivity|].
  split; [reflexivity|]. split; [reflexivity|]. split; unfold alive; vm_compute; discriminate.
Qed.
Print Assumptions C94_leak_refuted.

(** Taking the last child away and adding another destroys the children before it. *)
Theorem C94_lost_refuted : exists xs m, run nothing xs = Ok m /\ In 0 (held m) /\ puts xs = [(1, 0); (2, 0); (3, 0)] /\
  ~ In (Put 1 None) xs /\ alive m 0 /\ ~ alive m 1.
Proof.
  exists [New; New; Put 1 (Some 0); Drop 1; New; Put 2 (Some 0); Put 2 None; New; Put 3 (Some 0)]. eexists. split; [vm_compute; reflexivity|].
  split; [cbn; auto|]. split; [reflexivity|]. split; [cbn; intuition congruence|]. split; [unfold alive; vm_compute; discriminate|].
  intros H. apply H. reflexivity.
Qed.
Print Assumptions C94_lost_refuted.
