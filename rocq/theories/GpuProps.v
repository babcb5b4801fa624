(** C86: the sample program's OpenGL objects. *)
From Verif Require Import Base GpuModel GpuSpec GpuProofs.
From Coq Require Import Lia.
Open Scope list_scope.

(** Whatever a program does with images and pipelines: OpenGL is only told to use or delete
    objects that exist; every object that exists belongs to exactly one image or pipeline;
    nothing an image or pipeline holds is gone. *)
Theorem C86_owned_once : forall name compiles links, names_fresh name ->
  forall os w, run name compiles links nothing os = Ok w ->
  proper (w_told w) /\
  (forall k n, In (k, n) (existing (w_told w)) <-> exists o, owns w o k n) /\
  (forall k n o o', owns w o k n -> owns w o' k n -> o = o').
Proof. intros name compiles links F os w E. pose proof (run_inv compiles links F os inv_nothing E) as [P O U]. auto. Qed.
Print Assumptions C86_owned_once.

(** Shaders never outlive the making of a pipeline; and when every image and pipeline is gone
    no OpenGL object is left. *)
Theorem C86_none_left : forall name compiles links, names_fresh name ->
  forall os w, run name compiles links nothing os = Ok w ->
  (forall n, ~ In (Shader, n) (existing (w_told w))) /\
  (all_gone w -> existing (w_told w) = []).
Proof.
  intros name compiles links F os w E. pose proof (run_inv compiles links F os inv_nothing E) as I. split; [|apply gone_none; exact I].
  intros n H. apply (i_owned I) in H. destruct H as ([i|i] & (a & _ & H) & _); intuition discriminate.
Qed.
Print Assumptions C86_none_left.

(** Moving hands the objects on: the new one has what the old one had, the old one has nothing;
    assigning swaps them; everything else is as before. *)
Theorem C86_moves : forall name compiles links w w',
  (forall i, step name compiles links w (ImageMove i) = Ok w' ->
     w_told w' = w_told w /\ forall o k n, owns w' o k n <-> owns w (if owner_eqb o (OfImage (length (w_images w))) then OfImage i else o) k n /\ o <> OfImage i) /\
  (forall i, step name compiles links w (PipeMove i) = Ok w' ->
     w_told w' = w_told w /\ forall o k n, owns w' o k n <-> owns w (if owner_eqb o (OfPipeline (length (w_pipelines w))) then OfPipeline i else o) k n /\ o <> OfPipeline i) /\
  (forall i j, step name compiles links w (ImageAssign i j) = Ok w' ->
     w_told w' = w_told w /\ forall o k n, owns w' o k n <-> owns w (swapped (OfImage i) (OfImage j) o) k n) /\
  (forall i j, step name compiles links w (PipeAssign i j) = Ok w' ->
     w_told w' = w_told w /\ forall o k n, owns w' o k n <-> owns w (swapped (OfPipeline i) (OfPipeline j) o) k n).
Proof.
  intros. split; [|split; [|split]].
  - intros i E. split; [exact (told_kept _ _ _ _ _ E I)|]. intros o k n. eapply move_image_owns, E.
  - intros i E. split; [exact (told_kept _ _ _ _ _ E I)|]. intros o k n. eapply move_pipe_owns, E.
  - intros i j E. split; [exact (told_kept _ _ _ _ _ E I)|]. intros o k n. eapply assign_image_owns, E.
  - intros i j E. split; [exact (told_kept _ _ _ _ _ E I)|]. intros o k n. eapply assign_pipe_owns, E.
Qed.
Print Assumptions C86_moves.

(** As long as a program names objects that are there and makes them with all members written,
    every step is defined. *)
Theorem C86_defined_partial : forall name compiles links os w o,
  run name compiles links nothing os = Ok w -> forallb writes os = true ->
  names_place w o -> writes o = true -> exists w', step name compiles links w o = Ok w'.
Proof.
  intros name compiles links os w o E B N C. assert (W : written nothing) by (split; intros i a H; destruct i; discriminate).
  destruct (@step_defined name compiles links w o (run_written name compiles links os W B E) N C) as (w' & E' & _). eauto.
Qed.
Print Assumptions C86_defined_partial.

(** The program's own pipelines: whatever compiles or not, making them and unmaking them works,
    leaves no object behind and tells OpenGL nothing improper. *)
Theorem C86_start_to_end : forall name compiles links, names_fresh name ->
  exists w, run name compiles links nothing (at_start ++ init_pipelines 3 ++ deinit_pipelines 6) = Ok w /\
  proper (w_told w) /\ existing (w_told w) = [].
Proof.
  intros name compiles links F. destruct (start_to_end name compiles links) as (w & E & Wi & Wp). exists w. split; [exact E|].
  pose proof (run_inv compiles links F _ inv_nothing E) as I. split; [apply (i_proper I)|].
  destruct (existing (w_told w)) as [|[k n] l] eqn:X; [reflexivity|]. exfalso. assert (H : In (k, n) (existing (w_told w))) by (rewrite X; left; reflexivity).
  apply (i_owned I) in H. destruct H as ([i|i] & (a & Ha & H) & N).
  - rewrite Wi in Ha. destruct i; discriminate.
  - rewrite Forall_forall in Wp. specialize (Wp _ (nth_error_In _ _ Ha)). cbn in Wp. destruct Wp as [V P]. destruct H as [[_ <-]|[_ <-]]; congruence.
Qed.
Print Assumptions C86_start_to_end.

(** Defect: [Image x;] and [Pipeline x;] leave members unwritten, and moving such an object
    reads them. *)
Theorem C86_blank_refuted : forall name compiles links,
  run name compiles links nothing [ImageBlank; ImageMove 0] = UB /\
  run name compiles links nothing [PipeBlank; PipeMove 0] = UB.
Proof. intros. split; reflexivity. Qed.
Print Assumptions C86_blank_refuted.

(** Names one above all that exist: OpenGL's rule can be kept. *)
Definition counting (tr : list told) (k : kind) : Z := (1 + fold_right Z.max 0 (map snd (existing tr)))%Z.
Lemma counting_fresh : names_fresh counting.
Proof.
  intros tr k. assert (H : forall l x, In x l -> (x <= fold_right Z.max 0 l)%Z).
  { induction l as [|y l IH]; intros x []; cbn; [subst; lia|]. specialize (IH _ H). lia. }
  assert (P : forall l, (0 <= fold_right Z.max 0 l)%Z) by (induction l; cbn; lia).
  unfold counting. split; [specialize (P (map snd (existing tr))); lia|]. intros I. apply (in_map snd) in I. apply H in I. cbn [snd] in I. lia.
Qed.
Example C86_example :
  run counting (fun _ => true) (fun _ => true) nothing [ImageNew 5; PipeNew true true (4, 6)%Z; ImageMove 0; ImageUse 1; ImageEnd 0; PipeUse 0; PipeEnd 0; ImageEnd 1]
  = Ok {| w_told := [Made Texture 1; Used Texture 1; Made VertexArray 2; Made Shader 3; Used Shader 3; Made Shader 4; Used Shader 4;
                     Made Program 5; Used Shader 3; Used Shader 4; Used Program 5; Deleted Shader 3; Deleted Shader 4;
                     Used Texture 1; Used VertexArray 2; Used Program 5; Deleted VertexArray 2; Deleted Program 5; Deleted Texture 1]%Z;
          w_images := [None; None]; w_pipelines := [None] |}.
Proof. vm_compute. reflexivity. Qed.
Example C86_bad_shader :
  exists w, run counting (fun tr => Nat.ltb (length tr) 5) (fun _ => true) nothing [PipeNew true true (4, 6)%Z] = Ok w /\
  existing (w_told w) = [(VertexArray, 1%Z)].
Proof. eexists. split; vm_compute; reflexivity. Qed.
