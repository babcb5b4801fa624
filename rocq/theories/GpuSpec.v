(** What owning OpenGL objects properly means. *)
From Verif Require Import Base GpuModel.
Open Scope list_scope.

Definition kind_eqb (a b : kind) : bool :=
  match a, b with Texture, Texture | VertexArray, VertexArray | Program, Program | Shader, Shader => true | _, _ => false end.
Definition is_it (k : kind) (n : Z) (x : kind * Z) : bool := kind_eqb (fst x) k && (snd x =? n)%Z.
(** The OpenGL objects that exist. *)
Fixpoint exist_after (now : list (kind * Z)) (tr : list told) : list (kind * Z) :=
  match tr with
  | [] => now
  | Made k n :: tr => exist_after ((k, n) :: now) tr
  | Used _ _ :: tr => exist_after now tr
  | Deleted k n :: tr => exist_after (filter (fun x => negb (is_it k n x)) now) tr
  end.
Definition existing (tr : list told) : list (kind * Z) := exist_after [] tr.
(** Only existing objects are used or deleted; using 0 means using none. *)
Definition proper (tr : list told) : Prop :=
  forall before e after, tr = before ++ e :: after ->
  match e with
  | Made _ _ => True
  | Used k n => n = 0%Z \/ In (k, n) (existing before)
  | Deleted k n => In (k, n) (existing before)
  end.
(** OpenGL's rule: a new name is not 0 and belongs to no existing object of that kind. *)
Definition names_fresh (name : list told -> kind -> Z) : Prop :=
  forall tr k, name tr k <> 0%Z /\ ~ In (k, name tr k) (existing tr).

(** Whom an existing object belongs to: the place of an image or a pipeline. *)
Inductive owner := OfImage (place : nat) | OfPipeline (place : nat).
Definition owns (w : world) (o : owner) (k : kind) (n : Z) : Prop :=
  match o with
  | OfImage i => exists a, nth_error (w_images w) i = Some (Some a) /\ k = Texture /\ im_handle a = n
  | OfPipeline i => exists a, nth_error (w_pipelines w) i = Some (Some a) /\
                    ((k = VertexArray /\ pi_vao a = n) \/ (k = Program /\ pi_program a = n))
  end /\ n <> 0%Z.
Definition all_gone (w : world) : Prop :=
  Forall (fun a => a = None) (w_images w) /\ Forall (fun a => a = None) (w_pipelines w).

(** What a step needs: the objects it names are there. *)
Definition occupied {A} (l : list (option A)) (i : nat) : Prop := exists a, nth_error l i = Some (Some a).
Definition names_place (w : world) (o : op) : Prop :=
  match o with
  | ImageMove i | ImageUse i | ImageEnd i => occupied (w_images w) i
  | ImageAssign i j => occupied (w_images w) i /\ occupied (w_images w) j
  | PipeMove i | PipeUse i | PipeEnd i => occupied (w_pipelines w) i
  | PipeAssign i j => occupied (w_pipelines w) i /\ occupied (w_pipelines w) j
  | _ => True
  end.
(** Objects that are made are made with all members written. *)
Definition writes (o : op) : bool := match o with ImageBlank | PipeBlank => false | _ => true end.

Definition owner_eqb (a b : owner) : bool :=
  match a, b with OfImage i, OfImage j | OfPipeline i, OfPipeline j => Nat.eqb i j | _, _ => false end.
Definition swapped (a b o : owner) : owner := if owner_eqb o a then b else if owner_eqb o b then a else o.
