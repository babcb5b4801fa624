(** Model of the sample program's owners of OpenGL objects: [Image] and [Pipeline].

    Everything the program tells OpenGL is written down in order.  OpenGL's own decisions
    (the name of a new object, whether a shader compiles or a program links) are functions of
    what it was told so far.  Objects live in numbered places; a place that was left stays
    empty.  Using an empty place is undefined behaviour, and so is reading a member that was never
    written. *)
From Verif Require Import Base.
Set Implicit Arguments.
Open Scope list_scope.

Inductive kind := Texture | VertexArray | Program | Shader.
Inductive told := Made (k : kind) (n : Z) | Used (k : kind) (n : Z) | Deleted (k : kind) (n : Z).

(** sample/image.hpp:23-29: the texture's name, and the format its data has if it was
    written. *)
Record image := { im_handle : Z; im_format : option Z }.
(** sample/pipeline.hpp:23-27: and how many vertices of which kind are drawn. *)
Record pipeline := { pi_vao : Z; pi_program : Z; pi_draws : option (Z * Z) }.
Record world := { w_told : list told; w_images : list (option image); w_pipelines : list (option pipeline) }.

Section Gl.
(** Names OpenGL gives; whether the shader just sent compiles and the program links. *)
Variable name : list told -> kind -> Z.
Variable compiles links : list told -> bool.

(** sample/image.cpp:5-19 [Image::Image]. *)
Definition new_image (tr : list told) (format : Z) : list told * image :=
  let n := name tr Texture in
  (tr ++ [Made Texture n; Used Texture n], {| im_handle := n; im_format := Some format |}).
(** sample/image.cpp:21-25 [Image::~Image]. *)
Definition end_image (tr : list told) (i : image) : list told :=
  if (im_handle i =? 0)%Z then tr else tr ++ [Deleted Texture (im_handle i)].
(** sample/image.cpp:27-35: the move constructor: the new image and what is left. *)
Definition move_image (i : image) : outcome (image * image) :=
  match im_format i with
  | Some f => Ok ({| im_handle := im_handle i; im_format := Some f |}, {| im_handle := 0; im_format := im_format i |})
  | None => UB
  end%Z.
(** sample/image.cpp:37-48 [operator=]: the image assigned to and the other one. *)
Definition assign_image (a b : image) : outcome (image * image) :=
  match im_format b with
  | Some f => Ok ({| im_handle := im_handle b; im_format := Some f |}, {| im_handle := im_handle a; im_format := im_format b |})
  | None => UB
  end.

(** sample/pipeline.cpp:140-159 [try_compile_shader]: 0 if it does not compile. *)
Definition try_compile_shader (tr : list told) : list told * Z :=
  let s := name tr Shader in
  let tr := tr ++ [Made Shader s; Used Shader s] in
  if compiles tr then (tr, s) else (tr ++ [Deleted Shader s], 0%Z).
(** sample/pipeline.cpp:90-138 [try_compile_program]; the arguments say whether there is a
    source for each shader. *)
Definition try_compile_program (tr : list told) (vertex fragment : bool) : list told * Z :=
  if vertex then
    let '(tr, vs) := try_compile_shader tr in
    if (vs =? 0)%Z then (tr, 0%Z)
    else
      let '(tr, fs, failed) :=
        if fragment then let '(tr, fs) := try_compile_shader tr in (tr, fs, (fs =? 0)%Z) else (tr, 0%Z, false) in
      if failed : bool then (tr ++ [Deleted Shader vs], 0%Z)
      else
        let p := name tr Program in
        let tr := tr ++ [Made Program p; Used Shader vs] ++ (if (fs =? 0)%Z then [] else [Used Shader fs]) ++ [Used Program p] in
        let '(tr, out) := if links tr then (tr, p) else (tr ++ [Deleted Program p], 0%Z) in
        (tr ++ [Deleted Shader vs] ++ (if (fs =? 0)%Z then [] else [Deleted Shader fs]), out)
  else (tr, 0%Z).
(** sample/pipeline.cpp:33-39 [Pipeline::Pipeline]. *)
Definition new_pipeline (tr : list told) (vertex fragment : bool) (draws : Z * Z) : list told * pipeline :=
  let v := name tr VertexArray in
  let '(tr, p) := try_compile_program (tr ++ [Made VertexArray v]) vertex fragment in
  (tr, {| pi_vao := v; pi_program := p; pi_draws := Some draws |}).
(** sample/pipeline.cpp:41-49 [Pipeline::~Pipeline]. *)
Definition end_pipeline (tr : list told) (p : pipeline) : list told :=
  let tr := if (pi_vao p =? 0)%Z then tr else tr ++ [Deleted VertexArray (pi_vao p)] in
  if (pi_program p =? 0)%Z then tr else tr ++ [Deleted Program (pi_program p)].
(** sample/pipeline.cpp:51-58: the move constructor. *)
Definition move_pipeline (p : pipeline) : outcome (pipeline * pipeline) :=
  match pi_draws p with
  | Some d => Ok ({| pi_vao := pi_vao p; pi_program := pi_program p; pi_draws := Some d |}, {| pi_vao := 0; pi_program := 0; pi_draws := pi_draws p |})
  | None => UB
  end%Z.
(** sample/pipeline.cpp:60-67 [operator=]. *)
Definition assign_pipeline (a b : pipeline) : outcome (pipeline * pipeline) :=
  match pi_draws b with
  | Some d => Ok ({| pi_vao := pi_vao b; pi_program := pi_program b; pi_draws := Some d |},
                  {| pi_vao := pi_vao a; pi_program := pi_program a; pi_draws := pi_draws b |})
  | None => UB
  end.

(** What a program can do with them.  The new object takes the next place.  [Blank] are
    [Image x;] and [Pipeline x;], which leave members unwritten (sample/image.hpp:5,
    sample/pipeline.hpp:7); [Zero] are [{}] and objects of static lifetime. *)
Inductive op :=
| ImageNew (format : Z) | ImageBlank | ImageZero | ImageMove (i : nat) | ImageAssign (i j : nat) | ImageUse (i : nat) | ImageEnd (i : nat)
| PipeNew (vertex fragment : bool) (draws : Z * Z) | PipeBlank | PipeZero | PipeMove (i : nat) | PipeAssign (i j : nat) | PipeUse (i : nat) | PipeEnd (i : nat).

Definition at_place {A} (l : list (option A)) (i : nat) : outcome A := match nth_error l i with Some (Some a) => Ok a | _ => UB end.
Definition set_images (w : world) (l : list (option image)) : world := {| w_told := w_told w; w_images := l; w_pipelines := w_pipelines w |}.
Definition set_pipes (w : world) (l : list (option pipeline)) : world := {| w_told := w_told w; w_images := w_images w; w_pipelines := l |}.
Definition tell (w : world) (tr : list told) : world := {| w_told := tr; w_images := w_images w; w_pipelines := w_pipelines w |}.

(** Assigning an object to itself leaves it as it is: the swap of a name with itself. *)
Definition step (w : world) (o : op) : outcome world :=
  match o with
  | ImageNew f => let '(tr, i) := new_image (w_told w) f in Ok (set_images (tell w tr) (w_images w ++ [Some i]))
  | ImageBlank => Ok (set_images w (w_images w ++ [Some {| im_handle := 0; im_format := None |}]))
  | ImageZero => Ok (set_images w (w_images w ++ [Some {| im_handle := 0; im_format := Some 0%Z |}]))
  | ImageMove i => do a <- at_place (w_images w) i; do (n, a) <- move_image a; Ok (set_images w (list_set (w_images w) i (Some a) ++ [Some n])%list)
  | ImageAssign i j =>
      do a <- at_place (w_images w) i; do b <- at_place (w_images w) j; do (a, b) <- assign_image a b;
      Ok (set_images w (if (i =? j)%nat then w_images w else list_set (list_set (w_images w) i (Some a)) j (Some b)))
  (** sample/image.cpp:50-57 [write] and [bind]. *)
  | ImageUse i => do a <- at_place (w_images w) i; Ok (tell w (w_told w ++ [Used Texture (im_handle a)]))
  | ImageEnd i => do a <- at_place (w_images w) i; Ok (set_images (tell w (end_image (w_told w) a)) (list_set (w_images w) i None))
  | PipeNew v f d => let '(tr, p) := new_pipeline (w_told w) v f d in Ok (set_pipes (tell w tr) (w_pipelines w ++ [Some p]))
  | PipeBlank => Ok (set_pipes w (w_pipelines w ++ [Some {| pi_vao := 0; pi_program := 0; pi_draws := None |}]))
  | PipeZero => Ok (set_pipes w (w_pipelines w ++ [Some {| pi_vao := 0; pi_program := 0; pi_draws := Some (0, 0)%Z |}]))
  | PipeMove i => do a <- at_place (w_pipelines w) i; do (n, a) <- move_pipeline a; Ok (set_pipes w (list_set (w_pipelines w) i (Some a) ++ [Some n])%list)
  | PipeAssign i j =>
      do a <- at_place (w_pipelines w) i; do b <- at_place (w_pipelines w) j; do (a, b) <- assign_pipeline a b;
      Ok (set_pipes w (if (i =? j)%nat then w_pipelines w else list_set (list_set (w_pipelines w) i (Some a)) j (Some b)))
  (** sample/pipeline.cpp:81-84 [bind]. *)
  | PipeUse i => do a <- at_place (w_pipelines w) i; Ok (tell w (w_told w ++ [Used VertexArray (pi_vao a); Used Program (pi_program a)]))
  | PipeEnd i => do a <- at_place (w_pipelines w) i; Ok (set_pipes (tell w (end_pipeline (w_told w) a)) (list_set (w_pipelines w) i None))
  end.
Fixpoint run (w : world) (os : list op) : outcome world :=
  match os with [] => Ok w | o :: os => do w <- step w o; run w os end.

(** The three pipelines of sample/pipeline.hpp:38, before [main]. *)
Definition at_start : list op := [PipeZero; PipeZero; PipeZero].
(** sample/pipeline.cpp:18-25 [init_pipelines]; [n] places are taken. *)
Definition init_pipelines (n : nat) : list op :=
  [PipeNew true true (4, 6)%Z; PipeAssign 0 n; PipeEnd n; PipeNew true true (4, 6)%Z; PipeAssign 1 (n + 1); PipeEnd (n + 1);
   PipeNew true true (2, 4)%Z; PipeAssign 2 (n + 2); PipeEnd (n + 2)].
(** sample/pipeline.cpp:27-31 [deinit_pipelines]. *)
Definition deinit_pipelines (n : nat) : list op :=
  [PipeZero; PipeAssign 0 n; PipeEnd n; PipeZero; PipeAssign 1 (n + 1); PipeEnd (n + 1); PipeZero; PipeAssign 2 (n + 2); PipeEnd (n + 2)].
End Gl.
Definition nothing : world := {| w_told := []; w_images := []; w_pipelines := [] |}.
