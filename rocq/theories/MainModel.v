(** Model of the sample program's main function: setting up, the loop over frames, what it does
    with each event, and shutting down.

    GLFW is what it answers: whether a window can be made, the time at each frame and the events
    of each poll, with the position of the mouse it gives when a key or a button is handled.  The
    program is what it does, in order. *)
From Coq Require Import ZArith QArith.
From Verif Require Import Base FloatModel.
Set Implicit Arguments.
Open Scope list_scope.
Open Scope Z_scope.

(** IEEE 754 binary64, to nearest even; C++ conversion of a [double] to [float]. *)
Definition f64 := SpecFloat.spec_float.
Definition f64_sub : f64 -> f64 -> f64 := SpecFloat.SFsub 53 1024.
Definition f64_to_f32 (x : f64) : f32 :=
  match x with
  | SpecFloat.S754_finite s m e => SpecFloat.binary_normalize 24 128 (if s then Zneg m else Zpos m) e s
  | _ => x
  end.

(** What [glfwPollEvents] reports (GLFW 3, Input guide); positions are those of
    [glfwGetCursorPos] at that time.  [Close]: the user asks the system to close the window, for
    which the program has no callback and GLFW sets the flag. *)
Inductive event :=
| Key (key action mods : Z) (x y : Q) | Button (button action mods : Z) (x y : Q) | Move (x y : Q)
| Text (codepoint : Z) | Focus (gained : bool) | Size (width height : Z) | Close.
(** One turn of the loop: the time at its start and the events at its end. *)
Record frame := { f_time : f64; f_events : list event }.

(** Calls of the user interface. *)
Inductive call :=
| Update (dt : f32)
| HandleKey (key action mods : Z) (x y : Q) | HandleButton (button action mods : Z) (x y : Q) | HandleMove (x y : Q)
| HandleText (codepoint : Z) | HandleFocusLost | SetSize (width height : Z).
(** What the program does.  [Gl]: any use of OpenGL not listed. *)
Inductive act :=
| Init | MakeWindow | Attach | MakeCurrent | LoadGl | Gl | MakeObjects | DeleteObjects | SetCallbacks
| Ui (c : call) | Clear (r g b a : Z) | Draw | Swap | Terminate.

(** [GLFW_KEY_ESCAPE] of GLFW/glfw3.h. *)
Definition ESCAPE : Z := 256.

(** sample/main.cpp:130-186: the callbacks: what is done and the flag of
    [glfwSetWindowShouldClose] afterwards. *)
Definition callback (closing : bool) (e : event) : list act * bool :=
  match e with
  | Key key action mods x y => if key =? ESCAPE then ([], true) else ([Ui (HandleKey key action mods x y)], closing)
  | Button button action mods x y => ([Ui (HandleButton button action mods x y)], closing)
  | Move x y => ([Ui (HandleMove x y)], closing)
  | Text c => ([Ui (HandleText c)], closing)
  | Focus gained => (if negb gained then [Ui HandleFocusLost] else [], closing)
  (** sample/main.cpp:170-186: what [on_resize] does to the objects is in WindowModel.v. *)
  | Size w h => ([Gl; Ui (SetSize w h)], closing)
  | Close => ([], true)
  end.
Fixpoint poll (closing : bool) (es : list event) : list act * bool :=
  match es with
  | [] => ([], closing)
  | e :: es => let '(a, closing) := callback closing e in let '(b, closing) := poll closing es in (a ++ b, closing)
  end.

(** sample/main.cpp:188-192 [render]. *)
Definition render : list act := [Clear 1 1 1 1; Draw].
(** sample/main.cpp:111-120: the loop, for the frames there are until it ends.  [closing] is
    [glfwWindowShouldClose], [last] is [lastTime]. *)
Fixpoint main_loop (closing : bool) (last : f64) (fs : list frame) : list act :=
  if closing then []
  else
    match fs with
    | [] => []
    | f :: fs =>
        let delta := f64_sub (f_time f) last in
        let '(done, closing) := poll closing (f_events f) in
        [Ui (Update (f64_to_f32 delta))] ++ render ++ [Swap] ++ done ++ main_loop closing (f_time f) fs
    end.

(** sample/main.cpp:58-107: GLFW, the window, OpenGL, the pipelines and atlases, the text box
    and the tool bar (WindowModel.v), the first [on_resize] and the callbacks. *)
Definition set_up : list act :=
  [Init; MakeWindow; Attach; MakeCurrent; LoadGl; Gl; MakeObjects] ++ [Gl; Ui (SetSize 640 480)] ++ [SetCallbacks].
(** sample/main.cpp:122-127. *)
Definition shut_down : list act := [DeleteObjects; Terminate].
(** sample/main.cpp:47-128 [main], for a run whose loop ends. *)
Definition main (start : f64) (fs : list frame) : list act := set_up ++ main_loop false start fs ++ shut_down.
