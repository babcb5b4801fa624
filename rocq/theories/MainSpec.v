(** What a user of the program expects of its frames and events. *)
From Coq Require Import ZArith QArith Reals.
From Flocq Require Import Core.Core IEEE754.BinarySingleNaN.
From Verif Require Import Base FloatModel MainModel.
Set Implicit Arguments.
Open Scope list_scope.
Open Scope Z_scope.

(** What each event must do: Escape is for the program, all other keys, buttons, moves, characters
    and new sizes are for the user interface, which also hears when the window loses the focus. *)
Definition reaction (e : event) : list call :=
  match e with
  | Key k a m x y => if Z.eq_dec k 256 then [] else [HandleKey k a m x y]
  | Button b a m x y => [HandleButton b a m x y]
  | Move x y => [HandleMove x y]
  | Text c => [HandleText c]
  | Focus true => []
  | Focus false => [HandleFocusLost]
  | Size w h => [SetSize w h]
  | Close => []
  end.
Definition reactions (es : list event) : list call := concat (map reaction es).
(** The user asks the program to end. *)
Definition asks_end (e : event) : Prop := match e with Key k _ _ _ _ => k = 256 | Close => True | _ => False end.

(** What the user interface was told, and how many pictures were shown. *)
Definition calls (l : list act) : list call := flat_map (fun a => match a with Ui c => [c] | _ => [] end) l.
Definition heard (l : list act) : list call := filter (fun c => match c with Update _ => false | _ => true end) (calls l).
Definition updates (l : list act) : list f32 := flat_map (fun c => match c with Update d => [d] | _ => [] end) (calls l).
Definition pictures (l : list act) : nat := List.length (filter (fun a => match a with Swap => true | _ => false end) l).

(** The time each frame is told: since the frame before. *)
Fixpoint deltas (last : f64) (ts : list f64) : list f32 :=
  match ts with [] => [] | t :: ts => f64_to_f32 (f64_sub t last) :: deltas t ts end.

(** The rules of GLFW and OpenGL: first GLFW is initialised; a window is needed to attach anything,
    to make a context current, to swap and to be called back; OpenGL needs a current context whose
    functions have been loaded; objects are deleted while it is there, and nothing is done after
    [glfwTerminate]. *)
Record phase := { p_init : bool; p_window : bool; p_current : bool; p_loaded : bool; p_objects : bool }.
Definition nothing_yet : phase := {| p_init := false; p_window := false; p_current := false; p_loaded := false; p_objects := false |}.
Inductive legal (window_made : bool) : phase -> list act -> phase -> Prop :=
| L_end p : legal window_made p [] p
| L_init w c l o rest q : legal window_made {| p_init := true; p_window := w; p_current := c; p_loaded := l; p_objects := o |} rest q ->
    legal window_made {| p_init := false; p_window := w; p_current := c; p_loaded := l; p_objects := o |} (Init :: rest) q
| L_window c l o rest q : legal window_made {| p_init := true; p_window := window_made; p_current := c; p_loaded := l; p_objects := o |} rest q ->
    legal window_made {| p_init := true; p_window := false; p_current := c; p_loaded := l; p_objects := o |} (MakeWindow :: rest) q
| L_attach p a rest q : p_window p = true -> a = Attach \/ a = SetCallbacks -> legal window_made p rest q -> legal window_made p (a :: rest) q
| L_current c l o rest q : legal window_made {| p_init := true; p_window := true; p_current := true; p_loaded := l; p_objects := o |} rest q ->
    legal window_made {| p_init := true; p_window := true; p_current := c; p_loaded := l; p_objects := o |} (MakeCurrent :: rest) q
| L_load l o rest q : legal window_made {| p_init := true; p_window := true; p_current := true; p_loaded := true; p_objects := o |} rest q ->
    legal window_made {| p_init := true; p_window := true; p_current := true; p_loaded := l; p_objects := o |} (LoadGl :: rest) q
| L_make rest q : legal window_made {| p_init := true; p_window := true; p_current := true; p_loaded := true; p_objects := true |} rest q ->
    legal window_made {| p_init := true; p_window := true; p_current := true; p_loaded := true; p_objects := false |} (MakeObjects :: rest) q
| L_gl p a rest q : p_current p = true -> p_loaded p = true -> match a with Gl | Clear _ _ _ _ => True | _ => False end ->
    legal window_made p rest q -> legal window_made p (a :: rest) q
| L_draw p rest q : p_current p = true -> p_loaded p = true -> p_objects p = true -> legal window_made p rest q -> legal window_made p (Draw :: rest) q
| L_swap p rest q : p_window p = true -> p_current p = true -> legal window_made p rest q -> legal window_made p (Swap :: rest) q
| L_ui p c rest q : legal window_made p rest q -> legal window_made p (Ui c :: rest) q
| L_delete rest q : legal window_made {| p_init := true; p_window := true; p_current := true; p_loaded := true; p_objects := false |} rest q ->
    legal window_made {| p_init := true; p_window := true; p_current := true; p_loaded := true; p_objects := true |} (DeleteObjects :: rest) q
| L_terminate w c l rest q : legal window_made nothing_yet rest q ->
    legal window_made {| p_init := true; p_window := w; p_current := c; p_loaded := l; p_objects := false |} (Terminate :: rest) q.

(** The reading of a clock in seconds. *)
Definition reads (t : f64) (r : R) : Prop := valid_binary 53 1024 t = true /\ is_finite_SF t = true /\ SF2R radix2 t = r.
(** Readings that never go back, at most 1048576 seconds (twelve days) from one frame to the
    next. *)
Fixpoint goes_on (r : R) (rs : list R) : Prop := match rs with [] => True | r' :: rs => (r <= r' <= r + 1048576)%R /\ goes_on r' rs end.

(** The frames that are played: up to the first in which the user asks the program to end. *)
Inductive plays : list frame -> list frame -> Prop :=
| P_none : plays [] []
| P_last f fs : Exists asks_end (f_events f) -> plays (f :: fs) [f]
| P_on f fs live : ~ Exists asks_end (f_events f) -> plays fs live -> plays (f :: fs) (f :: live).
(** What the user interface is told in these frames. *)
Fixpoint told (last : f64) (fs : list frame) : list call :=
  match fs with [] => [] | f :: fs => Update (f64_to_f32 (f64_sub (f_time f) last)) :: reactions (f_events f) ++ told (f_time f) fs end.
