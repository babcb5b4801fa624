(** What the caret of a text box must look like, and when it is to be seen. *)
From Coq Require Import Reals.
From Flocq Require Import Core.Core.
From Verif Require Import Base FloatModel ColorModel LayoutModel LayoutSpec CursorModel ClipModel DrawModel DrawSpec TextBoxModel TextBoxSpec ScreenModel.
Open Scope Z_scope.

(** A black bar, one pixel wide. *)
Definition black : color := {| c_r := f32_of_Z 0; c_g := f32_of_Z 0; c_b := f32_of_Z 0; c_a := f32_of_Z 1 |}.
Definition bar (image : Z) (x y h : Q) (ds : list drawn) : Prop := exists d, ds = [d] /\
  dr_image d = image /\ dr_color d = black /\ dr_pipe d = PRect /\
  (r_x (dr_rect d) == x)%Q /\ (r_y (dr_rect d) == y)%Q /\ (r_w (dr_rect d) == 1)%Q /\ (r_h (dr_rect d) == h)%Q.

(** The caret of a cursor in a text: where the layout has it; in a box without text at the top
    left, as high as the font. *)
Definition caret_of (w : Q) (al : xalign) (build : list Z -> layout) (tall : Q) (t : list Z) (c : Z) (i : cursor_info) : Prop :=
  match t with
  | [] => (ci_x i == 0)%Q /\ (ci_y i == 0)%Q /\ (ci_height i == tall)%Q
  | _ => calc_cursor_pixel_pos (build t) w al c = Ok i
  end.

(** Half a second on and half a second off, and on for good after five seconds. *)
Definition lit_at (time : R) : Prop := (5 <= time)%R \/ Z.even (Zfloor (2 * time)) = true.
Definition sum (rs : list R) : R := fold_right Rplus 0%R rs.

(** The events that put the cursor somewhere. *)
Definition puts_cursor (v : view) (c : cmd) : Prop :=
  match c with
  | KUp _ | KDown _ | KLeft _ _ | KRight _ _ | KHome _ _ | KEnd _ _ | KAll => v_focused v = true
  | CPress _ _ _ _ => True
  | CDrag _ _ => v_focused v = true /\ v_drag v = true
  | _ => False
  end.

(** The layout of a text can be drawn: its runs cover bytes of the text, pens move to the
    right. *)
Definition drawable (build : list Z -> layout) : Prop := forall t, valid_utf8 t -> t <> [] -> size t < 2 ^ 31 - 1 ->
  exists d y, doc_ok d /\ stored d y (build t) /\ Forall (run_in_text (size t)) (doc_runs d) /\
    Forall run_ok (doc_runs d) /\ Forall (fun r => qnondecreasing (run_xs r)) (doc_runs d).
