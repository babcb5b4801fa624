(** What the settings of a text box must do. *)
From Verif Require Import Base LayoutModel LayoutSpec CursorModel CursorSpec TextBoxModel TextBoxSpec SettingsModel BlinkSpec.
Open Scope Z_scope.

(** One setting changes, the others stay. *)
Definition set_to (e : event) (s s' : settings) : Prop :=
  se_font s' = match e with EFont f => Some f | _ => se_font s end /\
  se_x s' = match e with EX a => a | _ => se_x s end /\
  se_y s' = match e with EY a => a | _ => se_y s end /\
  se_wrapped s' = match e with EWrapped x => x | _ => se_wrapped s end /\
  se_width s' = match e with ESize w _ => w | _ => se_width s end /\
  se_height s' = match e with ESize _ h => h | _ => se_height s end.

Section Spec.
Variable builder : Z -> Q -> Q -> xalign -> yalign -> bool -> list Z -> layout.
Variable tall : Z -> Q.
Variables (B : list Z -> Z -> Prop) (following : list Z -> Z -> Z) (decode : list Z -> Z -> Z) (white : Z -> bool).

(** The layout of plain text under some settings: in the box's width, or on lines of any
    length (the builder's width 0) when the text is not wrapped. *)
Definition laid_under (s : settings) (t : list Z) : layout :=
  match se_font s with
  | None => lo_empty
  | Some f => builder f (if se_wrapped s then se_width s else 0%Q) (se_height s) (se_x s) (se_y s) false t
  end.

(** What is on the screen is the text under the settings of now, and so is the caret. *)
Definition up_to_date (b : box) (s : settings) : Prop := forall f, se_font s = Some f ->
  (tb_text b <> [] -> tb_layout b = laid_under s (tb_text b)) /\
  caret_of (se_width s) (se_x s) (laid_under s) (tall f) (tb_text b) (tb_cursor b) (tb_info b).

(** Events do what C44 says under the settings of the moment; setters change nothing else. *)
Definition happens (v : view) (s : settings) (clip : option (list Z)) (e : event) (v' : view) (s' : settings) (clip' : option (list Z)) : Prop :=
  set_to e s s' /\
  match e with
  | EDo c => does (se_width s) (se_x s) (laid_under s) B following decode white v clip c v' clip'
  | _ => v' = v /\ clip' = clip
  end.
(** As in C44; before there is a font the program may give a text and settings only. *)
Definition may_happen (v : view) (s : settings) (clip : option (list Z)) (e : event) : Prop :=
  match e with
  | EDo c => allowed v clip c /\
      match c with CReplace _ | CClip _ | CTick _ | CMulti _ | CEditable _ | CSelectable _ | CRich _ => True | _ => se_font s <> None end
  | _ => True
  end.
Fixpoint happen (v : view) (s : settings) (clip : option (list Z)) (es : list event) (v' : view) (s' : settings) (clip' : option (list Z)) : Prop :=
  match es with
  | [] => v' = v /\ s' = s /\ clip' = clip
  | e :: es => exists v1 s1 clip1, happens v s clip e v1 s1 clip1 /\ sound v1 /\ happen v1 s1 clip1 es v' s' clip'
  end.
Fixpoint may_all_happen (v : view) (s : settings) (clip : option (list Z)) (es : list event) : Prop :=
  match es with
  | [] => True
  | e :: es => may_happen v s clip e /\ forall v' s' clip', happens v s clip e v' s' clip' -> sound v' -> may_all_happen v' s' clip' es
  end.
End Spec.
