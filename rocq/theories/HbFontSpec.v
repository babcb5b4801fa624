(** What the font functions given to HarfBuzz must answer. *)
From Verif Require Import Base HbFontModel.
Open Scope Z_scope.

(** A length in 16.16 pixels as the nearest number of 64ths of a pixel, ties upwards. *)
Definition in_64ths (v : Z) : Z := (v + 512) / 1024.
(** The sign of an axis. *)
Definition directed (neg : bool) (v : Z) : Z := if neg then - v else v.
(** The requests of a history, each with the size the font had. *)
Fixpoint requests (size : Z) (es : list font_event) : list (Z * list Z) :=
  match es with
  | [] => []
  | Asked gs :: es => (size, gs) :: requests size es
  | Resized size :: es => requests size es
  end.

(** Glyphs are unsigned. *)
Definition asks_ok (e : font_event) : Prop := match e with Asked gs => Forall (fun g => 0 <= g) gs | Resized _ => True end.

(** HarfBuzz finds the glyphs of a text: for some stretches it asks for many at once and goes on
    after those it got, for other code points it asks one by one. *)
Inductive asked (m : charmap) : list Z -> list Z -> Prop :=
| asked_end : asked m [] []
| asked_many us gs rest : nominal_glyphs m us = gs -> asked m (skipn (length gs) us) rest -> asked m us (gs ++ rest)
| asked_one u us gs : asked m us gs -> asked m (u :: us) (map_codepoint_to_glyph m u :: gs).

(** [z] is at most 2^24: 262144 pixels in 64ths. *)
Definition moderate (z : Z) : Prop := - 2 ^ 24 <= z <= 2 ^ 24.

(** FreeType's name functions answer from the names of the glyphs of a font. *)
Definition answers_from (names : list (list Z)) (find : list Z -> Z) (zero : option (list Z)) : Prop :=
  (forall s, find s <> 0 -> 0 <= find s /\ nth_error names (Z.to_nat (find s)) = Some s) /\
  (forall s, In s names -> find s = 0 -> hd_error names = Some s) /\
  zero = hd_error names /\ names <> [] /\
  (forall s, In s names -> ~ In 0 s).
