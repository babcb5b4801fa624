(** What the measures of a font should be. *)
From Coq Require Import Reals.
From Verif Require Import Base FloatModel FloatRealProofs MetricsModel.

(** [x] is a finite number that differs from [r] by no more than the fraction [k] of [r]. *)
Definition close_to (k : R) (x : f32) (r : R) : Prop := exists v, fin x v /\ (Rabs (v - r) <= k * Rabs r)%R.
(** One part in four million. *)
Definition tiny : R := (/ 4194304)%R.

Definition int16 (z : Z) : Prop := (-32768 <= z <= 32767)%Z.
(** A font with outlines: the designer's em has some units. *)
Definition outlined (f : font_numbers) : Prop := (1 <= fn_upem f <= 65535)%Z /\ (0 <= fn_x_ppem f <= 65535)%Z /\ (0 <= fn_y_ppem f <= 65535)%Z.
(** A length in the designer's units, in pixels at the font's size. *)
Definition in_pixels (f : font_numbers) (units : Z) : R := (IZR units * IZR (fn_y_ppem f) / IZR (fn_upem f))%R.
(** The size the letters would have if they were not lowered or raised: these are made at seven tenths. *)
Definition unlowered (f : font_numbers) (pixels : R) : R := (if fn_sub f || fn_super f then pixels * 10 / 7 else pixels)%R.
