(** What the texels of a page have to be. *)
From Coq Require Import ZArith QArith.
From Verif Require Import Base AtlasSpec GlModel.
Open Scope Q_scope.

(** The colour a packed word stands for: red in the lowest byte, then green, blue and
    opacity, each in steps of 1/255. *)
Definition packed_color (v : Z) : rgba :=
  let c k := inject_Z (v / 2 ^ (8 * k) mod 256)%Z / 255 in
  {| q_r := c 0%Z; q_g := c 1%Z; q_b := c 2%Z; q_a := c 3%Z |}.
Definition red_and_blue_exchanged (c : rgba) : rgba := {| q_r := q_b c; q_g := q_g c; q_b := q_r c; q_a := q_a c |}.
(** A texture that has the colours [f] makes of the words somebody wrote, and [undefined]
    elsewhere. *)
Definition texture_of (f : Z -> rgba) (undefined : Z -> Z -> rgba) (w h : Z) (t : AtlasSpec.texture) : GlModel.texture :=
  {| t_w := w; t_h := h; t_texel := fun x y => match t x y with Some v => f v | None => undefined x y end |}.

(** A byte of a picture as the font engine drew it. *)
Definition level (r : raster) (i : Z) : Q := inject_Z (ra_byte r i) / 255.
(** A picture in colour: its colours are multiplied with their opacity, so none is above it. *)
Definition multiplied (r : raster) : Prop :=
  ra_format r = BGRA8 /\
  forall x y k, (0 <= x < ra_w r -> 0 <= y < ra_h r -> 0 <= k < 3 ->
    let i := 4 * (y * ra_w r + x) in 0 < ra_byte r (i + 3) /\ ra_byte r (i + k) <= ra_byte r (i + 3))%Z.
(** What appears where a pixel of opacity [a], with the channel [c] multiplied by it, lies
    over [d]. *)
Definition over (c a d : Q) : Q := c + (1 - a) * d.
(** The same colour, or both undefined. *)
Definition same_outcome (a b : outcome rgba) : Prop :=
  match a, b with Ok c, Ok d => same_rgba c d | UB, UB => True | OutOfFuel, OutOfFuel => True | _, _ => False end.
