(** What imitating a style means. *)
From Verif Require Import Base.
Open Scope Z_scope.

(** The points of an outline, in 64ths of a pixel or in font units. *)
Definition points := list (Z * Z).
(** A font as it is and as it is wanted: weights 0 (thin) to 8 (black), 3 being regular;
    styles 0 (upright) and 1 (italic). *)
Record imitation := { im_from_weight : Z; im_to_weight : Z; im_from_style : Z; im_to_style : Z }.

(** ** What the user relies on *)
(** [b] is [a] moved sideways, in proportion to its height, by [k] / 65536 to the nearest unit. *)
Definition leans (k : Z) (a b : Z * Z) : Prop :=
  snd b = snd a /\ 2 * Z.abs (65536 * (fst b - fst a) - k * snd a) <= 65536.
(** [b] is [a] moved sideways by [d]. *)
Definition shifted (d : Z) (a b : Z * Z) : Prop := b = (fst a + d, snd a).
