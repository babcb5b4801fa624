(** Characters that belong together. *)
From Coq Require Import List ZArith.
Import ListNotations.
From Verif Require Import BuilderModel FontModel.
Open Scope Z_scope.

(** The bytes [a] and [b] of the text go to the shaper in one piece. *)
Definition together (pieces : list (Z * Z * ssfont)) (a b : Z) : Prop :=
  exists s e font, In (s, e, font) pieces /\ s <= a < e /\ s <= b < e.
