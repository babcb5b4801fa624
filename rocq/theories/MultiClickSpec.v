(** Words as a double click selects them. *)
From Coq Require Import List ZArith.
Import ListNotations.
From Verif Require Import Base CursorModel CursorSpec.
Open Scope Z_scope.

Section Words.
Variables (B : Z -> Prop) (n : Z) (decode : Z -> Z) (white : Z -> bool).
Definition letter (p : Z) : Prop := white (decode p) = false /\ ~ ends_line (decode p).
Definition blank (p : Z) : Prop := white (decode p) = true /\ ~ ends_line (decode p).
(** A word from [s] to [e], with the white space after it in the same line up to [z].  It
    begins the text or comes after white space; after [z] the text ends, the line ends, or
    another word begins. *)
Definition word (s e z : Z) : Prop :=
  B s /\ B e /\ B z /\ s < e <= z /\ (forall b, B b -> s <= b < e -> letter b) /\ (forall b, prev_stop B s b -> white (decode b) = true) /\
  (forall b, B b -> e <= b < z -> blank b) /\ (z = n \/ ends_line (decode z) \/ (e < z /\ white (decode z) = false)).
End Words.
