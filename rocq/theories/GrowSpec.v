(** Text that grows at its end. *)
From Coq Require Import List ZArith.
Import ListNotations.
From Verif Require Import BuilderModel FontModel.
Open Scope Z_scope.

(** Seen from any place before [lim], the text up to [lim'] is the text up to [lim] and
    characters that begin at [lim] or later. *)
Definition grows (text : Z -> Z -> list (Z * Z)) (off lim lim' : Z) : Prop :=
  lim <= lim' /\ forall a, off <= a < lim -> exists more, text a lim' = text a lim ++ more /\ Forall (fun p => lim <= a + fst p) more.

(** Every piece of the shorter text is a piece of the longer one, with the same font; the last
    one may have become longer. *)
Definition keeps_fonts (lim : Z) (before after : list (Z * Z * ssfont)) : Prop :=
  forall s e font, In (s, e, font) before -> exists e', In (s, e', font) after /\ (e' = e \/ e = lim /\ lim <= e').
