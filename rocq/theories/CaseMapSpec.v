(** What case mapping does to a text and where its parts come from. *)
From Verif Require Import Base BuilderModel CaseMapModel.
Open Scope Z_scope.

(** One character of the text and what it becomes, as bytes. *)
Record piece := { pc_source : list Z; pc_upper : list Z }.
Definition size (l : list Z) : Z := Z.of_nat (length l).
(** The bytes of a character in UTF-8: all but the first are between 128 and 191. *)
Definition continues (b : Z) : Prop := 128 <= b < 192.
Definition character (bs : list Z) : Prop :=
  exists b t, bs = b :: t /\ ~ continues b /\ Forall continues t.
Definition source (ps : list piece) : list Z := concat (map pc_source ps).
Definition upper_text (ps : list piece) : list Z := concat (map pc_upper ps).
(** The mapping does not change how many bytes the character takes. *)
Definition same_size (p : piece) : Prop := length (pc_upper p) = length (pc_source p).

(** The edits ICU records: one for each character that changes, one for each stretch of
    characters that do not. *)
Inductive edits_of : list piece -> list edit -> Prop :=
| edits_none : edits_of [] []
| edits_changed p ps es :
    edits_of ps es -> edits_of (p :: ps) ({| ed_old := size (pc_source p); ed_new := size (pc_upper p) |} :: es)
| edits_unchanged qs ps es :
    Forall (fun q => pc_upper q = pc_source q) qs -> edits_of ps es ->
    edits_of (qs ++ ps) ({| ed_old := size (source qs); ed_new := size (source qs) |} :: es).

(** Where in the source the character starts whose upper-case form holds byte [c]. *)
Fixpoint origin (ps : list piece) (c : Z) : option Z :=
  match ps with
  | [] => None
  | p :: ps' => if c <? size (pc_upper p) then Some 0
                else option_map (fun o => size (pc_source p) + o) (origin ps' (c - size (pc_upper p)))
  end.

(** The glyph [h] is the glyph [g] of the upper-case text, at the character of the source it
    comes from. *)
Definition moved (ps : list piece) (g h : hb_glyph) : Prop :=
  origin ps (hb_cluster g) = Some (hb_cluster h) /\
  hb_id h = hb_id g /\ hb_xadv h = hb_xadv g /\ hb_yadv h = hb_yadv g /\ hb_xoff h = hb_xoff g /\ hb_yoff h = hb_yoff g.
