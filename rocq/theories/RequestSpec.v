(** What should be asked of HarfBuzz for a run. *)
From Verif Require Import Base BuilderModel RequestModel.
Open Scope Z_scope.

(** Every character takes one to four bytes. *)
Definition well_formed (cs : list (Z * Z)) : Prop := Forall (fun c => 1 <= snd c <= 4) cs.
Definition bytes (cs : list (Z * Z)) : Z := fold_right Z.add 0 (map snd cs).
(** [run] stands in the paragraph [before ++ run ++ after]. *)
Definition stands_in (q : run_request) (before run after : list (Z * Z)) : Prop :=
  rq_paragraph q = before ++ run ++ after /\ rq_offset q = bytes before /\ rq_count q = bytes run /\ rq_length q = bytes (before ++ run ++ after).
(** The characters of [cs], each with the place where it starts. *)
Definition holds (cs : list (Z * Z)) (items : list (Z * Z)) : Prop :=
  map fst items = map fst cs /\ map snd items = map (fun i => bytes (firstn i cs)) (seq 0 (length cs)).
(** A feature applies to a character. *)
Definition applies (f : hb_feature) (item : Z * Z) : Prop := ff_value f <> 0 /\ ff_start f <= snd item < ff_end f.
Definition asks (tag : Z) (fs : list hb_feature) (items : list (Z * Z)) : Prop :=
  exists f, In f fs /\ ff_tag f = tag /\ Forall (applies f) items.

(** The three kinds of letters: the tag of each, whether a font is wanted to have it, whether it is imitated. *)
Inductive letters := SmallCapitals | Lowered | Raised.
(** OpenType's names: "smcp", "subs", "sups". *)
Definition tag_of (l : letters) : Z := match l with SmallCapitals => 1936548720 | Lowered => 1937072755 | Raised => 1937076339 end.
Definition wanted (l : letters) (f : ssfont) : bool := match l with SmallCapitals => sf_small f | Lowered => sf_sub f | Raised => sf_super f end.
Definition imitated (l : letters) (f : ssfont) : bool := match l with SmallCapitals => sf_syn_small f | Lowered => sf_syn_sub f | Raised => sf_syn_super f end.
