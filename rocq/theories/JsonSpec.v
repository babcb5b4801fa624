(** Specification of JSON family descriptions: which family a JSON value describes. *)
From Coq Require Import String Sorted.
From Verif Require Import Base BuilderModel FontModel FontSpec JsonModel.
Open Scope Z_scope.

(** [v] is the value of the field [k]. *)
Definition field (o : list (name * json)) (k : string) (v : json) : Prop :=
  exists a b, o = a ++ (lit k, v) :: b /\ ~ In (lit k) (List.map fst a).

(** A face: {"name": n, "uri": u, "weight": 100 ... 900, "style": "normal" or "italic"}. *)
Definition face_described (v : json) (f : face_desc) : Prop :=
  exists o, v = JObj o /\ field o "name" (JStr (fd_name f)) /\ field o "uri" (JStr (fd_uri f)) /\
    0 <= fd_weight f < 9 /\ field o "weight" (JInt (100 * (fd_weight f + 1))) /\
    (fd_style f = 0 /\ field o "style" (JStr (lit "normal")) \/ fd_style f = 1 /\ field o "style" (JStr (lit "italic"))).

Section Spec.
(** The number of script codes, and the code of a script name. *)
Variables (limit : nat) (code_of : name -> script_answer).

(** An entry of "scripts": a code, or the name of a script. *)
Definition script_described (v : json) (c : Z) : Prop :=
  0 <= c < Z.of_nat limit /\ (v = JInt c \/ exists s, v = JStr s /\ code_of s = SCode c).
(** The codes [cs], in order, are those of the entries [vs]. *)
Definition scripts_described (vs : list json) (cs : list Z) : Prop :=
  StronglySorted Z.lt cs /\ Forall (fun v => exists c, script_described v c) vs /\
  forall c, In c cs <-> exists v, In v vs /\ script_described v c.
(** An optional field that is an array. *)
Definition optional (o : list (name * json)) (k : string) {A} (P : list json -> list A -> Prop) (l : list A) : Prop :=
  (exists vs, field o k (JArr vs) /\ P vs l) \/ ((forall vs, ~ field o k (JArr vs)) /\ l = []).

Definition describes (j : json) (d : family_desc) : Prop :=
  exists o vs fs, j = JObj o /\ field o "name" (JStr (fy_name d)) /\
    optional o "scripts" scripts_described (fy_scripts d) /\
    optional o "linked_families" (fun vs ns => vs = List.map JStr ns) (fy_linked d) /\
    optional o "fallback_families" (fun vs ns => vs = List.map JStr ns) (fy_fallback d) /\
    field o "faces" (JArr vs) /\ Forall2 face_described vs fs /\
    fy_faces d = match fs with [] => None | _ => Some fs end.

(** No entry of "scripts" is a negative number or a name without a script, and each code
    ICU knows is in range. *)
Definition plain_scripts (j : json) : Prop := forall o vs v, j = JObj o -> field o "scripts" (JArr vs) -> In v vs ->
  match v with
  | JInt c => 0 <= c
  | JStr s => match code_of s with SFailed => True | SNone => False | SCode c => 0 <= c < Z.of_nat limit end
  | _ => True
  end.
End Spec.
