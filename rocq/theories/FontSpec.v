(** Specification of the font registry. *)
From Verif Require Import Base BuilderModel FontModel.
Open Scope Z_scope.

(** ** Faces of a family *)

(** The last description in [fs] for which [P] holds. *)
Definition last_with (P : face_desc -> Prop) (fs : list face_desc) (d : face_desc) : Prop :=
  exists a b, fs = a ++ d :: b /\ P d /\ Forall (fun x => ~ P x) b.
Definition is_for (w s : Z) (d : face_desc) : Prop := fd_weight d = w /\ fd_style d = s.
(** The description that answers a request: the last one for that weight and style;
    without one, the last Regular Normal one; without that, the first. *)
Definition answers (fs : list face_desc) (w s : Z) (d : face_desc) : Prop :=
  last_with (is_for w s) fs d \/
  (Forall (fun x => ~ is_for w s x) fs /\
   (last_with (is_for REGULAR NORMAL) fs d \/ (Forall (fun x => ~ is_for REGULAR NORMAL x) fs /\ exists l, fs = d :: l))).
Definition descs_ok (fs : list face_desc) : Prop := Forall (fun d => 0 <= fd_weight d < 9 /\ 0 <= fd_style d < 2) fs.

(** ** Histories of registrations and their results *)

(** Some registration of [d] reported success. *)
Definition succeeded (ds : list family_desc) (es : list reg_result) (d : family_desc) : Prop :=
  exists i, nth_error ds i = Some d /\ nth_error es i = Some RNone.
(** The names of families that occur in the descriptions. *)
Definition family_names (ds : list family_desc) : list name := flat_map (fun d => fy_name d :: fy_linked d ++ fy_fallback d) ds.
(** The descriptions of faces in the registrations that succeeded. *)
Fixpoint faces_in (ds : list family_desc) (es : list reg_result) : list face_desc :=
  match ds, es with
  | d :: ds, RNone :: es => (match fy_faces d with Some fs => fs | None => [] end) ++ faces_in ds es
  | _ :: ds, _ :: es => faces_in ds es
  | _, _ => []
  end.
(** How many different names there are. *)
Definition distinct (l : list name) : Z := Z.of_nat (length (nodup (list_eq_dec Z.eq_dec) l)).
(** The first description of each name, in the order of the first descriptions. *)
Fixpoint firsts (l : list face_desc) : list face_desc :=
  match l with [] => [] | d :: l' => d :: filter (fun x => negb (name_eqb (fd_name x) (fd_name d))) (firsts l') end.

(** ** Fallback *)

(** The decoded text between offset and limit: the index of each character. *)
Fixpoint increasing_from (i : Z) (chars : list (Z * Z)) (n : Z) : Prop :=
  match chars with [] => i = n | (j, _) :: cs => j = i /\ exists k, i < k <= n /\ increasing_from k cs n end.
Definition decoded (chars : list (Z * Z)) (n : Z) : Prop := increasing_from 0 chars n.

(** Consecutive segments from [a] to [b], each with its font. *)
Fixpoint tiled {F} (a : Z) (l : list (Z * Z * F)) (b : Z) : Prop :=
  match l with [] => a = b | (x, y, _) :: l' => x = a /\ a < y /\ tiled y l' b end.

(** The faces of the registered families among [hs]. *)
Definition faces_of (r : registry) (hs : list Z) (w s : Z) : list face_handle :=
  flat_map (fun h => match get_fam r h with
                     | Ok g => if fa_init g then match slot (fa_lookup g) w s with Ok f => [f] | _ => [] end else []
                     | _ => []
                     end) hs.
(** A face draws a character: it loads and has it. *)
Definition draws (loads : Z -> bool) (covers : Z -> Z -> bool) (f : face_handle) (c : Z) : Prop :=
  loads (fh_handle f) = true /\ covers (fh_handle f) c = true.
(** The first of a list with a property. *)
Definition first_of {A} (P : A -> Prop) (l : list A) (x : A) : Prop :=
  exists a b, l = a ++ x :: b /\ P x /\ Forall (fun y => ~ P y) a.
(** The family that serves a script: the family itself if it has the script, otherwise
    the first registered linked family that has it, otherwise the family itself. *)
Definition has_script (f : family) (script : Z) : Prop := fa_init f = true /\ zget (fa_scripts f) script = Ok true.
Definition serves_script (r : registry) (fam : family) (script : Z) (g : family) : Prop :=
  (zget (fa_scripts fam) script = Ok true /\ g = fam) \/
  (zget (fa_scripts fam) script <> Ok true /\
   exists linked, Forall2 (fun h x => get_fam r h = Ok x) (fa_linked fam) linked /\
     (first_of (fun x => has_script x script) linked g \/ (Forall (fun x => ~ has_script x script) linked /\ g = fam))).
(** Characters of one case: combining ones have none. *)
Definition one_case (combining lower : Z -> bool) (chars : list (Z * Z)) (low : bool) : Prop :=
  Forall (fun p => combining (snd p) = false -> lower (snd p) = low) chars.

(** ** The cache *)

(** The effective size of the last request for a face. *)
Fixpoint last_size (os : list cache_op) (h : Z) (start : option Z) : option Z :=
  match os with
  | [] => start
  | QGet k _ eff :: os' => last_size os' h (if k =? h then Some eff else start)
  | QAdvance _ _ :: os' => last_size os' h start
  end.

(** ** Reachable registries *)
Definition reached (limit : nat) (map_file : nat -> name -> option Z) (ds : list family_desc) (r : registry) (es : list reg_result) : Prop :=
  registrations limit map_file rg_empty ds = Ok (r, es).
(** As the documentation asks: each registered family has a face; and the faces can be
    numbered. *)
Definition documented (ds : list family_desc) (es : list reg_result) : Prop :=
  (forall d, succeeded ds es d -> fy_faces d <> Some []) /\ distinct (map fd_name (faces_in ds es)) <= 65535.
