(** What a user of the UI container relies on, independent of how it keeps its state.
    Only the vocabulary of events and results is taken from the model. *)
From Verif Require Import Base UiModel.

(** Every request for which there is a texture is shown, in order, with its own texture
    and pipeline and the size of the screen. *)
Definition wanted {D} (sz : Q * Q) (qs : list (request D)) : list (shown D) :=
  flat_map (fun q => match q_texture q with
    | Some t => [ {| s_pipeline := q_pipeline q; s_texture := t; s_size := Some sz; s_data := q_data q |} ]
    | None => [] end) qs.
(** A texture that is created is new: no earlier request used it. *)
Fixpoint creates_new {D} (seen : list nat) (qs : list (request D)) : Prop :=
  match qs with
  | [] => True
  | q :: qs =>
      match q_texture q with
      | Some t => (q_new q = true -> ~ In t seen) /\ creates_new (t :: seen) qs
      | None => creates_new seen qs
      end
  end.

(** Which object has the focus after a history, the latest event first. *)
Fixpoint focus_after (es : list event) : option nat :=
  match es with
  | [] => None
  | Press hit :: _ => hit
  | Release :: _ => None
  | Click _ _ :: es => focus_after es
  | Destroy o :: es => match focus_after es with Some p => if (p =? o)%nat then None else Some p | None => None end
  end.
(** The object exists after the history. *)
Definition exists_after (es : list event) (o : nat) : Prop := ~ In (Destroy o) es.
(** No event concerns an object after its end (latest event first). *)
Fixpoint sane (es : list event) : Prop :=
  match es with
  | [] => True
  | Press (Some o) :: es => exists_after es o /\ sane es
  | _ :: es => sane es
  end.
(** The notifications that a change of focus calls for: an object that still exists
    learns that it lost the focus, then the new one that it has it. *)
Definition change (before after : option nat) : list note :=
  match before, after with
  | Some a, Some b => if (a =? b)%nat then [] else [Lost a; Focused b]
  | Some a, None => [Lost a]
  | None, Some b => [Focused b]
  | None, None => []
  end.
(** All notifications of a history, the latest event first. *)
Fixpoint notes_of (es : list event) : list note :=
  match es with
  | [] => []
  | Destroy _ :: es => notes_of es
  | e :: es => notes_of es ++ change (focus_after es) (focus_after (e :: es))
  end.

(** How many clicks directly before the latest one belong to it: at the same place, each
    within half a second of the next, with no loss or change of focus in between
    (latest event first, starting after a click at [pos], [now]). *)
Fixpoint clicks_before (pos : Z) (now : Q) (es : list event) : Z :=
  match es with
  | [] => 0
  | Click pos' before :: es =>
      if (pos =? pos')%Z && Qle_bool (now - before) (1 # 2) then 1 + clicks_before pos before es else 0
  | Destroy _ :: es => clicks_before pos now es
  | Release :: _ | Press None :: _ => 0
  | Press (Some o) :: es =>
      match focus_after es with
      | Some p => if (p =? o)%nat then clicks_before pos now es else 0
      | None => 0
      end
  end.
(** The answers to all clicks of a history (latest event first), modulo [2 ^ 32]. *)
Fixpoint click_counts (es : list event) : list Z :=
  match es with
  | [] => []
  | Click pos now :: es => click_counts es ++ [Z.modulo (clicks_before pos now es) (2 ^ 32)]
  | _ :: es => click_counts es
  end.
(** Positions that can be clicked. *)
Definition clicks_valid (es : list event) : Prop :=
  Forall (fun e => match e with Click pos _ => (0 <= pos < 4294967295)%Z | _ => True end) es.

(** The number of open menus. *)
Definition open_menus (b : bar) : nat := length (filter m_open (b_menus b)).
(** Where the menus of names of the given lengths end: 10 pixels per character. *)
Fixpoint edges (at_ : Q) (names : list nat) : list Q :=
  match names with
  | [] => []
  | n :: names => (at_ + 10 * inject_Z (Z.of_nat n))%Q :: edges (at_ + 10 * inject_Z (Z.of_nat n))%Q names
  end.
(** The mouse is never exactly on the line where one menu ends and the next begins. *)
Definition off_edges (names : list nat) (x : Q) : Prop := Forall (fun e => ~ x == e)%Q (removelast (edges 0 names)).

(** The menu at a point: menus follow each other from the left and are 19 pixels high. *)
Fixpoint menu_at (at_ : Q) (names : list nat) (x y : Q) : option nat :=
  match names with
  | [] => None
  | n :: names =>
      let right_ := (at_ + 10 * inject_Z (Z.of_nat n))%Q in
      if Qle_bool at_ x && Qle_bool x right_ && Qle_bool 0 y && Qle_bool y 19 then Some 0 else option_map S (menu_at right_ names x y)
  end.
(** Which menu is open: pressing a menu opens it when none is open and closes it otherwise;
    while one is open, moving onto another one opens that instead. *)
Fixpoint menu_open (names : list nat) (now : option nat) (x y : Q) (es : list mouse) : option nat :=
  match es with
  | [] => now
  | Moved x' y' :: es => menu_open names (match now, menu_at 0 names x' y' with Some _, Some j => Some j | _, _ => now end) x' y' es
  | Pressed :: es => menu_open names (match menu_at 0 names x y, now with None, _ => now | Some j, None => Some j | Some _, Some _ => None end) x y es
  end.
