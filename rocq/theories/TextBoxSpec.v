(** Specification of a text box: what the user sees and what each event does to it. *)
From Coq Require Export QArith.
From Verif Require Import Base FloatModel PackingModel LayoutModel LayoutSpec CursorModel CursorSpec TextBoxModel.
Open Scope Z_scope.

(** ** UTF-8 *)
Definition scalar (c : Z) : Prop := 0 <= c < 55296 \/ 57344 <= c <= 1114111.
Definition utf8 (c : Z) : list Z :=
  if c <? 128 then [c]
  else if c <? 2048 then [192 + c / 64; 128 + c mod 64]
  else if c <? 65536 then [224 + c / 4096; 128 + (c / 64) mod 64; 128 + c mod 64]
  else [240 + c / 262144; 128 + (c / 4096) mod 64; 128 + (c / 64) mod 64; 128 + c mod 64].
Definition valid_utf8 (t : list Z) : Prop := exists cs, Forall scalar cs /\ t = flat_map utf8 cs.
Definition size (t : list Z) : Z := Z.of_nat (length t).
(** Index [i] is inside the text and not in the middle of a character. *)
Definition on_char (t : list Z) (i : Z) : Prop :=
  0 <= i <= size t /\ forall b, nth_error t (Z.to_nat i) = Some b -> ~ 128 <= b <= 191.

(** ** What the user sees *)
Record view := { v_text : list Z; v_cursor : Z; v_anchor : option Z; v_focused : bool; v_editable : bool; v_multi : bool; v_drag : bool }.
Definition view_of (b : box) : view :=
  {| v_text := tb_text b; v_cursor := tb_cursor b; v_anchor := if cp_is_valid (tb_anchor b) then Some (tb_anchor b) else None;
     v_focused := tb_focused b; v_editable := tb_editable b; v_multi := tb_multi b; v_drag := tb_drag b |}.
Definition pos (v : view) : Z := cp_get_position (v_cursor v).
Definition other (v : view) : Z := match v_anchor v with Some a => cp_get_position a | None => pos v end.
(** The selection, from [first] up to [last]. *)
Definition first (v : view) : Z := Z.min (pos v) (other v).
Definition last (v : view) : Z := Z.max (pos v) (other v).
Definition before (t : list Z) (i : Z) : list Z := firstn (Z.to_nat i) t.
Definition after (t : list Z) (i : Z) : list Z := skipn (Z.to_nat i) t.
Definition selected (v : view) : list Z := before (after (v_text v) (first v)) (last v - first v).

(** Text is well formed; cursor and selection start are between characters. *)
Definition sound (v : view) : Prop :=
  valid_utf8 (v_text v) /\ size (v_text v) < 2 ^ 31 - 1 /\ on_char (v_text v) (pos v) /\ on_char (v_text v) (other v).

(** Nothing but the named parts changes. *)
Definition same_mode (v v' : view) : Prop := v_editable v' = v_editable v /\ v_multi v' = v_multi v.
Definition same_state (v v' : view) : Prop := same_mode v v' /\ v_focused v' = v_focused v /\ v_drag v' = v_drag v.
Definition same_rest (v v' : view) : Prop :=
  v_text v' = v_text v /\ v_cursor v' = v_cursor v /\ v_anchor v' = v_anchor v /\ v_focused v' = v_focused v /\ v_drag v' = v_drag v.
(** The cursor goes to [p]; with [sel] the selection starts, or stays, where it was. *)
Definition moved (v : view) (p : Z) (sel : bool) (v' : view) : Prop :=
  v_text v' = v_text v /\ v_cursor v' = p /\
  v_anchor v' = if sel then Some (match v_anchor v with Some a => a | None => v_cursor v end) else None.
(** [s] takes the place of the bytes from [i] to [j], and the cursor is after it. *)
Definition edited (v : view) (i j : Z) (s : list Z) (v' : view) : Prop :=
  v_text v' = before (v_text v) i ++ s ++ after (v_text v) j /\ pos v' = i + size s /\ v_anchor v' = None.
Definition inserted (v : view) (s : list Z) (v' : view) : Prop := same_state v v' /\ edited v (first v) (last v) s v'.
(** Focus is lost. *)
Definition left_alone (v v' : view) : Prop :=
  same_mode v v' /\ v_focused v' = false /\ v_text v' = v_text v /\ v_cursor v' = v_cursor v /\
  if v_focused v then v_anchor v' = None /\ v_drag v' = false else v_anchor v' = v_anchor v /\ v_drag v' = v_drag v.

Section Box.
Variables (w : Q) (al : xalign) (build : list Z -> layout).
Variables (B : list Z -> Z -> Prop) (following preceding : list Z -> Z -> Z) (decode : list Z -> Z -> Z) (white : Z -> bool).

(** ** What is asked of the other components *)

(** The break iterator walks over stops, which lie between characters. *)
Definition good_stops : Prop := forall t, valid_utf8 t -> size t < 2 ^ 31 - 1 ->
  stops_ok (B t) (size t) /\ follows_stops (B t) (following t) /\ precedes_stops (B t) (preceding t) /\ (forall b, B t b -> on_char t b).
(** The layout of a text is a stored document whose glyphs begin at stops. *)
Definition good_layouts : Prop := forall t, valid_utf8 t -> t <> [] -> size t < 2 ^ 31 - 1 ->
  exists d y, doc_ok d /\ stored d y (build t) /\ d <> [] /\ Forall (fun s => 0 <= sl_height s)%Q d /\
    Forall run_ok (doc_runs d) /\ Forall (begins_at_stops (B t)) (doc_runs d).

(** ** Where the cursor goes *)

(** The stop next to [c], or [c] itself at the end of the text. *)
Definition char_right (t : list Z) (c p : Z) : Prop :=
  next_stop (B t) (cp_get_position c) (cp_get_position p) \/ (p = c /\ forall b, B t b -> b <= cp_get_position c).
Definition char_left (t : list Z) (c p : Z) : Prop :=
  prev_stop (B t) (cp_get_position c) (cp_get_position p) \/ (p = c /\ forall b, B t b -> cp_get_position c <= b).
(** The next stop that starts a word, or the last stop; the last stop before [c] that is
    the first of a word, or the first stop. *)
Definition word_right (t : list Z) (c p : Z) : Prop :=
  let x := cp_get_position c in let q := cp_get_position p in
  (p = c /\ forall b, B t b -> b <= x) \/
  (B t q /\ x < q /\ (forall b, B t b -> x < b < q -> ~ starts_word (B t) (decode t) white x b) /\
   (starts_word (B t) (decode t) white x q \/ forall b, B t b -> b <= q)).
Definition word_left (t : list Z) (c p : Z) : Prop :=
  let x := cp_get_position c in let q := cp_get_position p in
  (p = c /\ forall b, B t b -> x <= b) \/
  (B t q /\ q < x /\ (forall b, B t b -> q < b < x -> ~ first_of_word (B t) (decode t) white b) /\
   (first_of_word (B t) (decode t) white q \/ forall b, B t b -> q <= b)).
(** The caret as drawn: its line and horizontal position. *)
Definition caret (t : list Z) (c : Z) (line : nat) (x : Q) : Prop :=
  exists i, calc_cursor_pixel_pos (build t) w al c = Ok i /\ line = ci_line i /\ x = ci_x i.
Definition line_start (t : list Z) (c p : Z) : Prop := exists k x, caret t c k x /\ get_line_start_position (build t) k = Ok p.
Definition line_end (t : list Z) (c p : Z) : Prop := exists k x, caret t c k x /\ get_line_end_position (build t) k = Ok p.
(** The caret nearest to the present one on the line above or below, if there is one. *)
Definition line_up (t : list Z) (c p : Z) : Prop := exists k x, caret t c k x /\
  match k with O => p = c | S k => find_closest_cursor_position (following t) (build t) w al k x = Ok p end.
Definition line_down (t : list Z) (c p : Z) : Prop := exists k x, caret t c k x /\
  if (S k <? length (lo_lines (build t)))%nat then find_closest_cursor_position (following t) (build t) w al (S k) x = Ok p else p = c.
Definition hit (t : list Z) (x y : Q) (p : Z) : Prop := closest_to_position (following t) (build t) w al x y = Ok p.
(** The ends of the text. *)
Definition text_start (p : Z) : Prop := cp_get_position p = 0.
Definition text_end (t : list Z) (p : Z) : Prop := cp_get_position p = size t.

Definition goes (v : view) (target : Z -> Z -> Prop) (sel : bool) (v' : view) : Prop :=
  same_state v v' /\ exists p, target (v_cursor v) p /\ moved v p sel v'.
(** The selection, or without one the text between the cursor and [target]. *)
Definition erased (v : view) (target : Z -> Z -> Prop) (v' : view) : Prop :=
  same_state v v' /\
  match v_anchor v with
  | Some _ => edited v (first v) (last v) [] v'
  | None => exists p, target (v_cursor v) p /\
      edited v (Z.min (pos v) (cp_get_position p)) (Z.max (pos v) (cp_get_position p)) [] v'
  end.
(** A press: [n] presses before it at the same place. *)
Definition pressed (v : view) (x y : Q) (sel : bool) (n : Z) (v' : view) : Prop :=
  same_mode v v' /\ v_focused v' = true /\ v_drag v' = true /\ exists p, hit (v_text v) x y p /\
  match (if v_focused v then n mod 4 else 0) with
  | 1 => v_text v' = v_text v /\ exists a, word_left (v_text v) p a /\ v_anchor v' = Some a /\ word_right (v_text v) a (v_cursor v')
  | 2 => v_text v' = v_text v /\ exists a, line_start (v_text v) p a /\ v_anchor v' = Some a /\ line_end (v_text v) a (v_cursor v')
  | 3 => v_text v' = v_text v /\ exists a, text_start a /\ v_anchor v' = Some a /\ text_end (v_text v) (v_cursor v')
  | _ => moved v p sel v'
  end.

(** ** What an event does *)
Definition copied (v : view) (clip clip' : option (list Z)) : Prop :=
  clip' = if first v =? last v then clip else Some (selected v).
Definition on_key (v : view) (clip : option (list Z)) (c : cmd) (v' : view) (clip' : option (list Z)) : Prop :=
  let t := v_text v in
  match c with
  | KUp s => goes v (line_up t) s v' /\ clip' = clip
  | KDown s => goes v (line_down t) s v' /\ clip' = clip
  | KLeft true s => goes v (word_left t) s v' /\ clip' = clip
  | KLeft false s => goes v (char_left t) s v' /\ clip' = clip
  | KRight true s => goes v (word_right t) s v' /\ clip' = clip
  | KRight false s => goes v (char_right t) s v' /\ clip' = clip
  | KHome true s => goes v (fun _ => text_start) s v' /\ clip' = clip
  | KHome false s => goes v (line_start t) s v' /\ clip' = clip
  | KEnd true s => goes v (fun _ => text_end t) s v' /\ clip' = clip
  | KEnd false s => goes v (line_end t) s v' /\ clip' = clip
  | KBackspace ctrl => erased v (if ctrl then word_left t else char_left t) v' /\ clip' = clip
  | KDelete ctrl => erased v (if ctrl then word_right t else char_right t) v' /\ clip' = clip
  | KEnter => (if v_multi v then inserted v [10] v' else left_alone v v') /\ clip' = clip
  | KTab => inserted v [9] v' /\ clip' = clip
  | KCut => if v_editable v then (if first v =? last v then v' = v else inserted v [] v') /\ copied v clip clip' else v' = v /\ clip' = clip
  | KCopy => v' = v /\ copied v clip clip'
  | KPaste => clip' = clip /\ if v_editable v then exists s, clip = Some s /\ inserted v s v' else v' = v
  | KAll => same_state v v' /\ clip' = clip /\ v_text v' = t /\ (exists a, v_anchor v' = Some a /\ text_start a) /\ text_end t (v_cursor v')
  | _ => False
  end.
Definition does (v : view) (clip : option (list Z)) (c : cmd) (v' : view) (clip' : option (list Z)) : Prop :=
  match c with
  | CPress x y sel n => pressed v x y sel n v' /\ clip' = clip
  | CRelease => clip' = clip /\ same_mode v v' /\ v_focused v' = v_focused v /\ v_text v' = v_text v /\ v_cursor v' = v_cursor v /\
      v_anchor v' = v_anchor v /\ v_drag v' = if v_focused v then false else v_drag v
  | CDrag x y => clip' = clip /\ if v_focused v && v_drag v then goes v (fun _ => hit (v_text v) x y) true v' else v' = v
  | CAway => left_alone v v' /\ clip' = clip
  | CType ch => clip' = clip /\ if v_focused v && v_editable v then inserted v (utf8 ch) v' else v' = v
  | CReplace t => clip' = clip /\ same_state v v' /\ v_text v' = t /\ v_cursor v' = v_cursor v /\ v_anchor v' = v_anchor v
  | CClip s => v' = v /\ clip' = s
  | CMulti x => clip' = clip /\ same_rest v v' /\ v_editable v' = v_editable v /\ v_multi v' = x
  | CEditable x => clip' = clip /\ same_rest v v' /\ v_editable v' = x /\ v_multi v' = v_multi v
  | CTick _ | CRich _ | CSelectable _ => v' = v /\ clip' = clip
  | _ => if v_focused v then on_key v clip c v' clip' else v' = v /\ clip' = clip
  end.
(** [does] for one event after another. *)
Fixpoint does_all (v : view) (clip : option (list Z)) (cs : list cmd) (v' : view) (clip' : option (list Z)) : Prop :=
  match cs with
  | [] => v' = v /\ clip' = clip
  | c :: cs => exists v1 clip1, does v clip c v1 clip1 /\ sound v1 /\ does_all v1 clip1 cs v' clip'
  end.

(** ** The histories covered *)

(** A selection that is not empty, or none. *)
Definition proper (v : view) : Prop := forall a, v_anchor v = Some a -> cp_get_position a <> pos v.
Definition room (v : view) (s : list Z) : Prop := size (v_text v) + size s < 2 ^ 31 - 1.
(** Keys that edit want an editable box and no selection of nothing; moves and presses
    want a text; a paste wants a clipboard with text; new text must hold the cursor; the text
    is plain and can be selected. *)
Definition allowed (v : view) (clip : option (list Z)) (c : cmd) : Prop :=
  let focused P := if v_focused v then P : Prop else True in
  match c with
  | KBackspace _ | KDelete _ => focused (v_editable v = true /\ proper v)
  | KEnter => focused (v_multi v = true -> v_editable v = true /\ proper v /\ room v [10])
  | KTab => focused (v_editable v = true /\ proper v /\ room v [9])
  | KCut => focused (v_editable v = true -> proper v)
  | KCopy | CRelease | CAway | CTick _ | CMulti _ | CEditable _ => True
  | CRich x => x = false
  | CSelectable x => x = true
  | KPaste => focused (v_editable v = true -> proper v /\ exists s, clip = Some s /\ room v s)
  | CType ch => focused (v_editable v = true -> proper v /\ scalar ch /\ room v (utf8 ch))
  | CReplace t => valid_utf8 t /\ size t < 2 ^ 31 - 1 /\ on_char t (pos v) /\ on_char t (other v)
  | CClip s => match s with Some s => valid_utf8 s | None => True end
  | CPress _ _ _ _ => v_text v <> []
  | _ => focused (v_text v <> [])
  end.
(** Every event is allowed where the ones before it, done as specified, may lead. *)
Fixpoint allowed_all (v : view) (clip : option (list Z)) (cs : list cmd) : Prop :=
  match cs with
  | [] => True
  | c :: cs => allowed v clip c /\ forall v' clip', does v clip c v' clip' -> sound v' -> allowed_all v' clip' cs
  end.
End Box.
(** A new box that shows [t], and how it looks. *)
Definition fresh (editable multi : bool) : box :=
  {| tb_text := []; tb_content := []; tb_cursor := 0; tb_anchor := invalid_value; tb_focused := false; tb_editable := editable;
     tb_rich := false; tb_multi := multi; tb_selectable := true; tb_font := true; tb_drag := false; tb_layout := lo_empty; tb_ctrl := [];
     tb_info := no_info; tb_timer := f32_0; tb_flash := 0 |}.
Definition shows (t : list Z) (editable multi : bool) : view :=
  {| v_text := t; v_cursor := 0; v_anchor := None; v_focused := false; v_editable := editable; v_multi := multi; v_drag := false |}.
