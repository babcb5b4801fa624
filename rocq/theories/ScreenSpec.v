(** What the screen must show for a laid out text and a selection. *)
From Coq Require Export QArith.
From Verif Require Import Base PackingModel FloatModel ColorModel FormattingModel FormattingIterModel LayoutModel LayoutSpec DrawModel DrawSpec
  ClipModel ClipSpec ScreenModel.
Open Scope Z_scope.

(** ** The selection *)

(** From [anchor] to [cursor], whichever comes first; none when there is no anchor. *)
Definition selects (anchor cursor : Z) (sel : option (Z * Z)) : Prop :=
  (cp_is_valid anchor = false /\ sel = None) \/
  (cp_is_valid anchor = true /\
   sel = Some (Z.min (cp_get_position anchor) (cp_get_position cursor), Z.max (cp_get_position anchor) (cp_get_position cursor))).
(** A character of the run is selected. *)
Definition selected (s e : Z) (r : srun) : Prop := exists c, s <= c < e /\ sr_start r <= c < sr_end r.
(** The place of a caret in a run (C33), and the part of the screen between the carets at the
    two ends of the selection, cut to the run. *)
Definition caret (lay : layout) (p : place) (c : Z) : Q :=
  match get_glyph_offset_in_run lay (pl_run p) c with Ok x => x | _ => 0%Q end.
Definition cut (r : srun) (c : Z) : Z := Z.max (Z.min c (sr_end r)) (sr_start r).
Definition lit_left (lay : layout) (px : Q) (s e : Z) (p : place) : Q :=
  (px + pl_x p + caret lay p (cut (pl_of p) (if sr_rtl (pl_of p) then e else s)))%Q.
Definition lit_right (lay : layout) (px : Q) (s e : Z) (p : place) : Q :=
  (px + pl_x p + caret lay p (cut (pl_of p) (if sr_rtl (pl_of p) then s else e)))%Q.

(** ** Boxes *)
Definition box_color : color :=
  {| c_r := f32_div (f32_of_Z 0) (f32_of_Z 255); c_g := f32_div (f32_of_Z 120) (f32_of_Z 255);
     c_b := f32_div (f32_of_Z 215) (f32_of_Z 255); c_a := f32_div (f32_of_Z 255) (f32_of_Z 255) |}.
(** A run with selected characters has one box behind it: between the two carets, from the top
    of its line to the bottom.  Nothing that can be seen is drawn for another run. *)
Definition box_drawn (plain : Z) (lay : layout) (d : sdoc) (y px py : Q) (s e : Z) (p : place) (bs : list drawn) : Prop :=
  (selected s e (pl_of p) -> exists b sl, bs = [b] /\ nth_error d (pl_line p) = Some sl /\
     dr_image b = plain /\ dr_color b = box_color /\ dr_pipe b = PRect /\
     (r_x (dr_rect b) == lit_left lay px s e p)%Q /\ (r_x (dr_rect b) + r_w (dr_rect b) == lit_right lay px s e p)%Q /\
     (0 <= r_w (dr_rect b))%Q /\
     (r_y (dr_rect b) == py + y + heights (firstn (pl_line p) d))%Q /\ (r_h (dr_rect b) == sl_height sl)%Q) /\
  (~ selected s e (pl_of p) -> Forall (fun b => r_w (dr_rect b) == 0)%Q bs).

(** ** Pictures *)

(** [t] is drawn by exactly one of the rectangles, [d]. *)
Definition painted_by (ds : list drawn) (t : Q) (d : drawn) : Prop :=
  exists a b, ds = a ++ d :: b /\ covers (dr_rect d) t /\ Forall (fun s => ~ covers (dr_rect s) t) (a ++ b).
(** The part [u, v, uw, vh] of the texture is shown at [x, y, w, h]: each column once, none
    beside it, in the colour [colors] allows there. *)
Definition shown (image : option Z) (x y w h u v uw vh : Q) (pi : pipe) (colors : Q -> color -> Prop) (ds : list drawn) : Prop :=
  match image with
  | None => ds = []
  | Some i =>
      Forall (fun d => dr_image d = i /\ dr_pipe d = pi) ds /\
      (forall d t, In d ds -> covers (dr_rect d) t -> (x <= t /\ t < x + w)%Q) /\
      forall t, (x <= t)%Q -> (t < x + w)%Q -> exists d, painted_by ds t d /\
        (r_y (dr_rect d) == y)%Q /\ (r_h (dr_rect d) == h)%Q /\ (r_v (dr_rect d) == v)%Q /\ (r_vh (dr_rect d) == vh)%Q /\
        (texel (r_x (dr_rect d)) (r_w (dr_rect d)) (r_u (dr_rect d)) (r_uw (dr_rect d)) t == texel x w u uw t)%Q /\
        colors t (dr_color d)
  end.
(** Pure white. *)
Definition bright : color := {| c_r := f32_of_Z 1; c_g := f32_of_Z 1; c_b := f32_of_Z 1; c_a := f32_of_Z 1 |}.
Definition only (c : color) : Q -> color -> Prop := fun _ c' => c' = c.
(** White between [lo] and [hi]; elsewhere [c], or white where less than a pixel of [x, x + w)
    sticks out on that side. *)
Definition lit (lo hi x w : Q) (c : color) : Q -> color -> Prop := fun t c' =>
  ((lo <= t)%Q -> (t < hi)%Q -> c' = bright) /\
  ((t < lo)%Q -> c' = c \/ (c' = bright /\ (x < lo)%Q /\ (lo < x + 1)%Q)) /\
  ((hi <= t)%Q -> c' = c \/ (c' = bright /\ (hi < x + w)%Q /\ (x + w < hi + 1)%Q)).
(** The colours of what belongs to the run at [p]. *)
Definition run_colors (lay : layout) (px : Q) (sel : option (Z * Z)) (p : place) (x w : Q) (c : color) : Q -> color -> Prop := fun t c' =>
  match sel with
  | None => c' = c
  | Some (s, e) =>
      (s < e -> sr_start (pl_of p) < sr_end (pl_of p) -> ~ selected s e (pl_of p) -> c' = c) /\
      (selected s e (pl_of p) -> (pl_x p == 0)%Q -> lit (lit_left lay px s e p) (lit_right lay px s e p) x w c t c')
  end.

(** ** Calls of the library *)

(** Each call with the run announced last. *)
Fixpoint under (run : nat) (calls : list draw_call) : list (nat * draw_call) :=
  match calls with
  | [] => []
  | DRun l r :: calls => (r, DRun l r) :: under r calls
  | c :: calls => (run, c) :: under run calls
  end.
Definition outlines_only (ds : list drawn) : Prop := Forall (fun d => dr_pipe d = POutline) ds.

Section Calls.
Variable vars : cvars.
Variable glyph_info : Z -> Z -> picture.
Variable stroke_info : Z -> Z -> Z -> stroke_type -> picture.
Variable plain : Z.
Definition its_color (i : picture) (c : color) : color := if pi_colored i then bright else c.
(** A picture goes where the call says, moved by the picture's own offset. *)
Definition picture_at (i : picture) (x y : Q) (colors : Q -> Q -> Q -> color -> Prop) (ds : list drawn) : Prop :=
  shown (pi_image i) (x + pi_dx i) (y + pi_dy i) (pi_w i) (pi_h i) (pi_u i) (pi_v i) (pi_uw i) (pi_vh i)
    (if cv_msdf vars then PMsdf else PRect) (colors (x + pi_dx i)%Q (pi_w i)) ds.
(** What a call puts on the screen; frames around glyphs only when asked for. *)
Definition call_drawn (lay : layout) (px py : Q) (sel : option (Z * Z)) (p : place) (c : draw_call) (ds : list drawn) : Prop :=
  match c with
  | DRun _ _ => ds = []
  | DGlyph font g x y c => exists here frame, ds = here ++ frame /\ outlines_only frame /\ (cv_glyph_outlines vars = false -> frame = []) /\
      let i := glyph_info font g in
      picture_at i (px + x) (py + y) (fun x w => run_colors lay px sel p x w (its_color i c)) here
  | DStroke font g x y k => picture_at (stroke_info font g (k_thickness k) (k_joins k)) (px + x) (py + y) (fun _ _ => only (k_color k)) ds
  | DRect _ x y w h c => shown (Some plain) (px + x) (py + y) w h 0 0 1 1 PRect (run_colors lay px sel p (px + x) w c) ds
  end.
(** The same without formatting. *)
Definition plain_drawn (px py : Q) (c : color) (call : plain_call) (ds : list drawn) : Prop :=
  let '(font, g, x, y) := call in
  exists here frame, ds = here ++ frame /\ outlines_only frame /\ (cv_glyph_outlines vars = false -> frame = []) /\
    let i := glyph_info font g in picture_at i (px + x) (py + y) (fun _ _ => only (its_color i c)) here.
End Calls.
