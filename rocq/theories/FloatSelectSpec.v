(** Where the boxes of a selection and the glyphs must be, and how near the program comes. *)
From Coq Require Import QArith.
From Verif Require Import Base FloatModel LayoutModel LayoutSpec DrawSpec ScreenSpec FloatLayoutModel FloatLayoutSpec FloatSelectModel.
Open Scope Z_scope.

(** [f] is the number [q], a multiple of 1/n of at most 2^k pixels. *)
Definition on_grid (n : positive) (k : Z) (f : f32) (q : Q) : Prop := exactly f q /\ exists z, (q == z # n)%Q /\ Z.abs z <= 2 ^ k * Zpos n.

(** The numbers of a document's lines: 26.6 fixed point, nothing beyond 2^k pixels. *)
Record fitting (k : Z) (d : sdoc) (ws ascents hs : list f32) : Prop := {
  fit_widths : Forall2 (fun f s => on_grid 64 k f (line_width s)) ws d;
  fit_ascents : Forall2 (fun f s => on_grid 64 k f (sl_ascent s)) ascents d;
  fit_heights : Forall2 (fun f s => on_grid 64 k f (sl_height s) /\ (0 <= sl_height s)%Q) hs d;
  fit_total : (heights d <= inject_Z (2 ^ k))%Q;
  fit_runs : Forall (fun r => Forall (fun x => x <= inject_Z (2 ^ k))%Q (run_xs r) /\ sr_end r - sr_start r <= 2 ^ 24) (doc_runs d) }.

(** Position [c] of the text is where a glyph of the run begins, or the run's end. *)
Definition at_glyph (r : srun) (c : Z) : Prop :=
  exists j, (j <= run_len r)%nat /\ nth j (logical_chars r) (sr_end r) = c /\ forall i, (i < j)%nat -> nth i (logical_chars r) (sr_end r) < c.

(** The float [f] is within [n] times 2^-(25-k) of [q]. *)
Definition within (n k : Z) (f : f32) (q : Q) : Prop :=
  between_q (q - inject_Z n / inject_Z (2 ^ (25 - k))) f (q + inject_Z n / inject_Z (2 ^ (25 - k))).

(** One box for a run that shares a position with the selection.  Its top and its height are
    those of the line.  Its left edge and its width are near the exact ones, and are the exact
    ones when the selection's ends are where glyphs begin. *)
Definition box_ok (k : Z) (lay : layout) (d : sdoc) (y px py : Q) (s e : Z) (p : place) (bs : list fbox) : Prop :=
  (sr_start (pl_of p) < e /\ s < sr_end (pl_of p) -> exists b sl, bs = [b] /\ nth_error d (pl_line p) = Some sl /\
     exactly (fb_y b) (py + y + heights (firstn (pl_line p) d)) /\ exactly (fb_h b) (sl_height sl) /\
     f32_le f32_0 (fb_w b) = true /\
     within 7 k (fb_x b) (lit_left lay px s e p) /\
     within 7 k (fb_w b) (lit_right lay px s e p - lit_left lay px s e p) /\
     (at_glyph (pl_of p) (cut (pl_of p) (if sr_rtl (pl_of p) then e else s)) -> exactly (fb_x b) (lit_left lay px s e p)) /\
     (at_glyph (pl_of p) (cut (pl_of p) s) -> at_glyph (pl_of p) (cut (pl_of p) e) ->
        exactly (fb_w b) (lit_right lay px s e p - lit_left lay px s e p))) /\
  (~ (sr_start (pl_of p) < e /\ s < sr_end (pl_of p)) -> bs = []).

(** The glyphs of a run, each at its own position. *)
Definition spots_ok (px py : Q) (p : place) (fs : list (f32 * f32)) : Prop :=
  Forall2 (fun f g => exactly (fst f) (px + (pl_x p + sg_x g)) /\ exactly (snd f) (py + (pl_y p + sg_y g)))%Q fs (sr_glyphs (pl_of p)).
