(** Where carets can be drawn in a line, in terms of its glyphs. *)
From Coq Require Import List ZArith QArith.
Import ListNotations.
From Verif Require Import Base LayoutModel LayoutSpec.
Open Scope Z_scope.

(** The caret before character [p] of run [r] is at [x]: at the glyph's edge, or inside a
    glyph of several characters at the character's share of its width, counted in reading
    direction.  A run without glyphs has one caret. *)
Definition place (r : srun) (p : Z) (x : Q) : Prop :=
  (sr_glyphs r = [] /\ p = sr_start r /\ (x == sr_end_x r)%Q) \/
  exists m, (m < run_len r)%nat /\ nth m (logical_chars r) (sr_end r) <= p <= char_after r m /\
    (x == lerp (nth m (logical_xs r) 0) (nth (S m) (logical_xs r) 0) (nth m (logical_chars r) (sr_end r)) (char_after r m) p)%Q.

(** A line of left-to-right text with single right-to-left words in it: right-to-left runs
    do not follow each other, and the last run is left-to-right. *)
Definition mostly_ltr (s : sline) : Prop :=
  (forall j r q, nth_error (sl_runs s) j = Some r -> nth_error (sl_runs s) (S j) = Some q -> sr_rtl r = true -> sr_rtl q = false) /\
  (forall r, nth_error (sl_runs s) (length (sl_runs s) - 1) = Some r -> sr_rtl r = false).

(** An empty run comes only after a line separator. *)
Definition empty_after_separator (d : sdoc) : Prop :=
  forall i r q, nth_error (doc_runs d) i = Some r -> nth_error (doc_runs d) (S i) = Some q -> sr_start q = sr_end q -> sr_offset r <> 0.

(** The line [k] is the last one, or ends with a separator. *)
Definition ends_paragraph (d : sdoc) (k : nat) : Prop :=
  S k = length d \/ forall s r, nth_error d k = Some s -> nth_error (sl_runs s) (length (sl_runs s) - 1) = Some r -> sr_offset r <> 0.

(** The line [k] is a paragraph of one run, whatever its direction. *)
Definition one_run_paragraph (d : sdoc) (k : nat) (s : sline) : Prop :=
  length (sl_runs s) = 1%nat /\ ends_paragraph d k /\ forall k', k = S k' -> ends_paragraph d k'.

(** Text as C113 speaks of it. *)
Definition clear_text (B : Z -> Prop) (d : sdoc) : Prop :=
  joined d /\ d <> [] /\ Forall run_ok (doc_runs d) /\ Forall (begins_at_stops B) (doc_runs d) /\
  Forall (fun r => increasing (logical_chars r)) (doc_runs d) /\ Forall (fun r => qnondecreasing (run_xs r)) (doc_runs d) /\
  Forall (fun s => adjacent (sl_runs s)) d /\
  (forall k s, nth_error d k = Some s -> mostly_ltr s \/ one_run_paragraph d k s) /\ empty_after_separator d.
