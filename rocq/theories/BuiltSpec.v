(** Layouts made by the builder as documents the queries can be asked about: what more
    is needed of the libraries. *)
From Coq Require Export QArith.
From Verif Require Import Base LayoutModel LayoutSpec BuilderModel BuilderSpec.
Open Scope Z_scope.

Section Built.
Variables (e : engine) (text : list Z) (vertical : bool) (opp : Z -> Z -> Prop) (so : sources) (count : Z).

(** The segments of a paragraph. *)
Definition cut_up (ps pe : Z) (ss : list segment) : Prop :=
  is_para e count ps pe /\ segments_tile ps pe ss /\ Forall (segment_ok e so ps pe) ss.
Definition shaped_para (ss : list segment) : para := para_of (en_info e) text (en_shape e) vertical ss.
(** A glyph comes from the characters that begin at [c]. *)
Definition glyph_at (ss : list segment) (c : Z) : Prop := In c (map lg_char (pa_glyphs (shaped_para ss))).

(** Groups of characters are not torn: the shaper has a glyph for the first character it
    is given; lines and bidi runs begin where a group does. *)
Definition whole_clusters : Prop :=
  (forall f scr rtl a n, 0 < n -> In 0 (map hb_cluster (en_shape e f scr rtl a n))) /\
  forall ps pe ss, cut_up ps pe ss ->
    (forall o, opp ps o -> ps <= o < pe -> glyph_at ss o) /\
    (forall a b s n level, glyph_at ss a -> a < b -> glyph_at ss b \/ b = pe -> In (s, n, level) (en_runs e ps a (b - a)) -> glyph_at ss s).

(** No glyph moves the pen back. *)
Definition pen_forward (tabWidth : Z) (pixels : bool) : Prop :=
  (forall ps pe ss, cut_up ps pe ss -> rightward (shaped_para ss)) /\ (~ In 9 text \/ pixels = true /\ 0 < tabWidth).

(** A group of characters has one glyph. *)
Definition single_glyphs : Prop :=
  forall ps pe ss, cut_up ps pe ss -> increasing (map lg_char (pa_glyphs (shaped_para ss))).

(** All text is left to right. *)
Definition left_to_right : Prop :=
  forall ps pe a b, is_para e count ps pe -> ps <= a -> a < b -> b <= pe ->
  exists level, en_runs e ps a (b - a) = [(a, b - a, level)] /\ Z.odd level = false.

(** Caret stops are where glyphs begin, where paragraphs begin and where they end. *)
Definition stops_at_glyphs (B : Z -> Prop) : Prop :=
  (forall x, para_start e count x -> B x) /\ (forall ps pe, is_para e count ps pe -> B pe) /\
  forall ps pe ss c, cut_up ps pe ss -> glyph_at ss c -> B c.
End Built.

(** [lay] is what building the text gives, for horizontal text. *)
Definition lays_out (e : engine) (text : list Z) (opp : Z -> Z -> Prop) (so : sources) (tabWidth : Z) (pixels : bool) (area count : Z) (lay : layout) : Prop :=
  can_build e text opp so count /\ whole_clusters e text false opp so count /\ count < 2 ^ 31 /\
  exists startY l0, run_build e text false so tabWidth pixels area count startY l0 = Ok lay.
