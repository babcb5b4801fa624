(** The order in which the carets of a left-to-right text stand. *)
From Coq Require Import List ZArith QArith.
Import ListNotations.
From Verif Require Import Base PackingModel LayoutModel LayoutSpec.
Open Scope Z_scope.

(** A text of left-to-right runs, one beside the other in every line. *)
Definition ltr_text (d : sdoc) : Prop :=
  joined d /\ d <> [] /\ Forall run_ok (doc_runs d) /\ Forall (fun r => sr_rtl r = false) (doc_runs d) /\
  Forall (fun r => qnondecreasing (run_xs r)) (doc_runs d) /\ Forall (fun s => adjacent (sl_runs s)) d.

(** [p] is no place inside a line separator. *)
Definition has_caret (d : sdoc) (p : Z) : Prop := exists r, In r (doc_runs d) /\ sr_start r <= p <= sr_end r.

(** The caret [i] stands in a line above that of [j], or in the same one and not right of it. *)
Definition not_after (i j : cursor_info) : Prop :=
  (ci_line i < ci_line j)%nat \/ (ci_line i = ci_line j /\ (ci_x i <= ci_x j)%Q).
