(** C07: the run builder yields the innermost enclosing value. *)
From Verif Require Import Base ValueRunsModel ValueRunsSpec RunBuilderModel RunBuilderSpec RunBuilderProofs.
Open Scope Z_scope.

Theorem C07_innermost_value :
  forall T (base : T) (d : doc T),
  exists b t, rb_exec (rb_make base) (doc_ops 0 d ++ [RPop (doc_length d)]) = Ok b /\
    rb_stack b = [] /\ rb_get b = build t /\ t <> [] /\ sorted t /\ final_limit t 0 = doc_length d /\
    (forall q, In q t -> 0 <= fst q <= doc_length d) /\
    (forall i, 0 <= i < doc_length d -> lookup t i = nth_error (doc_values base d) (Z.to_nat i)).
Proof. exact @run_builder_ok. Qed.
Print Assumptions C07_innermost_value.

(** At any time the current value is that of the innermost span still open: after any
    calls, a span opened and nested spans opened and closed in it, it is that span's; when
    it is closed, it is what it was before.  At first it is the base value. *)
Theorem C07_current_value : forall T (base : T) pre b u l v p d l',
  rb_exec (rb_make base) pre = Ok b -> rb_get_current_value b = Ok u -> exists b1 b2,
  rb_exec (rb_make base) (pre ++ RPush l v :: doc_ops p d) = Ok b1 /\ rb_get_current_value b1 = Ok v /\
  rb_exec (rb_make base) (pre ++ RPush l v :: doc_ops p d ++ [RPop l']) = Ok b2 /\ rb_get_current_value b2 = Ok u /\
  rb_get_current_value (rb_make base) = Ok base.
Proof. exact current_value. Qed.
Print Assumptions C07_current_value.
Example C07_current_example :
  exists b, rb_exec (rb_make 0) (RPush 2 1 :: RPush 3 2 :: doc_ops 3 (DSpan 5 (DChars 1 DNil) DNil)) = Ok b /\ rb_get_current_value b = Ok 2.
Proof. eexists. split; reflexivity. Qed.

(** A nested document, the calls it makes, and the table obtained. *)
Example C07_example :
  let d := DChars 2 (DSpan 1 (DChars 3 (DSpan 2 (DChars 1 DNil) DNil)) (DChars 2 DNil)) in
  doc_values 0 d = [0; 0; 1; 1; 1; 2; 0; 0] /\
  omap (@rb_get Z) (rb_exec (rb_make 0) (doc_ops 0 d ++ [RPop (doc_length d)]))
  = Ok (build [(2, 0); (5, 1); (6, 2); (8, 0)]).
Proof. split; reflexivity. Qed.
