(** Theorems about script segmentation.  [script] stands for ICU's script lookup;
    [decoded text] only says that every decoded item takes at least one byte. *)
From Verif Require Import Base ScriptRunModel ScriptRunSpec ScriptRunProofs.
Open Scope Z_scope.

(** The sample text "a(β c)β": Latin 25, Greek 14, everything else common. *)
Definition sample_script (ch : Z) : Z :=
  if (0x61 <=? ch) && (ch <=? 0x7a) then 25
  else if (0x3b1 <=? ch) && (ch <=? 0x3c9) then 14 else 0.
Definition sample_text : list (Z * Z) :=
  [(0x61, 1); (0x28, 1); (0x3b2, 2); (0x20, 1); (0x63, 1); (0x29, 1); (0x3b2, 2)].

(** C19: the runs tile the text on character boundaries, in order, each non-empty;
    the iteration ends and never leaves its arrays, also on ill-formed text. *)
Theorem C19_runs_tile : forall script text, decoded text ->
  exists gs, script_runs script text = Ok (laid_out 0 gs) /\
             concat (map fst gs) = text /\ Forall (fun g => fst g <> []) gs.
Proof.
  intros script text D. exists (script_groups script text).
  split; [apply script_runs_ok; exact D|]. split; [apply script_groups_concat|apply script_groups_nonempty].
Qed.
Print Assumptions C19_runs_tile.
Example C19_witness : decoded sample_text /\
  script_runs sample_script sample_text =
    Ok [(0, 2, 25); (2, 5, 14); (5, 7, 25); (7, 9, 14)].
Proof. split; [repeat constructor|vm_compute; reflexivity]. Qed.
Example C19_ill_formed : exists runs,
  script_runs sample_script [(0x61, 1); (-1, 1); (0x3b2, 2)] = Ok runs /\ runs <> [].
Proof. eexists. split; [vm_compute; reflexivity|discriminate]. Qed.

(** C20: in well-formed text every character that is not a bracket and has a script
    of its own (neither common nor inherited) lies in a run of that script; a run
    script is "common" or a real script of some character of the text; and two
    consecutive runs have two different real scripts, so no run could be longer. *)
Definition consecutive_differ (gs : list (list (Z * Z) * Z)) : Prop :=
  forall i g1 g2, nth_error gs i = Some g1 -> nth_error gs (S i) = Some g2 ->
    1 < snd g1 /\ 1 < snd g2 /\ snd g1 <> snd g2.

Lemma changes_consecutive gs : changes gs -> consecutive_differ gs.
Proof.
  intros H i. revert gs H. induction i as [|i IH]; intros gs H g1 g2 H1 H2.
  - destruct gs as [|a [|b gs]]; try discriminate. injection H1 as <-. injection H2 as <-. apply H.
  - destruct gs as [|a gs]; [discriminate|]. cbn [nth_error] in H1, H2. apply (IH gs); auto.
    destruct gs; [exact Logic.I|apply H].
Qed.

Theorem C20_runs_homogeneous : forall script text, decoded text -> well_formed text ->
  exists gs, script_runs script text = Ok (laid_out 0 gs) /\ concat (map fst gs) = text /\
    (forall g c it, In (g, c) gs -> In it g ->
       role_of (fst it) = Plain -> 1 < script (fst it) -> c = script (fst it)) /\
    (forall g c, In (g, c) gs -> c = 0 \/ (1 < c /\ exists it, In it text /\ script (fst it) = c)) /\
    consecutive_differ gs.
Proof.
  intros script text D W. exists (script_groups script text).
  pose proof (@script_groups_good script text W) as G. rewrite Forall_forall in G.
  pose proof (@script_groups_seen script text) as S. rewrite Forall_forall in S.
  split; [apply script_runs_ok; exact D|]. split; [apply script_groups_concat|].
  split; [|split].
  - intros g c it I1 I2 P1 P2. exact (proj2 (G _ I1) it I2 (conj P1 P2)).
  - intros g c I1. destruct (proj1 (G _ I1)) as [H|H]; cbn [snd] in H; [auto|]. right. split; [auto|].
    exact (S _ I1 H).
  - apply changes_consecutive, script_groups_change.
Qed.
Print Assumptions C20_runs_homogeneous.
Example C20_witness : decoded sample_text /\ well_formed sample_text.
Proof. split; repeat constructor. Qed.

(** Ill-formed text breaks it: an invalid byte makes the rest of the text part of
    one run whatever the scripts are.  "a", an invalid byte, "β": one Latin run. *)
Theorem C20_ill_formed_refuted : exists script text,
  decoded text /\ In (0x3b2, 2) text /\ script 0x3b2 = 14 /\ role_of 0x3b2 = Plain /\
  script_runs script text = Ok [(0, 4, 25)].
Proof.
  exists sample_script, [(0x61, 1); (-1, 1); (0x3b2, 2)].
  split; [repeat constructor|]. split; [cbn; tauto|]. repeat split; vm_compute; reflexivity.
Qed.
Print Assumptions C20_ill_formed_refuted.

(** C21: for every text, however deep its brackets, the fixed-size circular stack
    behaves as a list of open brackets of which the newest 32 are kept; in
    particular no access leaves the array or reads an unset entry.  Bracket
    lookup finds exactly the seventeen pairs. *)
Theorem C21_bracket_stack : forall script text, decoded text ->
  script_runs script text = Ok (laid_out 0 (script_groups script text)).
Proof. exact script_runs_ok. Qed.
Print Assumptions C21_bracket_stack.

Theorem C21_bracket_lookup : forall ch,
  (exists j o c, nth_error bracket_pairs j = Some (o, c) /\ ch = o /\ get_pair_index ch = Ok (2 * Z.of_nat j)) \/
  (exists j o c, nth_error bracket_pairs j = Some (o, c) /\ ch = c /\ get_pair_index ch = Ok (2 * Z.of_nat j + 1)) \/
  ((forall o c, In (o, c) bracket_pairs -> ch <> o /\ ch <> c) /\ get_pair_index ch = Ok (-1)).
Proof.
  intros ch. destruct (in_dec Z.eq_dec ch pairedChars) as [I|N].
  - assert (A : exists j o c, nth_error bracket_pairs j = Some (o, c) /\
      ((ch = o /\ get_pair_index ch = Ok (2 * Z.of_nat j)) \/ (ch = c /\ get_pair_index ch = Ok (2 * Z.of_nat j + 1)))).
    { revert I. unfold pairedChars. cbn [In]. intros I.
      repeat (destruct I as [<-|I]; [
        first [ exists 0%nat; do 2 eexists; split; [reflexivity|]; vm_compute; (left; split; reflexivity) || (right; split; reflexivity)
              | exists 1%nat; do 2 eexists; split; [reflexivity|]; vm_compute; (left; split; reflexivity) || (right; split; reflexivity)
              | exists 2%nat; do 2 eexists; split; [reflexivity|]; vm_compute; (left; split; reflexivity) || (right; split; reflexivity)
              | exists 3%nat; do 2 eexists; split; [reflexivity|]; vm_compute; (left; split; reflexivity) || (right; split; reflexivity)
              | exists 4%nat; do 2 eexists; split; [reflexivity|]; vm_compute; (left; split; reflexivity) || (right; split; reflexivity)
              | exists 5%nat; do 2 eexists; split; [reflexivity|]; vm_compute; (left; split; reflexivity) || (right; split; reflexivity)
              | exists 6%nat; do 2 eexists; split; [reflexivity|]; vm_compute; (left; split; reflexivity) || (right; split; reflexivity)
              | exists 7%nat; do 2 eexists; split; [reflexivity|]; vm_compute; (left; split; reflexivity) || (right; split; reflexivity)
              | exists 8%nat; do 2 eexists; split; [reflexivity|]; vm_compute; (left; split; reflexivity) || (right; split; reflexivity)
              | exists 9%nat; do 2 eexists; split; [reflexivity|]; vm_compute; (left; split; reflexivity) || (right; split; reflexivity)
              | exists 10%nat; do 2 eexists; split; [reflexivity|]; vm_compute; (left; split; reflexivity) || (right; split; reflexivity)
              | exists 11%nat; do 2 eexists; split; [reflexivity|]; vm_compute; (left; split; reflexivity) || (right; split; reflexivity)
              | exists 12%nat; do 2 eexists; split; [reflexivity|]; vm_compute; (left; split; reflexivity) || (right; split; reflexivity)
              | exists 13%nat; do 2 eexists; split; [reflexivity|]; vm_compute; (left; split; reflexivity) || (right; split; reflexivity)
              | exists 14%nat; do 2 eexists; split; [reflexivity|]; vm_compute; (left; split; reflexivity) || (right; split; reflexivity)
              | exists 15%nat; do 2 eexists; split; [reflexivity|]; vm_compute; (left; split; reflexivity) || (right; split; reflexivity)
              | exists 16%nat; do 2 eexists; split; [reflexivity|]; vm_compute; (left; split; reflexivity) || (right; split; reflexivity) ] |]).
      destruct I. }
    destruct A as [j [o [c [H [A|A]]]]]; [left|right; left]; exists j, o, c; auto.
  - right. right. destruct (get_pair_index_ok ch) as [i [H K]]. rewrite (role_plain N) in K. cbn in K. subst i.
    split; [|exact H]. intros o c I. apply pairs_in in I. cbn [fst snd] in I.
    split; intros ->; apply N; apply I.
Qed.
Print Assumptions C21_bracket_lookup.
(** Forty nested brackets overflow the stack of 32 harmlessly. *)
Example C21_deep : exists runs,
  script_runs sample_script (repeat (0x28, 1) 40 ++ [(0x61, 1)] ++ repeat (0x29, 1) 40) = Ok runs.
Proof. eexists. vm_compute. reflexivity. Qed.

(** C52: a closing bracket gets the same run script as the opening bracket it
    matches, whatever is written between them, when the brackets between them are
    matched and nested at most 31 deep and bracket characters have no script of
    their own. *)
Theorem C52_matching_brackets : forall script pre a mid b post o,
  let text := pre ++ a :: mid ++ b :: post in
  decoded text -> well_formed text ->
  (forall ch, role_of ch <> Plain -> script ch <= 1) ->
  role_of (fst a) = Opens o -> role_of (fst b) = Closes o -> nested 31 mid ->
  exists gs c, script_runs script text = Ok (laid_out 0 gs) /\ concat (map fst gs) = text /\
    nth_error (labels gs) (length pre) = Some c /\
    nth_error (labels gs) (length pre + S (length mid)) = Some c.
Proof.
  intros script pre a mid b post o text D W HB HA HC HN.
  destruct (@matching_brackets script HB pre a mid b post o W HA HC HN) as [c [H1 H2]].
  exists (script_groups script text), c.
  split; [apply script_runs_ok; exact D|]. split; [apply script_groups_concat|]. split; [exact H1|exact H2].
Qed.
Print Assumptions C52_matching_brackets.
Example C52_witness :
  role_of 0x28 = Opens 0x28 /\ role_of 0x29 = Closes 0x28 /\
  nested 31 [(0x3b2, 2); (0x5b, 1); (0x63, 1); (0x5d, 1)] /\
  script_runs sample_script ([(0x61, 1)] ++ (0x28, 1) :: [(0x3b2, 2); (0x5b, 1); (0x63, 1); (0x5d, 1)] ++ (0x29, 1) :: []) =
    Ok [(0, 2, 25); (2, 5, 14); (5, 6, 25); (6, 7, 14); (7, 8, 25)].
Proof.
  split; [reflexivity|]. split; [reflexivity|]. split; [|vm_compute; reflexivity].
  apply nested_char; [reflexivity|].
  apply (@nested_pair 30 0x5b (0x5b, 1) (0x5d, 1) [(0x63, 1)] []); try reflexivity.
  - apply nested_char; [reflexivity|apply nested_nil].
  - apply nested_nil.
Qed.
Example C52_witness_weak : forall ch, role_of ch <> Plain -> sample_script ch <= 1.
Proof.
  intros ch H. destruct (in_dec Z.eq_dec ch pairedChars) as [I|N]; [|rewrite (role_plain N) in H; congruence].
  clear H. revert I. unfold pairedChars. cbn [In]. intros I.
  repeat (destruct I as [<-|I]; [vm_compute; discriminate|]). destruct I.
Qed.

(** One level deeper the oldest bracket is forgotten: after "a(β" and 32 nested
    pairs, the closing bracket of the Latin parenthesis is reported as Greek. *)
Theorem C52_too_deep_refuted : exists script mid runs,
  nested 32 mid /\
  script_runs script ([(0x61, 1); (0x28, 1)] ++ mid ++ [(0x29, 1)]) = Ok runs /\
  runs = [(0, 2, 25); (2, 69, 14)].
Proof.
  exists sample_script, ((0x3b2, 2) :: repeat (0x28, 1) 32 ++ repeat (0x29, 1) 32). eexists.
  split; [|split; [vm_compute; reflexivity|reflexivity]].
  apply nested_char; [reflexivity|].
  assert (H : forall n, nested n (repeat (0x28, 1) n ++ repeat (0x29, 1) n)).
  { induction n as [|n IH]; [apply nested_nil|].
    replace (repeat (0x28, 1) (S n) ++ repeat (0x29, 1) (S n))
      with ((0x28, 1) :: (repeat (0x28, 1) n ++ repeat (0x29, 1) n) ++ (0x29, 1) :: []).
    - apply (@nested_pair n 0x28); [reflexivity|reflexivity|exact IH|apply nested_nil].
    - cbn [repeat app]. f_equal. rewrite <- app_assoc. f_equal.
      replace ((0x29, 1) :: repeat (0x29, 1) n) with (repeat (0x29, 1) n ++ [(0x29, 1)]); [reflexivity|].
      clear. induction n; cbn; [reflexivity|f_equal; exact IHn]. }
  exact (H 32%nat).
Qed.
Print Assumptions C52_too_deep_refuted.
