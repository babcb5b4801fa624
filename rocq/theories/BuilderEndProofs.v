(** Reading past the font table: a text that does not end with a separator has no
    defined layout when nothing is readable after the table. *)
From Coq Require Import ZifyBool ZifyNat.
From Verif Require Import Base BaseFacts ValueRunsModel ValueRunsSpec ValueRunsProofs ScriptRunModel LayoutModel BuilderModel BuilderSpec.
Open Scope Z_scope.
Set Implicit Arguments.

Section End.
Variables (e : engine) (text : list Z) (vertical : bool) (rv : runs_view Z) (t : table Z) (count : Z).
Hypothesis RV : forall i, rv_limit rv i = vget (map fst t) i.
Hypothesis LIM : Forall (fun l => l <= count) (map fst t).

Lemma advance_end : forall fuel i m i', count <= m -> it_advance_loop fuel rv i m <> Ok i'.
Proof.
  induction fuel as [|fuel IH]; intros i m i' M; cbn [it_advance_loop]; [discriminate|]. rewrite RV. unfold vget.
  destruct (nth_error (map fst t) i) as [l|] eqn:N; [|discriminate]. cbn [obind].
  assert (l <= count) by exact (proj1 (Forall_forall _ _) LIM l (nth_error_In _ _ N)). destruct (Z.leb_spec l m); [apply IH; exact M|lia].
Qed.

Lemma advance_head i rest m its' : iter_advance_all (b_advance (en_script e)) (IFont rv i :: rest) m = Ok its' ->
  exists i' rest', it_advance_to rv i m = Ok i' /\ its' = IFont rv i' :: rest'.
Proof.
  cbn [iter_advance_all b_advance]. destruct (it_advance_to rv i m) as [i'| |] eqn:A; cbn [omap obind]; try discriminate.
  destruct (iter_advance_all (b_advance (en_script e)) rest m) as [rest'| |]; cbn [obind]; try discriminate. intros H. inversion H. eauto.
Qed.

Lemma intersect_head : forall fuel q pe i rest calls its', iter_intersect_loop b_limit b_value (b_advance (en_script e)) fuel q pe (IFont rv i :: rest) = Ok (calls, its') ->
  (exists i' rest', its' = IFont rv i' :: rest') /\ (q < pe -> count <= pe -> False).
Proof.
  induction fuel as [|fuel IH]; intros q pe i rest calls its'; cbn [iter_intersect_loop]; destruct (Z.ltb_spec q pe) as [L|L]; try discriminate.
  1,3: intros H; inversion H; split; [eauto|lia].
  destruct (min_of_limits b_limit (IFont rv i :: rest)) as [m| |]; cbn [obind]; try discriminate.
  destruct (iter_values b_value (IFont rv i :: rest)) as [vs| |]; cbn [obind]; try discriminate.
  destruct (iter_advance_all (b_advance (en_script e)) (IFont rv i :: rest) m) as [its1| |] eqn:A; cbn [obind]; try discriminate.
  destruct (advance_head _ _ _ A) as (i1 & rest1 & A1 & ->).
  destruct (iter_intersect_loop b_limit b_value (b_advance (en_script e)) fuel m pe (IFont rv i1 :: rest1)) as [[c2 its2]| |] eqn:R; cbn [obind fst snd]; try discriminate.
  intros H. inversion H; subst. destruct (IH _ _ _ _ _ _ R) as [S1 S2]. split; [exact S1|]. intros _ C.
  destruct (Z.lt_ge_cases m pe) as [D|D]; [exact (S2 D C)|]. exact (@advance_end _ i m i1 ltac:(lia) A1).
Qed.

Lemma shape_head i i1 i2 i3 ps len s its' :
  shape_paragraph (en_script e) (en_info e) text (en_shape e) vertical (en_sub e) (en_levels e) (en_items e) (IFont rv i, i1, i2, i3) ps len = Ok (s, its') ->
  (exists i' j1 j2 j3, its' = (IFont rv i', j1, j2, j3)) /\ (0 < len -> count <= ps + len -> False).
Proof.
  unfold shape_paragraph. destruct (lv_make _ ps) as [lv| |]; cbn [obind]; try discriminate. destruct (st_make _ _ ps) as [st| |]; cbn [obind]; try discriminate.
  destruct (iter_intersect_loop _ _ _ _ _ _ _) as [[calls its]| |] eqn:R; cbn [obind]; try discriminate.
  apply intersect_head in R. destruct R as [(i' & rest' & ->) R2].
  destruct (shape_calls _ _ _ _ _ _ _ _) as [s'| |]; cbn [obind]; try discriminate.
  destruct rest' as [|a [|b [|c [|d [|f [|g l]]]]]]; try discriminate. intros H. inversion H; subst. split; [eauto|]. intros A B. apply R2; lia.
Qed.

Hypothesis BO : bounds_ok e count.
Hypothesis NS : ~ final_separator e count.

Lemma paragraphs_end fonts tabWidth pixels area : forall fuel i i1 i2 i3 l off l', para_start e count off -> off < count ->
  paragraphs (en_script e) (en_info e) text (en_shape e) vertical (en_sub e) (en_runs e) (en_code e) (en_next e) (en_hangs e) (en_preceding e)
      (en_levels e) (en_items e) (en_bound e) (en_base_info e) (en_default e) fuel fonts tabWidth pixels area count (IFont rv i, i1, i2, i3) l off <> Ok l'.
Proof.
  induction fuel as [|fuel IH]; intros i i1 i2 i3 l off l' PS LT; cbn [paragraphs]; rewrite (proj2 (Z.ltb_lt _ _) LT); [discriminate|].
  pose proof (BO PS LT) as B. pose proof (@start_next e count off PS LT) as PN. destruct (en_bound e off) as [plen sep] eqn:EB. destruct B as (B1 & B2 & B3 & B4). cbn [fst] in PN.
  assert (SP : off + plen = count -> sep = 0).
  { intros E. destruct (Z.eq_dec sep 0); [assumption|]. exfalso. apply NS. exists off. rewrite EB. cbn [fst snd]. repeat split; auto; lia. }
  assert (G : forall r, (if 0 <? plen - sep
      then do (s, its) <- shape_paragraph (en_script e) (en_info e) text (en_shape e) vertical (en_sub e) (en_levels e) (en_items e) (IFont rv i, i1, i2, i3) off (plen - sep);
           do (l, high) <- layout_paragraph (en_info e) text vertical (en_runs e) (en_code e) (en_next e) (en_hangs e) (en_preceding e) s tabWidth pixels area off (plen - sep) l;
           Ok (l, high, its)
      else do l' <- empty_line (en_code e) (en_base_info e) (en_default e) fonts l off off; Ok (l', length (lo_runs l), (IFont rv i, i1, i2, i3))) = Ok r ->
      off + plen < count /\ exists i' j1 j2 j3, snd r = (IFont rv i', j1, j2, j3)).
  { intros r. destruct (Z.ltb_spec 0 (plen - sep)) as [L|L].
    - destruct (shape_paragraph _ _ _ _ _ _ _ _ _ _ _) as [[s its]| |] eqn:S; cbn [obind]; try discriminate. apply shape_head in S. destruct S as [(i' & j1 & j2 & j3 & ->) S2].
      destruct (layout_paragraph _ _ _ _ _ _ _ _ _ _ _ _ _ _ _) as [[l1 high]| |]; cbn [obind]; try discriminate. intros H. inversion H; subst. cbn [snd]. split; [|eauto].
      destruct (Z.eq_dec (off + plen) count) as [E|E]; [|lia]. exfalso. apply S2; [exact L|]. rewrite (SP E). lia.
    - destruct (empty_line _ _ _ _ _ _ _) as [l1| |]; cbn [obind]; try discriminate. intros H. inversion H; subst. cbn [snd]. split; [|eauto].
      destruct (Z.eq_dec (off + plen) count) as [E|E]; [|lia]. specialize (SP E). lia. }
  match goal with |- context [obind ?x _] => destruct x as [r| |] eqn:R end; cbn [obind]; try discriminate.
  destruct (G _ eq_refl) as (LC & i' & j1 & j2 & j3 & E). destruct r as [[l1 high] its]. cbn [snd] in E. subst its.
  destruct (set_run_char_end_offset l1 high sep) as [l2| |]; cbn [obind]; try discriminate.
  destruct (Z.eqb_spec (off + plen) count); [lia|]. cbn [andb obind]. apply IH; assumption.
Qed.

Lemma build_end small sub super tabWidth pixels area startY l l' : 0 < count ->
  build_text e text vertical rv small sub super tabWidth pixels area count startY l <> Ok l'.
Proof.
  intros C H. unfold build_text, build_layout_info in H.
  destruct (paragraphs _ _ _ _ _ _ _ _ _ _ _ _ _ _ _ _ _ _ _ _ _ _ _ _ _) as [l1| |] eqn:P; cbn [obind] in H; try discriminate.
  revert P. apply paragraphs_end; [constructor|exact C].
Qed.
End End.
