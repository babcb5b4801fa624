(** What a text box needs of the layout of its text. *)
From Coq Require Import ZifyBool ZifyNat.
From Verif Require Import Base BaseFacts BinarySearchModel BinarySearchProofs PackingModel PackingProofs
  LayoutModel LayoutSpec LayoutProofs LayoutGeomProofs LayoutCursorProofs LayoutCaretProofs LayoutHitProofs LayoutProps CursorModel CursorSpec CursorProofs CursorProps.
Open Scope Z_scope.

Lemma all_pos_get d y k : (k < 2 * (count_glyphs (doc_runs d) + length (doc_runs d)))%nat -> exists q, vget (lo_pos (layout_of d y)) k = Ok q.
Proof. intros H. destruct (@vget_lt _ (lo_pos (layout_of d y)) k) as (q & E & _); [|eauto]. cbn [layout_of lo_pos]. rewrite length_all_pos. exact H. Qed.
Lemma all_chars_get d y k : (k < count_glyphs (doc_runs d))%nat -> exists q, vget (lo_chars (layout_of d y)) k = Ok q.
Proof. intros H. destruct (@vget_lt _ (lo_chars (layout_of d y)) k) as (q & E & _); [|eauto]. cbn [layout_of lo_chars]. unfold doc_glyphs. rewrite map_length. exact H. Qed.

Lemma offset_defined d y i r p : nth_error (doc_runs d) i = Some r -> exists q, get_glyph_offset_in_run (layout_of d y) i p = Ok q.
Proof.
  intros E. destruct (split_nth _ _ E) as [Ed L].
  destruct (@doc_run_view d y (firstn i (doc_runs d)) r (skipn (S i) (doc_runs d)) Ed) as (V1 & V2 & V3 & V4 & _ & V6 & _).
  cbv zeta in *. rewrite L in *. set (G := count_glyphs (firstn i (doc_runs d))) in *.
  assert (TG : (G + run_len r <= count_glyphs (doc_runs d))%nat).
  { rewrite Ed at 1. rewrite count_glyphs_app, count_glyphs_cons. fold G. lia. }
  assert (TI : (i < length (doc_runs d))%nat) by (apply nth_error_Some; congruence).
  unfold get_glyph_offset_in_run. rewrite V1. cbn [obind vrun_of ru_rtl]. destruct (sr_rtl r).
  - unfold get_glyph_offset_rtl. rewrite V1, V2, V3. cbn [obind vrun_of ru_glyph_end ru_end].
    destruct (@binary_search_in_range (fun j => do c <- vget (lo_chars (layout_of d y)) j; Ok (p <=? c)) G (G + run_len r - G)) as (g & EG & GR).
    { intros j J. destruct (all_chars_get d y j) as (c & ->); [lia|]. cbn. eauto. }
    rewrite EG. cbn [obind].
    destruct (if (g =? G)%nat then Ok (sr_end r) else vget (lo_chars (layout_of d y)) (g - 1)) as [nx| |] eqn:EN.
    2,3: exfalso; destruct (g =? G)%nat eqn:X; [discriminate|]; destruct (all_chars_get d y (g - 1)) as (c & EC); [lia|congruence].
    cbn [obind]. destruct (all_pos_get d y (2 * (G + i) + 2 * (g - G))) as (o & ->); [lia|]. cbn [obind].
    destruct ((0 <? _) && (g <? G + run_len r)%nat) eqn:X; [|eauto].
    destruct (all_chars_get d y g) as (c & ->); [lia|]. cbn [obind]. destruct (all_pos_get d y (2 * (G + i) + 2 * (g - G + 1))) as (o' & ->); [lia|]. cbn. eauto.
  - unfold get_glyph_offset_ltr. rewrite V1, V2, V3. cbn [obind vrun_of ru_glyph_end ru_end].
    destruct (@binary_search_in_range (fun j => do c <- vget (lo_chars (layout_of d y)) j; Ok (c <? p)) G (G + run_len r - G)) as (g & EG & GR).
    { intros j J. destruct (all_chars_get d y j) as (c & ->); [lia|]. cbn. eauto. }
    rewrite EG. cbn [obind].
    destruct (if (g =? G + run_len r)%nat then Ok (sr_end r) else vget (lo_chars (layout_of d y)) g) as [nx| |] eqn:EN.
    2,3: exfalso; destruct (g =? G + run_len r)%nat eqn:X; [discriminate|]; destruct (all_chars_get d y g) as (c & EC); [lia|congruence].
    cbn [obind]. destruct (all_pos_get d y (2 * (G + i) + 2 * (g - G))) as (o & ->); [lia|]. cbn [obind].
    destruct ((0 <? _) && (0 <? g)%nat) eqn:X; [|eauto].
    destruct (all_chars_get d y (g - 1)) as (c & ->); [lia|]. cbn [obind].
    unfold zget. destruct (Z.ltb_spec (Z.of_nat (2 * (G + i)) + 2 * (Z.of_nat g - Z.of_nat G - 1)) 0); [lia|].
    destruct (all_pos_get d y (Z.to_nat (Z.of_nat (2 * (G + i)) + 2 * (Z.of_nat g - Z.of_nat G - 1)))) as (o' & ->); [lia|]. cbn. eauto.
Qed.

Lemma doc_runs_nonempty d : doc_ok d -> d <> [] -> (0 < length (doc_runs d))%nat.
Proof. intros O N. destruct d as [|s d]; [congruence|]. inversion O as [|? ? O1 O2]. unfold doc_runs. cbn [flat_map]. rewrite app_length. destruct (sl_runs s); [congruence|cbn; lia]. Qed.

(** The caret of any cursor is defined and on a line of the layout. *)
Lemma caret_defined d y lay w al c : doc_ok d -> stored d y lay -> d <> [] ->
  exists i, calc_cursor_pixel_pos lay w al c = Ok i /\ (ci_line i < length d)%nat.
Proof.
  intros O ST NE. rewrite (stored_eq O ST). pose proof (doc_runs_nonempty d O NE) as RN.
  assert (LN : (0 < length d)%nat) by (destruct d; [congruence|cbn; lia]).
  assert (R : exists j k, get_run_containing_cursor (layout_of d y) c = Ok (Z.of_nat j, k) /\ (j < length (doc_runs d))%nat /\ (k < length d)%nat).
  { unfold get_run_containing_cursor. rewrite length_lo_runs.
    destruct (@cursor_loop_of d y (cp_get_position c) (cp_get_affinity c) O (length (doc_runs d)) 0%nat 0%nat) as [(j & k & E & _ & J & _)|(k & E & K & _)];
      [lia|lia|lia|exact LN|unfold run_first at 1; cbn; lia|left; reflexivity| |]; rewrite E; cbn [obind].
    - exists j, k. split; [reflexivity|]. destruct J as [J1 J2]. split; [|exact J1].
      pose proof (run_first_le d (S k)) as RL. unfold run_first in RL. lia.
    - exists (length (doc_runs d) - 1)%nat, k. split; [do 2 f_equal; lia|]. split; [lia|apply (proj1 K)]. }
  destruct R as (j & k & E & J & K). unfold calc_cursor_pixel_pos. rewrite E. cbn [obind].
  destruct (line_get d y K) as (li & EL & _). unfold get_line_x_start, get_line_width, get_line_total_descent. rewrite EL. cbn [omap obind].
  destruct (Z.ltb_spec (Z.of_nat j) 0); [lia|]. rewrite Nat2Z.id.
  destruct (nth_error (doc_runs d) j) as [r|] eqn:ER; [|apply nth_error_None in ER; lia].
  destruct (offset_defined d y j r (cp_get_position c) ER) as (q & ->). cbn [obind]. unfold omap.
  destruct k as [|k]; cbn [obind].
  - eexists. split; [reflexivity|]. cbn. exact K.
  - destruct (line_get d y (k := k)) as (li' & EL' & _); [lia|]. rewrite EL'. cbn [obind]. eexists. split; [reflexivity|]. cbn. exact K.
Qed.

(** The start and the end of a run. *)
Lemma run_edges B r : run_ok r -> begins_at_stops B r -> B (sr_start r) /\ B (sr_end r) /\ 0 <= sr_start r < 2 ^ 31 /\ 0 <= sr_end r < 2 ^ 31.
Proof.
  intros (R1 & R2 & _ & _ & R5) (S1 & S2). split; [|split; [exact S2|lia]].
  destruct (logical_chars r) as [|c cs] eqn:E; [rewrite R5; exact S2|].
  destruct R5 as [-> _]. rewrite Forall_forall in S1. apply S1. unfold logical_chars in E.
  assert (In (sr_start r) (if sr_rtl r then rev (run_chars r) else run_chars r)) by (rewrite E; left; reflexivity).
  destruct (sr_rtl r); [apply in_rev; assumption|assumption].
Qed.
Lemma start_at_stop B d y lay k : doc_ok d -> stored d y lay -> Forall run_ok (doc_runs d) -> Forall (begins_at_stops B) (doc_runs d) -> (k < length d)%nat ->
  exists c, get_line_start_position lay k = Ok c /\ B (cp_get_position c).
Proof.
  intros O ST RO BS K. rewrite (stored_eq O ST). destruct (nth_error d k) as [s|] eqn:E; [|apply nth_error_None in E; lia].
  assert (NE : sl_runs s <> []) by (unfold doc_ok in O; rewrite Forall_forall in O; apply O; eapply nth_error_In; exact E).
  destruct (line_start_of d y k E NE) as (r & IR & _ & ES). rewrite ES. eexists. split; [reflexivity|].
  assert (ID : In r (doc_runs d)) by (unfold doc_runs; apply in_flat_map; exists s; split; [eapply nth_error_In; exact E|exact IR]).
  rewrite Forall_forall in RO, BS. destruct (run_edges B r (RO _ ID) (BS _ ID)) as (H1 & H2 & H3 & H4).
  destruct (sr_rtl r); rewrite make_position by assumption; assumption.
Qed.
Lemma end_at_stop B d y lay k : doc_ok d -> stored d y lay -> Forall run_ok (doc_runs d) -> Forall (begins_at_stops B) (doc_runs d) -> (k < length d)%nat ->
  exists c, get_line_end_position lay k = Ok c /\ B (cp_get_position c).
Proof.
  intros O ST RO BS K. rewrite (stored_eq O ST). destruct (nth_error d k) as [s|] eqn:E; [|apply nth_error_None in E; lia].
  assert (NE : sl_runs s <> []) by (unfold doc_ok in O; rewrite Forall_forall in O; apply O; eapply nth_error_In; exact E).
  destruct (line_end_of d y k E NE) as (j & r & IR & _ & ES). rewrite ES. eexists. split; [reflexivity|]. apply nth_error_In in IR.
  assert (ID : In r (doc_runs d)) by (unfold doc_runs; apply in_flat_map; exists s; split; [eapply nth_error_In; exact E|exact IR]).
  rewrite Forall_forall in RO, BS. destruct (run_edges B r (RO _ ID) (BS _ ID)) as (H1 & H2 & H3 & H4).
  destruct (sr_rtl r); rewrite make_cursor_position by assumption; assumption.
Qed.
Lemma line_at_stop B following d y lay w al k x : doc_ok d -> stored d y lay -> walks B following -> Forall run_ok (doc_runs d) -> Forall (begins_at_stops B) (doc_runs d) -> (k < length d)%nat ->
  exists c, find_closest_cursor_position following lay w al k x = Ok c /\ B (cp_get_position c).
Proof.
  intros O ST W RO BS K. destruct (nth_error d k) as [s|] eqn:E; [|apply nth_error_None in E; lia].
  assert (NE : sl_runs s <> []) by (unfold doc_ok in O; rewrite Forall_forall in O; apply O; eapply nth_error_In; exact E).
  assert (SUB : forall P, Forall P (doc_runs d) -> Forall P (sl_runs s)).
  { intros P F. rewrite Forall_forall in *. intros r R. apply F. unfold doc_runs. apply in_flat_map. exists s. split; [eapply nth_error_In; exact E|exact R]. }
  destruct (C35_legal B following d y k s w al x lay O ST W E NE (SUB _ RO) (SUB _ BS)) as (c & r & E1 & _ & E2 & _). eauto.
Qed.
Lemma hit_at_stop B following d y lay w al x q : doc_ok d -> stored d y lay -> d <> [] -> Forall (fun s => 0 <= sl_height s)%Q d -> walks B following -> Forall run_ok (doc_runs d) -> Forall (begins_at_stops B) (doc_runs d) ->
  exists c, closest_to_position following lay w al x q = Ok c /\ B (cp_get_position c).
Proof.
  intros O ST NE H W RO BS. destruct (C56_hit B following d y w al x q lay O ST NE H W RO BS) as (k & s & c & r & _ & _ & _ & E & _ & _ & BC & _). eauto.
Qed.
Lemma follows_walks B n following : 0 <= n < 2 ^ 31 -> stops_ok B n -> follows_stops B following -> walks B following.
Proof.
  intros N (S0 & SN & SR) F c C. destruct (F c (proj1 C)) as [(H1 & H2 & H3)|[H1 H2]]; [right|left].
  - pose proof (SR _ H1). split; [lia|]. split; [exact H1|]. intros x X BX. specialize (H3 x BX ltac:(lia)). lia.
  - split; [exact H1|]. intros x X BX. specialize (H2 x BX). lia.
Qed.
Lemma stored_lines d y lay : doc_ok d -> stored d y lay -> length (lo_lines lay) = length d.
Proof. intros O ST. rewrite (stored_eq O ST). apply length_lo_lines. Qed.
