(** Construction and lookup facts about layouts. *)
From Coq Require Import Lqa.
From Verif Require Import Base BaseFacts BinarySearchModel BinarySearchProofs PackingModel PackingProofs
  LayoutModel LayoutSpec.
Open Scope Z_scope.
Set Implicit Arguments.

Lemma qplus_0_l (q : Q) : (0 + q)%Q = q.
Proof. destruct q as [n d]. unfold Qplus. cbn [Qnum Qden]. rewrite Z.mul_0_l, Z.mul_1_r, Pos.mul_1_l. reflexivity. Qed.

(** ** Concatenation *)
Definition descent_after (y : Q) (d : sdoc) : Q := fold_left (fun y s => (y + sl_height s)%Q) d y.

Lemma runs_of_app g a b : runs_of g (a ++ b) = runs_of g a ++ runs_of (g + count_glyphs a) b.
Proof.
  revert g. induction a as [|r a IH]; intros g; cbn [runs_of app].
  - unfold count_glyphs. cbn. f_equal. lia.
  - rewrite IH. do 3 f_equal. unfold count_glyphs, run_len. cbn [flat_map]. rewrite app_length. lia.
Qed.
Lemma length_runs_of g rs : length (runs_of g rs) = length rs.
Proof. revert g; induction rs; intros; cbn [runs_of length]; congruence. Qed.
Lemma doc_runs_app a b : doc_runs (a ++ b) = doc_runs a ++ doc_runs b.
Proof. apply flat_map_app. Qed.
Lemma lines_of_app k y a b :
  lines_of k y (a ++ b) = lines_of k y a ++ lines_of (k + length (doc_runs a)) (descent_after y a) b.
Proof.
  revert k y. induction a as [|s a IH]; intros k y; cbn [lines_of app].
  - cbn. f_equal. lia.
  - rewrite IH. do 3 f_equal. unfold doc_runs. cbn [flat_map]. rewrite app_length. lia.
Qed.
Lemma length_lines_of k y d : length (lines_of k y d) = length d.
Proof. revert k y; induction d; intros; cbn [lines_of length]; congruence. Qed.
Lemma count_glyphs_app a b : count_glyphs (a ++ b) = (count_glyphs a + count_glyphs b)%nat.
Proof. unfold count_glyphs. rewrite flat_map_app, app_length. reflexivity. Qed.
Lemma count_glyphs_cons r b : count_glyphs (r :: b) = (run_len r + count_glyphs b)%nat.
Proof. unfold count_glyphs, run_len. cbn [flat_map]. rewrite app_length. reflexivity. Qed.
Lemma length_run_pos r : length (run_pos r) = (2 * (run_len r + 1))%nat.
Proof.
  unfold run_pos, run_len. rewrite app_length. cbn [length].
  induction (sr_glyphs r); cbn [flat_map app length glyph_pos]; lia.
Qed.
Lemma length_all_pos rs : length (flat_map run_pos rs) = (2 * (count_glyphs rs + length rs))%nat.
Proof.
  induction rs as [|r rs IH]; [reflexivity|].
  cbn [flat_map length]. rewrite app_length, IH, length_run_pos, count_glyphs_cons. lia.
Qed.

(** ** Building *)
Definition set_offset (o : Z) (r : srun) : srun :=
  {| sr_font := sr_font r; sr_start := sr_start r; sr_end := sr_end r; sr_offset := o; sr_rtl := sr_rtl r;
     sr_glyphs := sr_glyphs r; sr_end_x := sr_end_x r; sr_end_y := sr_end_y r |}.
Definition plain_line (s : sline) : sline :=
  {| sl_runs := map (set_offset 0) (sl_runs s); sl_height := sl_height s; sl_ascent := sl_ascent s |}.

Lemma lsteps_app l a b : lsteps l (a ++ b) = do l' <- lsteps l a; lsteps l' b.
Proof.
  revert l. induction a as [|o a IH]; intros l; [reflexivity|].
  cbn [app lsteps]. destruct (lstep l o); cbn; auto.
Qed.

Lemma glyph_steps l gs : lsteps l (flat_map glyph_ops gs) =
  Ok {| lo_runs := lo_runs l; lo_lines := lo_lines l; lo_glyphs := lo_glyphs l ++ map sg_id gs;
        lo_chars := lo_chars l ++ map sg_char gs; lo_pos := lo_pos l ++ flat_map glyph_pos gs; lo_start_y := lo_start_y l |}.
Proof.
  revert l. induction gs as [|g gs IH]; intros l.
  - cbn. rewrite !app_nil_r. destruct l; reflexivity.
  - cbn [flat_map]. rewrite lsteps_app. cbn [lsteps glyph_ops lstep obind]. rewrite IH.
    unfold append_glyph, append_char_index, append_glyph_position.
    cbn [lo_runs lo_lines lo_glyphs lo_chars lo_pos lo_start_y map flat_map]. rewrite <- !app_assoc. reflexivity.
Qed.

Lemma run_steps l r : lsteps l (run_ops r) =
  Ok {| lo_runs := lo_runs l ++ runs_of (length (lo_glyphs l)) [set_offset 0 r]; lo_lines := lo_lines l;
        lo_glyphs := lo_glyphs l ++ map sg_id (sr_glyphs r); lo_chars := lo_chars l ++ map sg_char (sr_glyphs r);
        lo_pos := lo_pos l ++ run_pos r; lo_start_y := lo_start_y l |}.
Proof.
  unfold run_ops. rewrite lsteps_app, glyph_steps. cbn [obind lsteps lstep].
  unfold append_run, append_glyph_position. cbn [lo_runs lo_lines lo_glyphs lo_chars lo_pos lo_start_y].
  unfold run_pos, run_len. cbn [runs_of set_offset sr_font sr_start sr_end sr_offset sr_rtl sr_glyphs].
  rewrite <- !app_assoc, app_length, map_length. reflexivity.
Qed.

Lemma runs_steps rs l : lsteps l (flat_map run_ops rs) =
  Ok {| lo_runs := lo_runs l ++ runs_of (length (lo_glyphs l)) (map (set_offset 0) rs); lo_lines := lo_lines l;
        lo_glyphs := lo_glyphs l ++ map sg_id (flat_map sr_glyphs rs);
        lo_chars := lo_chars l ++ map sg_char (flat_map sr_glyphs rs);
        lo_pos := lo_pos l ++ flat_map run_pos rs; lo_start_y := lo_start_y l |}.
Proof.
  revert l. induction rs as [|r rs IH]; intros l.
  - cbn. rewrite !app_nil_r. destruct l; reflexivity.
  - cbn [flat_map]. rewrite lsteps_app, run_steps. cbn [obind]. rewrite IH.
    cbn [lo_runs lo_lines lo_glyphs lo_chars lo_pos lo_start_y flat_map map].
    rewrite !map_app, <- !app_assoc, app_length, map_length. reflexivity.
Qed.

Lemma flat_map_set_offset rs : flat_map sr_glyphs (map (set_offset 0) rs) = flat_map sr_glyphs rs.
Proof. induction rs; cbn [map flat_map]; [reflexivity|]. rewrite IHrs. reflexivity. Qed.
Lemma flat_map_pos_offset rs : flat_map run_pos (map (set_offset 0) rs) = flat_map run_pos rs.
Proof. induction rs; cbn [map flat_map]; [reflexivity|]. rewrite IHrs. reflexivity. Qed.
Lemma doc_runs_plain d : doc_runs (map plain_line d) = map (set_offset 0) (doc_runs d).
Proof. unfold doc_runs. induction d; cbn [map flat_map]; [reflexivity|]. rewrite IHd, map_app. reflexivity. Qed.

Lemma last_app_ne {A} (a b : list A) x y : b <> [] -> last (a ++ b) x = last b y.
Proof.
  intros H. destruct (exists_last H) as (b' & z & ->). rewrite app_assoc, !last_last. reflexivity.
Qed.

Lemma rev_lines_of k y d : d <> [] ->
  exists li rest, rev (lines_of k y d) = li :: rest /\ li_descent li = descent_after y d /\
    li_run_end li = (k + length (doc_runs d))%nat.
Proof.
  intros H. destruct (exists_last H) as (d' & s & ->).
  rewrite lines_of_app. cbn [lines_of]. rewrite rev_app_distr. cbn [rev app].
  eexists _, _. split; [reflexivity|]. cbn [li_descent li_run_end].
  split.
  - unfold descent_after. rewrite fold_left_app. reflexivity.
  - rewrite doc_runs_app, app_length. unfold doc_runs. cbn [flat_map]. rewrite app_nil_r. lia.
Qed.
Lemma next_descent_of d h : next_descent (lines_of 0 0 d) h = (descent_after 0 d + h)%Q.
Proof.
  unfold next_descent. destruct d as [|s d].
  - cbn. symmetry. apply qplus_0_l.
  - destruct (rev_lines_of 0 0 (d := s :: d)) as (li & rest & -> & -> & _); [discriminate|reflexivity].
Qed.

(** The last stored position of the last run. *)
Lemma vget_last_pos rs r :
  vget (flat_map run_pos (rs ++ [r])) (2 * (count_glyphs (rs ++ [r]) + (length (rs ++ [r]) - 1))) = Ok (sr_end_x r).
Proof.
  rewrite flat_map_app. cbn [flat_map]. rewrite app_nil_r.
  rewrite count_glyphs_app, count_glyphs_cons, app_length. cbn [length]. replace (count_glyphs []) with 0%nat by reflexivity.
  rewrite vget_app2 by (rewrite length_all_pos; lia). rewrite length_all_pos.
  unfold run_pos. rewrite vget_app2.
  - assert (L : length (flat_map glyph_pos (sr_glyphs r)) = (2 * run_len r)%nat).
    { unfold run_len. induction (sr_glyphs r); cbn [flat_map app length glyph_pos]; lia. }
    rewrite L. replace (_ - _ - _)%nat with 0%nat by lia. reflexivity.
  - assert (L : length (flat_map glyph_pos (sr_glyphs r)) = (2 * run_len r)%nat).
    { unfold run_len. induction (sr_glyphs r); cbn [flat_map app length glyph_pos]; lia. }
    rewrite L. lia.
Qed.

Lemma vback_runs_of g rs r : vback (runs_of g (rs ++ [r])) = Ok
  {| ru_font := sr_font r; ru_glyph_end := (g + count_glyphs (rs ++ [r]))%nat; ru_start := sr_start r;
     ru_end := sr_end r; ru_offset := sr_offset r; ru_rtl := sr_rtl r |}.
Proof.
  rewrite runs_of_app. cbn [runs_of]. rewrite vback_app. do 2 f_equal.
  rewrite count_glyphs_app, count_glyphs_cons. replace (count_glyphs []) with 0%nat by reflexivity. lia.
Qed.

Lemma line_steps d s y : sl_runs s <> [] ->
  lsteps (layout_of (map plain_line d) y) (line_ops s) = Ok (layout_of (map plain_line (d ++ [s])) y).
Proof.
  intros H. unfold line_ops. rewrite lsteps_app, runs_steps. cbn [obind lsteps lstep].
  unfold append_line. cbn [lo_runs lo_lines lo_glyphs lo_chars lo_pos lo_start_y layout_of].
  rewrite map_length. fold (count_glyphs (doc_runs (map plain_line d))).
  change (length (doc_glyphs (map plain_line d))) with (count_glyphs (doc_runs (map plain_line d))).
  set (old := doc_runs (map plain_line d)).
  replace (runs_of 0 old ++ runs_of (count_glyphs old) (map (set_offset 0) (sl_runs s)))
    with (runs_of 0 (old ++ map (set_offset 0) (sl_runs s)))
    by (rewrite runs_of_app; f_equal; f_equal; lia).
  destruct (exists_last H) as (rs & r & E). rewrite E, map_app. cbn [map].
  rewrite !app_assoc. rewrite vback_runs_of. cbn [obind ru_glyph_end].
  rewrite length_runs_of. cbn [Nat.add].
  replace (flat_map run_pos old ++ flat_map run_pos (rs ++ [r]))
    with (flat_map run_pos ((old ++ map (set_offset 0) rs) ++ [set_offset 0 r])).
  2:{ rewrite <- app_assoc. rewrite (flat_map_app _ old). f_equal.
      change [set_offset 0 r] with (map (set_offset 0) [r]). rewrite <- map_app. apply flat_map_pos_offset. }
  rewrite vget_last_pos. cbn [obind].
  unfold doc_lines. rewrite next_descent_of.
  assert (R : doc_runs (map plain_line (d ++ [s])) = (old ++ map (set_offset 0) rs) ++ [set_offset 0 r]).
  { unfold old. rewrite map_app, doc_runs_app. cbn [map]. unfold doc_runs at 2. cbn [flat_map plain_line sl_runs].
    rewrite app_nil_r, E, map_app. cbn [map]. rewrite app_assoc. reflexivity. }
  assert (G : flat_map sr_glyphs ((old ++ map (set_offset 0) rs) ++ [set_offset 0 r])
              = flat_map sr_glyphs old ++ flat_map sr_glyphs (rs ++ [r])).
  { rewrite !flat_map_app, flat_map_set_offset, <- app_assoc. reflexivity. }
  unfold layout_of, doc_glyphs, doc_lines. rewrite R. do 2 f_equal.
  - rewrite map_app, lines_of_app. cbn [map lines_of plain_line sl_runs sl_height sl_ascent].
    f_equal. do 2 f_equal.
    + fold old. rewrite !app_length, !map_length. try rewrite E. rewrite ?app_length. cbn [length]. lia.
    + unfold line_width. cbn [plain_line sl_runs]. rewrite E, map_app. cbn [map]. rewrite map_app. cbn [map].
      rewrite last_last. reflexivity.
  - rewrite <- map_app, G. reflexivity.
  - rewrite <- map_app, G. reflexivity.
Qed.

Lemma lines_steps d2 : forall d1 y, doc_ok d2 ->
  lsteps (layout_of (map plain_line d1) y) (flat_map line_ops d2) = Ok (layout_of (map plain_line (d1 ++ d2)) y).
Proof.
  induction d2 as [|s d2 IH]; intros d1 y H.
  - cbn. rewrite app_nil_r. reflexivity.
  - inversion H; subst. cbn [flat_map]. rewrite lsteps_app, line_steps by assumption. cbn [obind].
    rewrite IH by assumption. rewrite <- app_assoc. reflexivity.
Qed.

Lemma list_set_mid {A} (a : list A) x y b : list_set (a ++ x :: b) (length a) y = a ++ y :: b.
Proof. induction a; cbn [app list_set length]; congruence. Qed.

Lemma offset_steps rs : forall g pre l, lo_runs l = pre ++ runs_of g (map (set_offset 0) rs) ->
  lsteps l (offset_ops (length pre) rs) =
  Ok {| lo_runs := pre ++ runs_of g rs; lo_lines := lo_lines l; lo_glyphs := lo_glyphs l; lo_chars := lo_chars l;
        lo_pos := lo_pos l; lo_start_y := lo_start_y l |}.
Proof.
  induction rs as [|r rs IH]; intros g pre l H.
  - cbn [map runs_of] in *. cbn [offset_ops lsteps]. rewrite <- H. destruct l; reflexivity.
  - cbn [map runs_of set_offset sr_font sr_start sr_end sr_offset sr_rtl] in H.
    cbn [offset_ops lsteps lstep]. unfold set_run_char_end_offset. rewrite H.
    rewrite vget_mid. cbn [obind]. unfold vset. rewrite app_length. cbn [length].
    rewrite (proj2 (Nat.ltb_lt _ _)) by lia. cbn [obind]. rewrite list_set_mid.
    cbn [ru_font ru_glyph_end ru_start ru_end ru_rtl].
    replace (S (length pre)) with (length (pre ++ [{| ru_font := sr_font r; ru_glyph_end := g + run_len (set_offset 0 r);
       ru_start := sr_start r; ru_end := sr_end r; ru_offset := sr_offset r; ru_rtl := sr_rtl r |}]))
      by (rewrite app_length; cbn [length]; lia).
    erewrite IH.
    2:{ cbn [lo_runs]. rewrite <- app_assoc. reflexivity. }
    cbn [lo_runs lo_lines lo_glyphs lo_chars lo_pos lo_start_y runs_of]. rewrite <- app_assoc. reflexivity.
Qed.

Lemma lines_of_plain k y d : lines_of k y (map plain_line d) = lines_of k y d.
Proof.
  revert k y. induction d as [|s d IH]; intros k y; [reflexivity|].
  cbn [map lines_of plain_line sl_runs sl_height sl_ascent]. rewrite map_length, IH. do 2 f_equal.
  unfold line_width. cbn [plain_line sl_runs]. rewrite map_map. reflexivity.
Qed.

Lemma build_layout d y : doc_ok d ->
  lsteps (layout_of [] y) (doc_ops d) = Ok (layout_of d y).
Proof.
  intros H. unfold doc_ops. rewrite lsteps_app.
  change (layout_of [] y) with (layout_of (map plain_line []) y). rewrite lines_steps by assumption.
  cbn [obind app].
  change 0%nat with (length (@nil vrun)) at 1. erewrite offset_steps.
  2:{ cbn [layout_of lo_runs app]. rewrite doc_runs_plain. reflexivity. }
  cbn [app layout_of lo_runs lo_lines lo_glyphs lo_chars lo_pos lo_start_y]. unfold layout_of, doc_glyphs, doc_lines.
  rewrite doc_runs_plain, flat_map_set_offset, flat_map_pos_offset, lines_of_plain. reflexivity.
Qed.

Lemma stored_eq d y lay : doc_ok d -> stored d y lay -> lay = layout_of d y.
Proof.
  intros OK H. unfold stored in H. rewrite lsteps_app in H. change lo_empty with (layout_of [] 0) in H.
  rewrite (build_layout 0 OK) in H. cbn in H. inversion H. reflexivity.
Qed.
Lemma stored_layout d y : doc_ok d -> stored d y (layout_of d y).
Proof.
  intros OK. unfold stored. rewrite lsteps_app. change lo_empty with (layout_of [] 0). rewrite (build_layout 0 OK). reflexivity.
Qed.

Lemma empty_line_step d y font c h a :
  lstep (layout_of d y) (LEmpty font c h a) =
  Ok (layout_of (d ++ [{| sl_runs := [empty_run font c]; sl_height := h; sl_ascent := a |}]) y).
Proof.
  cbn [lstep]. unfold append_empty_line. f_equal. unfold layout_of, doc_lines, doc_glyphs.
  cbn [lo_runs lo_lines lo_glyphs lo_chars lo_pos lo_start_y].
  assert (G : match rev (runs_of 0 (doc_runs d)) with [] => 0%nat | r :: _ => ru_glyph_end r end = count_glyphs (doc_runs d)).
  { destruct (doc_runs d) as [|r0 rs0] eqn:E; [reflexivity|].
    destruct (@exists_last _ (r0 :: rs0)) as (rs & r & ->); [discriminate|].
    rewrite runs_of_app. cbn [runs_of]. rewrite rev_app_distr. cbn [rev app ru_glyph_end].
    rewrite count_glyphs_app, count_glyphs_cons. replace (count_glyphs []) with 0%nat by reflexivity. lia. }
  rewrite G, next_descent_of, doc_runs_app.
  replace (doc_runs [_]) with [empty_run font c] by reflexivity.
  rewrite !flat_map_app. cbn [flat_map empty_run sr_glyphs run_pos app]. rewrite !app_nil_r.
  f_equal.
  - rewrite runs_of_app. cbn [runs_of sr_font sr_start sr_end sr_offset sr_rtl]. unfold run_len.
    cbn [sr_glyphs length]. do 2 f_equal. f_equal. cbn [empty_run sr_glyphs length]. lia.
  - rewrite lines_of_app. cbn [lines_of sl_runs sl_height sl_ascent length]. do 2 f_equal. f_equal.
    rewrite app_length, length_runs_of. cbn [length]. lia.
Qed.

(** ** Any history *)
Definition tables_inv (l : layout) : Prop :=
  StronglySorted le (map ru_glyph_end (lo_runs l)) /\ Forall (fun r => ru_glyph_end r <= length (lo_glyphs l))%nat (lo_runs l) /\
  StronglySorted le (map li_run_end (lo_lines l)) /\ Forall (fun li => li_run_end li <= length (lo_runs l))%nat (lo_lines l).

Lemma sorted_snoc l x : StronglySorted le l -> Forall (fun a => a <= x)%nat l -> StronglySorted le (l ++ [x]).
Proof.
  induction l as [|a l IH]; intros H F; cbn [app].
  - repeat constructor.
  - inversion H; subst. inversion F; subst. constructor; [auto|].
    apply Forall_app. split; [assumption|repeat constructor; assumption].
Qed.

Lemma tables_step l o l' : tables_inv l -> lstep l o = Ok l' -> tables_inv l'.
Proof.
  intros (S1 & B1 & S2 & B2) E. destruct o; cbn [lstep] in E.
  - inversion E; subst; clear E. unfold tables_inv, append_glyph. cbn [lo_runs lo_lines lo_glyphs].
    split; [assumption|]. split; [|split; assumption].
    eapply Forall_impl; [|exact B1]. cbn beta. intros. rewrite app_length. lia.
  - inversion E; subst; clear E. unfold tables_inv, append_char_index. cbn [lo_runs lo_lines lo_glyphs]. auto.
  - inversion E; subst; clear E. unfold tables_inv, append_glyph_position. cbn [lo_runs lo_lines lo_glyphs]. auto.
  - inversion E; subst; clear E. unfold tables_inv, append_run. cbn [lo_runs lo_lines lo_glyphs].
    split; [|split; [|split]].
    + rewrite map_app. cbn [map ru_glyph_end]. apply sorted_snoc; [assumption|]. apply Forall_map. assumption.
    + apply Forall_app. split; [assumption|]. repeat constructor.
    + assumption.
    + eapply Forall_impl; [|exact B2]. cbn beta. intros. rewrite app_length. lia.
  - unfold append_line in E. destruct (vback (lo_runs l)) as [r| |]; cbn [obind] in E; try discriminate.
    destruct (vget _ _) as [w| |]; cbn [obind] in E; try discriminate. inversion E; subst; clear E.
    unfold tables_inv. cbn [lo_runs lo_lines lo_glyphs]. split; [assumption|]. split; [assumption|]. split.
    + rewrite map_app. cbn [map li_run_end]. apply sorted_snoc; [assumption|]. apply Forall_map. assumption.
    + apply Forall_app. split; [assumption|]. repeat constructor.
  - inversion E; subst; clear E. unfold tables_inv, append_empty_line. cbn [lo_runs lo_lines lo_glyphs].
    assert (M : Forall (fun r => ru_glyph_end r <= match rev (lo_runs l) with [] => 0 | r :: _ => ru_glyph_end r end)%nat (lo_runs l)
      /\ (match rev (lo_runs l) with [] => 0 | r :: _ => ru_glyph_end r end <= length (lo_glyphs l))%nat).
    { destruct (lo_runs l) as [|r0 rs0] eqn:E0; [split; [constructor|cbn; lia]|].
      destruct (@exists_last _ (r0 :: rs0)) as (rs & r & E1); [discriminate|]. rewrite E1 in *.
      rewrite rev_app_distr. cbn [rev app]. apply Forall_app in B1 as [_ B1]. inversion B1; subst. split; [|assumption].
      apply Forall_app. split; [|repeat constructor].
      clear - S1. induction rs as [|a rs IH]; [constructor|]. cbn [app map] in S1. inversion S1; subst.
      constructor; [|auto]. rewrite map_app in H2. apply Forall_app in H2 as [_ H2]. inversion H2; assumption. }
    destruct M as [M1 M2].
    split; [|split; [|split]].
    + rewrite map_app. cbn [map ru_glyph_end]. apply sorted_snoc; [assumption|]. apply Forall_map. assumption.
    + apply Forall_app. split; [assumption|]. repeat constructor. assumption.
    + rewrite map_app. cbn [map li_run_end]. apply sorted_snoc; [assumption|]. apply Forall_map.
      eapply Forall_impl; [|exact B2]. cbn beta. intros. rewrite app_length. lia.
    + apply Forall_app. split; [|repeat constructor].
      eapply Forall_impl; [|exact B2]. cbn beta. intros. rewrite app_length. lia.
  - unfold set_run_char_end_offset in E. destruct (vget (lo_runs l) run) as [r| |] eqn:Ev; cbn [obind] in E; try discriminate.
    unfold vset in E. destruct (_ <? _)%nat; cbn [obind] in E; try discriminate. inversion E; subst; clear E.
    unfold tables_inv. cbn [lo_runs lo_lines lo_glyphs]. rewrite length_list_set.
    apply vget_ok in Ev.
    assert (M : map ru_glyph_end (list_set (lo_runs l) run {| ru_font := ru_font r; ru_glyph_end := ru_glyph_end r;
        ru_start := ru_start r; ru_end := ru_end r; ru_offset := offset; ru_rtl := ru_rtl r |}) = map ru_glyph_end (lo_runs l)).
    { clear - Ev. revert run Ev. induction (lo_runs l) as [|a rs IH]; intros [|i] Ev; cbn [nth_error list_set map] in *; try discriminate.
      - inversion Ev; subst. reflexivity.
      - rewrite IH by assumption. reflexivity. }
    rewrite M. split; [assumption|]. split; [|split; assumption].
    apply (proj1 (Forall_map ru_glyph_end (fun n => n <= length (lo_glyphs l))%nat _)). rewrite M. apply Forall_map. assumption.
  - inversion E; subst; clear E. unfold tables_inv, set_text_start_y. cbn [lo_runs lo_lines lo_glyphs]. auto.
  - inversion E; subst; clear E. unfold tables_inv, lo_clear. cbn [lo_runs lo_lines lo_glyphs map].
    repeat split; constructor.
Qed.

Lemma tables_steps os : forall l l', tables_inv l -> lsteps l os = Ok l' -> tables_inv l'.
Proof.
  induction os as [|o os IH]; intros l l' H E; cbn [lsteps] in E.
  - inversion E; subst; assumption.
  - destruct (lstep l o) as [l1| |] eqn:E1; cbn [obind] in E; try discriminate. eauto using tables_step.
Qed.
Lemma tables_empty : tables_inv lo_empty.
Proof. unfold tables_inv. cbn. repeat split; constructor. Qed.

Lemma sorted_succ {A} (f : A -> nat) l : StronglySorted le (map f l) ->
  forall i a b, nth_error l i = Some a -> nth_error l (S i) = Some b -> (f a <= f b)%nat.
Proof.
  induction l as [|x l IH]; intros S [|i] a b Ha Hb; cbn [nth_error map] in *; try discriminate; inversion S; subst.
  - inversion Ha; subst. rewrite Forall_forall in H2. apply H2, in_map. apply (nth_error_In l 0). exact Hb.
  - apply (IH H1 i a b); [exact Ha|exact Hb].
Qed.

Lemma history_ranges os l : lsteps lo_empty os = Ok l ->
  (forall i, (i < length (lo_runs l))%nat -> exists a b,
     get_first_glyph_index l i = Ok a /\ get_run_glyph_end_index l i = Ok b /\ get_first_glyph_index l (S i) = Ok b /\
     get_run_glyph_count l i = Ok (b - a)%nat /\ (a <= b <= length (lo_glyphs l))%nat) /\
  (forall i, (i < length (lo_lines l))%nat -> exists a b,
     get_first_run_index l i = Ok a /\ get_line_run_end_index l i = Ok b /\ get_first_run_index l (S i) = Ok b /\
     (a <= b <= length (lo_runs l))%nat).
Proof.
  intros E. destruct (tables_steps os tables_empty E) as (S1 & B1 & S2 & B2). split; intros i Hi.
  - destruct (vget_lt (lo_runs l) (i:=i)) as (r & Er & _); [assumption|].
    assert (U : (ru_glyph_end r <= length (lo_glyphs l))%nat).
    { rewrite Forall_forall in B1. apply B1. apply vget_ok in Er. eauto using nth_error_In. }
    destruct i as [|i].
    + exists 0%nat, (ru_glyph_end r). unfold get_run_glyph_count, get_run_glyph_end_index, get_first_glyph_index.
      rewrite Er. cbn. repeat split; try reflexivity; try lia; f_equal; lia.
    + destruct (vget_lt (lo_runs l) (i:=i)) as (p & Ep & _); [lia|].
      exists (ru_glyph_end p), (ru_glyph_end r). unfold get_run_glyph_count, get_run_glyph_end_index, get_first_glyph_index.
      rewrite Er, Ep. cbn. apply vget_ok in Er, Ep. pose proof (sorted_succ _ _ S1 _ Ep Er). repeat split; try assumption; auto.
  - destruct (vget_lt (lo_lines l) (i:=i)) as (r & Er & _); [assumption|].
    assert (U : (li_run_end r <= length (lo_runs l))%nat).
    { rewrite Forall_forall in B2. apply B2. apply vget_ok in Er. eauto using nth_error_In. }
    destruct i as [|i].
    + exists 0%nat, (li_run_end r). unfold get_line_run_end_index, get_first_run_index.
      rewrite Er. cbn. repeat split; try assumption; lia.
    + destruct (vget_lt (lo_lines l) (i:=i)) as (p & Ep & _); [lia|].
      exists (li_run_end p), (li_run_end r). unfold get_line_run_end_index, get_first_run_index.
      rewrite Er, Ep. cbn. apply vget_ok in Er, Ep. pose proof (sorted_succ _ _ S2 _ Ep Er). repeat split; try assumption; auto.
Qed.

(** After a run (line) is committed the last run (line) ends at the last glyph (run). *)
Lemma history_cover os l l' : lsteps lo_empty os = Ok l ->
  (forall f s e rtl, lstep l (LRun f s e rtl) = Ok l' ->
     lo_runs l' <> [] /\ get_run_glyph_end_index l' (length (lo_runs l') - 1) = Ok (length (lo_glyphs l'))) /\
  (forall h a, lstep l (LLine h a) = Ok l' ->
     lo_lines l' <> [] /\ get_line_run_end_index l' (length (lo_lines l') - 1) = Ok (length (lo_runs l'))) /\
  (forall f c h a, lstep l (LEmpty f c h a) = Ok l' ->
     lo_lines l' <> [] /\ get_line_run_end_index l' (length (lo_lines l') - 1) = Ok (length (lo_runs l'))).
Proof.
  intros _. assert (NE : forall A (l : list A) x, l ++ [x] <> []) by (intros A l0 x E0; apply app_eq_nil in E0; destruct E0; discriminate).
  split; [|split].
  - intros f s e rtl E. cbn [lstep] in E. inversion E; subst; clear E. unfold append_run.
    cbn [lo_runs lo_glyphs]. split; [apply NE|]. unfold get_run_glyph_end_index. cbn [lo_runs].
    rewrite app_length. cbn [length]. replace (_ + 1 - 1)%nat with (length (lo_runs l)) by lia. rewrite vget_mid. reflexivity.
  - intros h a E. cbn [lstep] in E. unfold append_line in E.
    destruct (vback (lo_runs l)) as [r| |]; cbn [obind] in E; try discriminate.
    destruct (vget _ _) as [w| |]; cbn [obind] in E; try discriminate. inversion E; subst; clear E.
    cbn [lo_runs lo_lines]. split; [apply NE|]. unfold get_line_run_end_index. cbn [lo_lines].
    rewrite app_length. cbn [length]. replace (_ + 1 - 1)%nat with (length (lo_lines l)) by lia. rewrite vget_mid. reflexivity.
  - intros f c h a E. cbn [lstep] in E. inversion E; subst; clear E. unfold append_empty_line.
    cbn [lo_runs lo_lines]. split; [apply NE|]. unfold get_line_run_end_index. cbn [lo_lines].
    rewrite (app_length (lo_lines l)). cbn [length]. replace (_ + 1 - 1)%nat with (length (lo_lines l)) by lia. rewrite vget_mid. reflexivity.
Qed.

(** ** Lookup in the tables of a document *)
Definition vrun_of (g : nat) (r : srun) : vrun :=
  {| ru_font := sr_font r; ru_glyph_end := (g + run_len r)%nat; ru_start := sr_start r; ru_end := sr_end r;
     ru_offset := sr_offset r; ru_rtl := sr_rtl r |}.

Lemma doc_run_view d y pre r post : doc_runs d = pre ++ r :: post ->
  let l := layout_of d y in let G := count_glyphs pre in let i := length pre in
  vget (lo_runs l) i = Ok (vrun_of G r) /\
  get_first_glyph_index l i = Ok G /\ get_first_position_index l i = Ok (2 * (G + i))%nat /\
  (forall k, (k < run_len r)%nat -> vget (lo_chars l) (G + k) = vget (run_chars r) k) /\
  (forall k, (k < run_len r)%nat -> vget (lo_glyphs l) (G + k) = vget (map sg_id (sr_glyphs r)) k) /\
  (forall k, (k <= run_len r)%nat -> vget (lo_pos l) (2 * (G + i) + 2 * k) = vget (run_xs r) k) /\
  (forall k, (k <= run_len r)%nat -> vget (lo_pos l) (2 * (G + i) + 2 * k + 1) = vget (map sg_y (sr_glyphs r) ++ [sr_end_y r]) k).
Proof.
  intros E l G i. subst l. unfold layout_of, doc_glyphs. rewrite E. cbn [lo_runs lo_chars lo_glyphs lo_pos].
  assert (V : vget (runs_of 0 (pre ++ r :: post)) i = Ok (vrun_of G r)).
  { rewrite runs_of_app. cbn [runs_of]. unfold i. rewrite <- (length_runs_of 0 pre). rewrite vget_mid. reflexivity. }
  split; [exact V|].
  assert (P : match i with O => G = 0%nat | S j => exists p, vget (runs_of 0 (pre ++ r :: post)) j = Ok p /\ ru_glyph_end p = G end).
  { unfold i, G. destruct pre as [|q0 pre0]; [reflexivity|].
    destruct (@exists_last _ (q0 :: pre0)) as (pre' & q & Eq); [discriminate|]. rewrite Eq.
    rewrite app_length. cbn [length]. replace (length pre' + 1)%nat with (S (length pre')) by lia.
    rewrite <- app_assoc. cbn [app]. rewrite runs_of_app. cbn [runs_of].
    eexists. rewrite <- (length_runs_of 0 pre'), vget_mid. split; [reflexivity|].
    cbn [ru_glyph_end]. rewrite count_glyphs_app, count_glyphs_cons. replace (count_glyphs []) with 0%nat by reflexivity. lia. }
  assert (LG : length (map sg_char (flat_map sr_glyphs pre)) = G) by (rewrite map_length; reflexivity).
  assert (LI : length (map sg_id (flat_map sr_glyphs pre)) = G) by (rewrite map_length; reflexivity).
  split; [|split; [|split; [|split; [|split]]]].
  - unfold get_first_glyph_index. cbn [lo_runs]. destruct i; [congruence|]. destruct P as (p & -> & <-). reflexivity.
  - unfold get_first_position_index. cbn [lo_runs]. destruct i; [rewrite P; reflexivity|].
    destruct P as (p & -> & <-). reflexivity.
  - intros k Hk. rewrite flat_map_app. cbn [flat_map]. rewrite !map_app. rewrite vget_app2 by lia. rewrite LG.
    replace (G + k - G)%nat with k by lia. rewrite vget_app1 by (rewrite map_length; exact Hk). reflexivity.
  - intros k Hk. rewrite flat_map_app. cbn [flat_map]. rewrite !map_app. rewrite vget_app2 by lia. rewrite LI.
    replace (G + k - G)%nat with k by lia. rewrite vget_app1 by (rewrite map_length; exact Hk). reflexivity.
  - intros k Hk. rewrite flat_map_app. cbn [flat_map]. rewrite vget_app2 by (rewrite length_all_pos; fold G i; lia).
    rewrite length_all_pos. fold G i. replace (_ - _)%nat with (2 * k)%nat by lia.
    rewrite vget_app1 by (rewrite length_run_pos; lia). unfold run_pos, run_xs. unfold run_len in Hk.
    clear - Hk. revert k Hk. induction (sr_glyphs r) as [|g gs IH]; intros k Hk; cbn [flat_map map app length glyph_pos] in *.
    + replace k with 0%nat by lia. reflexivity.
    + destruct k as [|k]; [reflexivity|]. replace (2 * S k)%nat with (S (S (2 * k))) by lia.
      cbn [vget]. unfold vget. cbn [nth_error]. apply IH. lia.
  - intros k Hk. rewrite flat_map_app. cbn [flat_map]. rewrite vget_app2 by (rewrite length_all_pos; fold G i; lia).
    rewrite length_all_pos. fold G i. replace (_ - _)%nat with (2 * k + 1)%nat by lia.
    rewrite vget_app1 by (rewrite length_run_pos; lia). unfold run_pos. unfold run_len in Hk.
    clear - Hk. revert k Hk. induction (sr_glyphs r) as [|g gs IH]; intros k Hk; cbn [flat_map map app length glyph_pos] in *.
    + replace k with 0%nat by lia. reflexivity.
    + destruct k as [|k]; [reflexivity|]. replace (2 * S k + 1)%nat with (S (S (2 * k + 1))) by lia.
      unfold vget. cbn [nth_error]. apply IH. lia.
Qed.

Lemma doc_line_view d y d1 s d2 : d = d1 ++ s :: d2 ->
  let l := layout_of d y in let i := length d1 in let R := length (doc_runs d1) in
  get_first_run_index l i = Ok R /\ get_line_run_end_index l i = Ok (R + length (sl_runs s))%nat /\
  vget (lo_lines l) i = Ok {| li_run_end := (R + length (sl_runs s))%nat; li_width := line_width s;
     li_ascent := sl_ascent s; li_descent := (descent_after 0 d1 + sl_height s)%Q |}.
Proof.
  intros E l i R. subst l. unfold layout_of, doc_lines. rewrite E, lines_of_app. cbn [lo_lines lines_of].
  assert (V : vget (lines_of 0 0 d1 ++ {| li_run_end := (0 + length (doc_runs d1) + length (sl_runs s))%nat;
    li_width := line_width s; li_ascent := sl_ascent s; li_descent := (descent_after 0 d1 + sl_height s)%Q |}
    :: lines_of (0 + length (doc_runs d1) + length (sl_runs s)) (descent_after 0 d1 + sl_height s) d2) i
    = Ok {| li_run_end := (R + length (sl_runs s))%nat; li_width := line_width s;
     li_ascent := sl_ascent s; li_descent := (descent_after 0 d1 + sl_height s)%Q |}).
  { unfold i. rewrite <- (length_lines_of 0 0 d1), vget_mid. reflexivity. }
  split; [|split].
  - unfold get_first_run_index. cbn [lo_lines]. unfold i, R. destruct d1 as [|s0 d0]; [reflexivity|].
    destruct (@exists_last _ (s0 :: d0)) as (d' & t & Et); [discriminate|]. rewrite Et.
    rewrite app_length. cbn [length]. replace (length d' + 1)%nat with (S (length d')) by lia.
    rewrite lines_of_app. cbn [lines_of]. rewrite <- app_assoc. cbn [app].
    rewrite <- (length_lines_of 0 0 d') at 1. rewrite vget_mid. cbn. f_equal.
    rewrite doc_runs_app, app_length. unfold doc_runs at 3. cbn [flat_map]. rewrite app_nil_r. reflexivity.
  - unfold get_line_run_end_index. cbn [lo_lines]. rewrite V. reflexivity.
  - exact V.
Qed.
