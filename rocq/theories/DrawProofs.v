(** Proofs about [draw_text]. *)
From Coq Require Import Lqa.
From Verif Require Import Base BaseFacts ValueRunsModel ValueRunsSpec FloatModel ColorModel FormattingModel FormattingIterModel
  FormattingIterSpec FormattingIterProofs LayoutModel LayoutSpec LayoutProofs LayoutGeomProofs DrawModel DrawSpec.
Open Scope Z_scope.
Set Implicit Arguments.
Local Notation length := List.length.

(** ** The runs visited *)
Definition call_of (p : place) : nat * nat * Q * Q := (pl_line p, pl_run p, pl_x p, pl_y p).
Definition run_call_ok (c : nat * nat * Q * Q) (p : place) : Prop :=
  let '(i, k, x, y) := c in i = pl_line p /\ k = pl_run p /\ (x == pl_x p)%Q /\ (y == pl_y p)%Q.

Lemma place_runs_calls i x y x' y' rs : forall k, (x == x')%Q -> (y == y')%Q ->
  Forall2 run_call_ok (map (fun r => (i, r, x, y)) (seq k (length rs))) (place_runs i k x' y' rs).
Proof.
  induction rs as [|r rs IH]; intros k Hx Hy; cbn [length seq map place_runs]; constructor; auto.
  cbn. auto.
Qed.

Lemma for_each_run_loop_of y w a d2 : forall d1 y2 calls,
  Forall2 call_eq calls (expected_calls w a (length d1) y2 d2) ->
  exists rc, for_each_run_loop (layout_of (d1 ++ d2) y) calls (length (doc_runs d1)) = Ok rc /\
    Forall2 run_call_ok rc (places w a (length d1) (length (doc_runs d1)) y2 d2).
Proof.
  induction d2 as [|s d2 IH]; intros d1 y2 calls H; cbn [expected_calls] in H.
  - inversion H; subst. exists []. split; [reflexivity|constructor].
  - inversion H as [|[[i x] yy] ? calls' ? E F]; subst. destruct E as (E1 & E2 & E3). cbn [fst snd] in E1, E2, E3. subst i.
    cbn [for_each_run_loop].
    destruct (@doc_line_view (d1 ++ s :: d2) y d1 s d2 eq_refl) as (V1 & V2 & V3). rewrite V2. cbn [obind].
    replace (Nat.max _ _) with (length (doc_runs (d1 ++ [s])))
      by (rewrite doc_runs_app, app_length; unfold doc_runs at 2; cbn [flat_map]; rewrite app_nil_r; lia).
    destruct (IH (d1 ++ [s]) (y2 + sl_height s)%Q calls') as (rc & Erc & Frc).
    { rewrite app_length. cbn [length]. replace (length d1 + 1)%nat with (S (length d1)) by lia. exact F. }
    rewrite <- app_assoc in Erc. cbn [app] in Erc. rewrite Erc. cbn [obind].
    eexists. split; [reflexivity|]. cbn [places]. apply Forall2_app.
    + replace (_ + length (sl_runs s) - _)%nat with (length (sl_runs s)) by lia. apply place_runs_calls; assumption.
    + rewrite app_length in Frc. cbn [length] in Frc. replace (length d1 + 1)%nat with (S (length d1)) in Frc by lia.
      rewrite doc_runs_app, app_length in Frc. unfold doc_runs at 2 in Frc. cbn [flat_map] in Frc. rewrite app_nil_r in Frc. exact Frc.
Qed.

Lemma for_each_run_of d y w a : exists rc, for_each_run (layout_of d y) w a = Ok rc /\
  Forall2 run_call_ok rc (places w a 0 0 y d).
Proof.
  unfold for_each_run. destruct (for_each_line_of d y w a) as (calls & E & F). rewrite E. cbn [obind].
  apply (@for_each_run_loop_of y w a d [] y calls F).
Qed.

Lemma place_runs_of i k x y rs : map pl_of (place_runs i k x y rs) = rs.
Proof. revert k. induction rs; intros k; cbn [place_runs map]; [reflexivity|]. rewrite IHrs. reflexivity. Qed.
Lemma place_runs_idx i k x y rs : map pl_run (place_runs i k x y rs) = seq k (length rs).
Proof. revert k. induction rs; intros k; cbn [place_runs map seq length]; [reflexivity|]. rewrite IHrs. reflexivity. Qed.
Lemma places_of w a d : forall i k y, map pl_of (places w a i k y d) = doc_runs d.
Proof.
  induction d as [|s d IH]; intros; cbn [places]; [reflexivity|]. rewrite map_app, place_runs_of, IH. reflexivity.
Qed.
Lemma places_idx w a d : forall i k y, map pl_run (places w a i k y d) = seq k (length (doc_runs d)).
Proof.
  induction d as [|s d IH]; intros; cbn [places]; [reflexivity|]. rewrite map_app, place_runs_idx, IH.
  unfold doc_runs. cbn [flat_map]. rewrite app_length, seq_app. reflexivity.
Qed.

(** ** Reading a run's glyphs *)
Definition reads_at (l : layout) (g p : nat) (gs : list sglyph) (ex : Q) : Prop :=
  (forall k s, nth_error gs k = Some s ->
     vget (lo_glyphs l) (g + k) = Ok (sg_id s) /\ vget (lo_chars l) (g + k) = Ok (sg_char s) /\
     vget (lo_pos l) (p + 2 * k) = Ok (sg_x s) /\ vget (lo_pos l) (p + 2 * k + 1) = Ok (sg_y s)) /\
  vget (lo_pos l) (p + 2 * length gs) = Ok ex.

Lemma reads_tail l g p s gs ex : reads_at l g p (s :: gs) ex -> reads_at l (g + 1) (p + 2) gs ex.
Proof.
  intros [H E]. split.
  - intros k t Hk. destruct (H (S k) t Hk) as (H1 & H2 & H3 & H4).
    replace (g + 1 + k)%nat with (g + S k)%nat by lia. replace (p + 2 + 2 * k)%nat with (p + 2 * S k)%nat by lia. auto.
  - cbn [length] in E. replace (p + 2 + 2 * length gs)%nat with (p + 2 * S (length gs))%nat by lia. exact E.
Qed.
Lemma reads_head l g p s gs ex : reads_at l g p (s :: gs) ex ->
  vget (lo_glyphs l) g = Ok (sg_id s) /\ vget (lo_chars l) g = Ok (sg_char s) /\
  vget (lo_pos l) p = Ok (sg_x s) /\ vget (lo_pos l) (p + 1) = Ok (sg_y s).
Proof.
  intros [H _]. destruct (H 0%nat s eq_refl) as (H1 & H2 & H3 & H4).
  change (2 * 0)%nat with 0%nat in *. rewrite !Nat.add_0_r in *. auto.
Qed.
Lemma doc_reads d y pre r post : doc_runs d = pre ++ r :: post ->
  reads_at (layout_of d y) (count_glyphs pre) (2 * (count_glyphs pre + length pre)) (sr_glyphs r) (sr_end_x r).
Proof.
  intros E. destruct (@doc_run_view d y pre r post E) as (_ & _ & _ & V1 & V2 & V3 & V4). split.
  - intros k s Hk. assert (L : (k < run_len r)%nat) by (unfold run_len; apply nth_error_Some; congruence).
    split; [|split; [|split]].
    + rewrite V2 by exact L. apply vget_ok. rewrite nth_error_map, Hk. reflexivity.
    + rewrite V1 by exact L. apply vget_ok. unfold run_chars. rewrite nth_error_map, Hk. reflexivity.
    + rewrite V3 by lia. unfold run_xs. rewrite vget_app1 by (rewrite map_length; exact L).
      apply vget_ok. rewrite nth_error_map, Hk. reflexivity.
    + rewrite V4 by lia. rewrite vget_app1 by (rewrite map_length; exact L).
      apply vget_ok. rewrite nth_error_map, Hk. reflexivity.
  - fold (run_len r). rewrite V3 by lia. unfold run_xs. rewrite vget_app2 by (rewrite map_length; unfold run_len; lia).
    rewrite map_length. unfold run_len. rewrite Nat.sub_diag. reflexivity.
Qed.

(** ** Without formatting *)
Lemma plain_glyphs_of l font x y ex gs : forall g p, reads_at l g p gs ex ->
  plain_glyphs (length gs) l font x y g p = Ok (map (fun s => (font, sg_id s, (x + sg_x s)%Q, (y + sg_y s)%Q)) gs).
Proof.
  induction gs as [|s gs IH]; intros g p H; cbn [length plain_glyphs map]; [reflexivity|].
  destruct (reads_head H) as (H1 & _ & H3 & H4). rewrite H3, H4, H1. cbn [obind].
  rewrite (IH _ _ (reads_tail H)). reflexivity.
Qed.

Lemma plain_runs_of d y : forall ps pre calls, doc_runs d = pre ++ map pl_of ps -> map pl_run ps = seq (length pre) (length ps) ->
  Forall2 run_call_ok calls ps ->
  exists out, plain_runs (layout_of d y) calls (count_glyphs pre) (2 * (count_glyphs pre + length pre)) = Ok out /\
    Forall2 plain_eq out (flat_map plain_run_calls ps).
Proof.
  induction ps as [|p ps IH]; intros pre calls E Ei F; inversion F as [|[[[i k] x] yy] ? calls' ? C F']; subst.
  - exists []. split; [reflexivity|constructor].
  - destruct C as (-> & -> & Hx & Hy). cbn [map seq length] in E, Ei. injection Ei as Er Ei'.
    cbn [plain_runs]. rewrite Er. destruct (@doc_run_view d y pre (pl_of p) (map pl_of ps) E) as (V & _). rewrite V. cbn [obind vrun_of ru_glyph_end ru_font].
    replace (count_glyphs pre + run_len (pl_of p) - count_glyphs pre)%nat with (run_len (pl_of p)) by lia.
    unfold run_len at 1. rewrite (@plain_glyphs_of _ _ x yy _ _ _ _ (@doc_reads d y pre (pl_of p) _ E)). cbn [obind].
    destruct (IH (pre ++ [pl_of p]) calls') as (out & Eo & Fo).
    { rewrite E, <- app_assoc. reflexivity. }
    { rewrite app_length. cbn [length]. rewrite Nat.add_1_r. exact Ei'. }
    { exact F'. }
    rewrite count_glyphs_app, count_glyphs_cons, app_length in Eo. replace (count_glyphs []) with 0%nat in Eo by reflexivity. cbn [length] in Eo.
    rewrite Nat.add_0_r in Eo.
    replace (2 * (count_glyphs pre + run_len (pl_of p) + (length pre + 1)))%nat
      with (2 * (count_glyphs pre + length pre) + 2 * run_len (pl_of p) + 2)%nat in Eo by lia.
    rewrite Eo. cbn [obind]. eexists. split; [reflexivity|]. cbn [flat_map]. apply Forall2_app; [|exact Fo].
    unfold plain_run_calls. induction (sr_glyphs (pl_of p)) as [|s gs IHg]; cbn [map]; constructor; [|exact IHg].
    cbn. rewrite Hx, Hy. repeat split; reflexivity.
Qed.

Lemma draw_plain_of d y w a : exists out, draw_plain (layout_of d y) w a = Ok out /\
  Forall2 plain_eq out (flat_map plain_run_calls (places w a 0 0 y d)).
Proof.
  unfold draw_plain. destruct (for_each_run_of d y w a) as (rc & E & F). rewrite E. cbn [obind].
  apply (@plain_runs_of d y (places w a 0 0 y d) [] rc).
  - rewrite places_of. reflexivity.
  - rewrite places_idx. cbn [length]. rewrite <- (places_of w a d 0 0 y) at 1. rewrite map_length. reflexivity.
  - exact F.
Qed.

(** ** Rectangles of one kind, on lists *)
Section Rects.
Variable line : Z -> bool.
Variable color : Z -> color.

Fixpoint line_rects (prev : ColorModel.color) (was : bool) (start : Q) (gs : list sglyph) (ex : Q) : list (Q * Q * ColorModel.color) :=
  match gs with
  | [] => if was then [(start, ex, prev)] else []
  | g :: gs' =>
      let u := line (sg_char g) in let c := color (sg_char g) in
      let changed := negb (color_eqb c prev) in
      (if (negb u && was) || (u && changed) then [(start, sg_x g, prev)] else [])
      ++ line_rects c u (if u && (negb was || changed) then sg_x g else start) gs' ex
  end.

(** Spans as in the specification, over a list of glyphs from number [n]. *)
Definition ch (gs : list sglyph) (k : nat) : Z := nth k (map sg_char gs) 0.
Definition xs (gs : list sglyph) (ex : Q) (k : nat) : Q := nth k (map sg_x gs ++ [ex]) 0%Q.

Definition rect_ok (gs : list sglyph) (ex : Q) (ij : nat * nat) (r : Q * Q * ColorModel.color) : Prop :=
  fst (fst r) = xs gs ex (fst ij) /\ snd (fst r) = xs gs ex (snd ij) /\
  ((fst ij < snd ij)%nat -> snd r = color (ch gs (snd ij - 1))).

Lemma spans_in_le lo lo' hi sp : (lo' <= lo)%nat -> spans_in lo hi sp -> spans_in lo' hi sp.
Proof. destruct sp as [|[i j] sp]; cbn [spans_in]; intros H1 H2; [lia|]. destruct H2. split; [lia|assumption]. Qed.
Lemma spans_in_bounds sp : forall lo hi, spans_in lo hi sp -> (lo <= hi)%nat /\ forall i j, In (i, j) sp -> (lo <= i <= j)%nat /\ (j <= hi)%nat.
Proof.
  induction sp as [|[a b] sp IH]; intros lo hi H; cbn [spans_in] in H.
  - split; [exact H|]. intros i j [].
  - destruct H as [H1 H2]. destruct (IH _ _ H2) as [H3 H4]. split; [lia|].
    intros i j [E|E]; [inversion E; subst; lia|]. specialize (H4 i j E). lia.
Qed.

(** After [k] glyphs: [was] is whether the last one is lined, and then [s] is
    the first glyph of the open span. *)
Lemma line_rects_spans gs ex : forall rest k s prev was,
  gs = firstn k gs ++ rest -> (k <= length gs)%nat ->
  (forall j, (k <= S j)%nat -> (S j < length gs)%nat -> (0 < S j)%nat -> line (ch gs (S j)) = true -> line (ch gs j) = false ->
     color_eqb (color (ch gs (S j))) (color (ch gs j)) = true) ->
  (k = 0%nat -> was = false) ->
  ((0 < k)%nat -> was = line (ch gs (k - 1)) /\ prev = color (ch gs (k - 1))) ->
  (s <= k)%nat -> (k = 0%nat -> s = 0%nat) ->
  (was = true -> (s < k)%nat /\ (forall j, (s <= j < k)%nat -> line (ch gs j) = true) /\
     (forall j, (s <= j)%nat -> (S j < k)%nat -> color_eqb (color (ch gs (S j))) (color (ch gs j)) = true)) ->
  exists spans,
    spans_in (if was then s else k) (length gs) spans /\
    (forall j, ((if was then s else k) <= j < length gs)%nat -> (line (ch gs j) = true <-> exists a b, In (a, b) spans /\ (a <= j < b)%nat)) /\
    (forall a b j, In (a, b) spans -> (a <= j)%nat -> (S j < b)%nat -> color_eqb (color (ch gs (S j))) (color (ch gs j)) = true) /\
    Forall2 (rect_ok gs ex) spans (line_rects prev was (xs gs ex s) rest ex).
Proof.
  induction rest as [|g rest IH]; intros k s prev was E Hk Steady W0 W Hs Hs0 Open.
  - assert (k = length gs).
    { pose proof (f_equal (@List.length _) E) as L. rewrite app_nil_r, firstn_length in L. lia. }
    subst k. cbn [line_rects]. destruct was.
    + destruct (Open eq_refl) as (O1 & O2 & O3). exists [(s, length gs)]. cbn [spans_in]. split; [lia|]. split; [|split].
      * intros j Hj. split; [intros _; exists s, (length gs); cbn [In]; auto|]. intros _. apply O2. lia.
      * intros a b j [H|[]] H1 H2. inversion H; subst. apply O3; assumption.
      * constructor; [|constructor]. split; [reflexivity|]. split.
        { cbn [fst snd]. unfold xs. rewrite app_nth2 by (rewrite map_length; lia). rewrite map_length, Nat.sub_diag. reflexivity. }
        { cbn [fst snd]. intros _. apply W. lia. }
    + exists []. cbn [spans_in]. split; [lia|]. split; [intros j Hj; lia|]. split; [intros a b j []|constructor].
  - assert (Ek : nth_error gs k = Some g).
    { rewrite E, nth_error_app2; rewrite firstn_length; [|lia]. replace (k - Nat.min k (length gs))%nat with 0%nat by lia. reflexivity. }
    assert (Lk : (k < length gs)%nat) by (apply nth_error_Some; congruence).
    assert (Eg : sg_char g = ch gs k).
    { unfold ch. symmetry. apply nth_error_nth. rewrite nth_error_map, Ek. reflexivity. }
    assert (Ex : sg_x g = xs gs ex k).
    { unfold xs. rewrite app_nth1 by (rewrite map_length; lia). symmetry. apply nth_error_nth. rewrite nth_error_map, Ek. reflexivity. }
    assert (E' : gs = firstn (S k) gs ++ rest).
    { rewrite E at 1. clear - E Ek. assert (H : firstn (S k) gs = firstn k gs ++ [g]).
      { clear E. revert gs Ek. induction k as [|k IH]; intros [|a gs] Ek; cbn [nth_error firstn app] in *; try discriminate.
        - inversion Ek; reflexivity.
        - f_equal. apply IH. exact Ek. }
      rewrite H, <- app_assoc. reflexivity. }
    cbn [line_rects]. rewrite Eg, Ex.
    set (u := line (ch gs k)). set (changed := negb (color_eqb (color (ch gs k)) prev)).
    set (s' := if u && (negb was || changed) then k else s).
    replace (if u && (negb was || changed) then xs gs ex k else xs gs ex s) with (xs gs ex s') by (unfold s'; destruct (u && _); reflexivity).
    assert (NW : u = true -> was = false -> changed = true -> k = 0%nat).
    { intros Hu Hw Hc. destruct k as [|j]; [reflexivity|]. exfalso.
      destruct (W ltac:(lia)) as [W1 W2]. replace (S j - 1)%nat with j in W1, W2 by lia.
      assert (H : color_eqb (color (ch gs (S j))) (color (ch gs j)) = true) by (apply Steady; first [exact Hu|lia|congruence]).
      unfold changed in Hc. rewrite W2, H in Hc. discriminate. }
    destruct (IH (S k) s' (color (ch gs k)) u E') as (spans & S1 & S2 & S3 & S4).
    { lia. }
    { intros j H1 H2. apply Steady; lia. }
    { lia. }
    { intros _. replace (S k - 1)%nat with k by lia. auto. }
    { unfold s'. destruct (u && _); lia. }
    { lia. }
    { intros Hu. unfold s'. rewrite Hu. cbn [andb]. destruct (negb was || changed) eqn:Hc.
      - split; [lia|]. split; [|intros j H1 H2; lia]. intros j Hj. replace j with k by lia. exact Hu.
      - apply orb_false_iff in Hc as [Hc1 Hc2]. apply negb_false_iff in Hc1. destruct (Open Hc1) as (O1 & O2 & O3).
        split; [lia|]. split.
        + intros j Hj. destruct (Nat.eq_dec j k) as [->|Hn]; [exact Hu|apply O2; lia].
        + intros j H1 H2. destruct (Nat.eq_dec (S j) k) as [Hn|Hn]; [|apply O3; lia].
          unfold changed in Hc2. apply negb_false_iff in Hc2. destruct (W ltac:(lia)) as [_ W2]. rewrite W2 in Hc2.
          replace (k - 1)%nat with j in Hc2 by lia. rewrite Hn. exact Hc2. }
    destruct ((negb u && was) || (u && changed)) eqn:He.
    + (* a rectangle [s, k) *)
      exists ((s, k) :: spans). cbn [spans_in].
      destruct was.
      * destruct (Open eq_refl) as (O1 & O2 & O3).
        assert (Lo : (k <= if u then s' else S k)%nat).
        { unfold s'. destruct u; [|lia]. cbn [negb andb orb] in He |- *. rewrite He. lia. }
        assert (Lo' : ((if u then s' else S k) = if u then k else S k)%nat).
        { unfold s'. destruct u; [|reflexivity]. cbn [negb andb orb] in He |- *. rewrite He. reflexivity. }
        split; [split; [lia|apply spans_in_le with (lo := if u then s' else S k); assumption]|]. split; [|split].
        { intros j Hj. destruct (spans_in_bounds _ _ _ S1) as [_ B]. destruct (Nat.lt_ge_cases j k) as [H|H].
          - split; [intros _; exists s, k; cbn [In]; split; [auto|lia]|intros _; apply O2; lia].
          - destruct (Nat.eq_dec j k) as [Hjk|Hn].
            + rewrite Hjk. rewrite Lo' in S2. destruct (bool_dec u true) as [Hu|Hu]; [|apply not_true_is_false in Hu]; rewrite Hu in S2, Lo'.
              * rewrite (S2 k ltac:(lia)). split; intros (a & b & I & Hab); exists a, b; (split; [|exact Hab]); [right; exact I|].
                destruct I as [I|I]; [injection I; intros; lia|exact I].
              * split; [fold u; congruence|]. intros (a & b & I & Hab). exfalso. destruct I as [I|I]; [injection I; intros; lia|].
                specialize (B _ _ I). rewrite Hu in B. lia.
            + rewrite (S2 j ltac:(rewrite Lo'; destruct u; lia)). split; intros (a & b & I & Hab); exists a, b; (split; [|exact Hab]); [right; exact I|].
              destruct I as [I|I]; [injection I; intros; lia|exact I]. }
        { intros a b j [I|I] H1 H2; [injection I; intros; apply O3; lia|apply (S3 a b); assumption]. }
        { constructor; [|exact S4]. split; [reflexivity|]. split; [reflexivity|]. cbn [fst snd]. intros _. apply W. lia. }
      * (* only at the first glyph: an empty rectangle *)
        assert (Hu : u = true /\ changed = true) by (destruct u, changed; try discriminate He; auto).
        destruct Hu as [Hu Hch]. pose proof (NW Hu eq_refl Hch) as K0. specialize (Hs0 K0). subst s k.
        assert (Es' : s' = 0%nat) by (unfold s'; destruct (u && _); reflexivity).
        rewrite Hu, Es' in S1, S2. split; [split; [lia|exact S1]|]. split; [|split].
        { intros j Hj. rewrite (S2 j ltac:(lia)). split; intros (a & b & I & Hab); exists a, b; (split; [|exact Hab]); [right; exact I|].
          destruct I as [I|I]; [injection I; intros; lia|exact I]. }
        { intros a b j [I|I] H1 H2; [injection I; intros; lia|apply (S3 a b); assumption]. }
        { constructor; [|exact S4]. split; [reflexivity|]. split; [reflexivity|]. cbn [fst snd]. lia. }
    + (* no rectangle here *)
      exists spans. apply orb_false_iff in He as [He1 He2]. cbn [app].
      destruct was.
      * (* still open *)
        assert (Hu : u = true) by (destruct u; [reflexivity|discriminate]). rewrite Hu in He2. cbn [andb] in He2.
        assert (Es' : s' = s) by (unfold s'; rewrite Hu, He2; reflexivity).
        rewrite Hu, Es' in S1, S2. split; [exact S1|]. split; [exact S2|]. split; [exact S3|]. exact S4.
      * destruct (bool_dec u true) as [Hu|Hu]; [|apply not_true_is_false in Hu]; rewrite Hu in S1, S2.
        { assert (Es' : s' = k) by (unfold s'; rewrite Hu; reflexivity). rewrite Es' in S1, S2.
          split; [exact S1|]. split; [exact S2|]. split; [exact S3|]. exact S4. }
        { destruct (spans_in_bounds _ _ _ S1) as [_ B]. split; [apply spans_in_le with (lo := S k); [lia|exact S1]|]. split; [|split; [exact S3|exact S4]].
          intros j Hj. destruct (Nat.eq_dec j k) as [->|Hn]; [|apply S2; lia].
          split; [fold u; congruence|]. intros (a & b & I & Hab). specialize (B _ _ I). lia. }
Qed.
End Rects.

(** ** With formatting *)
Section Formatted.
Variable f : fmt_tables.
Variable n : Z.
Hypothesis Hf : tables_for n f.

Definition mk_rect (m : metrics) (X Y : Q) (strike : bool) (r : Q * Q * color) : draw_call :=
  let '(a, b, c) := r in
  DRect strike (X + a)%Q (Y + (if strike then me_strike_pos m else me_under_pos m))%Q (b - a)%Q
    ((if strike then me_strike_thick m else me_under_thick m) + (1 # 2))%Q c.
Definition at_place (X Y : Q) (r : srun) : place := {| pl_line := 0; pl_run := 0; pl_x := X; pl_y := Y; pl_of := r |}.

Lemma attr_some {T} (t : table T) dflt c x : lookup t c = Some x -> attr t dflt c = x.
Proof. unfold attr. intros ->. reflexivity. Qed.

Lemma filter_if {A} (h : A -> bool) (b : bool) x : filter h (if b then [x] else []) = if b && h x then [x] else [].
Proof. destruct b; cbn; [destruct (h x)|]; reflexivity. Qed.

Lemma draw_glyphs_of l m r X Y ex : forall gs g p it x us0 ss0,
  reads_at l g p gs ex -> at_index f it x -> x < n -> Forall (fun s => sg_char s < n) gs ->
  exists body it' us ss, draw_glyphs (length gs) l (views_of f) m (sr_font r) X Y g p it us0 ss0 = Ok (body, it', us, ss) /\
    filter (fun c => negb (is_rect c)) body = flat_map (glyph_calls f (at_place X Y r)) gs /\
    filter (rect_of false) body ++ (if fi_under it' then [mk_rect m X Y false (us, ex, fi_color it')] else []) =
      map (mk_rect m X Y false) (line_rects (lined f false) (color_of f) (fi_color it) (fi_under it) us0 gs ex) /\
    filter (rect_of true) body ++ (if fi_strike it' then [mk_rect m X Y true (ss, ex, fi_color it')] else []) =
      map (mk_rect m X Y true) (line_rects (lined f true) (color_of f) (fi_color it) (fi_strike it) ss0 gs ex).
Proof.
  induction gs as [|s gs IH]; intros g p it x us0 ss0 R A Hx F.
  - exists [], it, us0, ss0. cbn [length draw_glyphs filter app flat_map line_rects].
    split; [reflexivity|]. split; [reflexivity|].
    destruct (fi_under it), (fi_strike it); split; reflexivity.
  - inversion F as [|? ? Hc F']; subst. destruct (reads_head R) as (R1 & R2 & R3 & R4).
    cbn [length draw_glyphs]. rewrite R3, R4, R1, R2. cbn [obind].
    destruct (@advance_ok f n Hf it x (sg_char s) A Hx Hc) as (e & it1 & E1 & A1 & P1 & S1 & U1 & (k & K1 & K2) & Ee).
    rewrite E1. cbn [obind]. rewrite K1. cbn [obind].
    assert (C0 : lookup (ft_color f) x = Some (fi_color it)) by apply A.
    assert (C1 : lookup (ft_color f) (sg_char s) = Some (fi_color it1)) by apply A1.
    unfold prev_color. rewrite P1, C0. cbn [obind].
    destruct (IH (g + 1)%nat (p + 2)%nat it1 (sg_char s) (if ev_under_begin e then sg_x s else us0)
      (if ev_strike_begin e then sg_x s else ss0) (reads_tail R) A1 Hc F') as (body & it' & us & ss & Eb & B1 & B2 & B3).
    rewrite Eb. cbn [obind]. do 4 eexists. split; [reflexivity|].
    assert (Lu : lined f false (sg_char s) = fi_under it1) by (apply attr_some; exact U1).
    assert (Ls : lined f true (sg_char s) = fi_strike it1) by (apply attr_some; exact S1).
    assert (Lc : color_of f (sg_char s) = fi_color it1) by (apply attr_some; exact C1).
    assert (Lk : stroke_of f (sg_char s) = k) by (apply attr_some; exact K2).
    split; [|split].
    + rewrite !filter_app, B1. rewrite !filter_if. cbn [filter is_rect negb]. rewrite !andb_true_r, !andb_false_r. cbn [app].
      cbn [flat_map]. unfold glyph_calls. rewrite Lk, Lc. cbn [at_place pl_of pl_x pl_y]. rewrite <- app_assoc. reflexivity.
    + rewrite !filter_app, <- !app_assoc, B2. rewrite !filter_if. cbn [filter rect_of Bool.eqb app]. rewrite !andb_true_r, !andb_false_r. cbn [app].
      cbn [line_rects]. rewrite Lu, Lc, map_app. rewrite Ee. cbn [ev_under_begin ev_under_end]. f_equal.
      destruct (_ || _); reflexivity.
    + rewrite !filter_app, <- !app_assoc, B3. rewrite !filter_if. cbn [filter rect_of Bool.eqb app]. rewrite !andb_true_r, !andb_false_r. cbn [app].
      cbn [line_rects]. rewrite Ls, Lc, map_app. rewrite Ee. cbn [ev_strike_begin ev_strike_end]. f_equal.
      destruct (_ || _); reflexivity.
Qed.

(** What a run contributes. *)
Definition segment_ok (fm : Z -> metrics) (p : place) (seg : list draw_call) : Prop :=
  Forall2 draw_eq (filter (fun c => negb (is_rect c)) seg) (run_calls f p) /\
  forall strike, exists start, (start == hd 0 (run_xs (pl_of p)))%Q /\
    exists c0, Forall2 draw_eq (filter (rect_of strike) seg)
      (map (mk_rect (fm (sr_font (pl_of p))) (pl_x p) (pl_y p) strike)
        (line_rects (lined f strike) (color_of f) c0 false start (sr_glyphs (pl_of p)) (sr_end_x (pl_of p)))).

Lemma glyph_calls_eq X Y p gs : (X == pl_x p)%Q -> (Y == pl_y p)%Q ->
  Forall2 draw_eq (flat_map (glyph_calls f (at_place X Y (pl_of p))) gs) (flat_map (glyph_calls f p) gs).
Proof.
  intros HX HY. induction gs as [|s gs IH]; cbn [flat_map]; [constructor|]. apply Forall2_app; [|exact IH].
  unfold glyph_calls. cbn [at_place pl_of pl_x pl_y].
  destruct (visible _); cbn [app]; repeat constructor; cbn; repeat split; try reflexivity; rewrite ?HX, ?HY; reflexivity.
Qed.
Lemma mk_rect_eq m X Y p strike rs : (X == pl_x p)%Q -> (Y == pl_y p)%Q ->
  Forall2 draw_eq (map (mk_rect m X Y strike) rs) (map (mk_rect m (pl_x p) (pl_y p) strike) rs).
Proof.
  intros HX HY. induction rs as [|[[a b] c] rs IH]; cbn [map]; constructor; [|exact IH].
  cbn. rewrite HX, HY. repeat split; reflexivity.
Qed.

Lemma draw_runs_of fm d y : forall ps pre calls, doc_runs d = pre ++ map pl_of ps -> map pl_run ps = seq (length pre) (length ps) ->
  Forall2 run_call_ok calls ps -> Forall (fun p => run_in_text n (pl_of p)) ps ->
  exists segs, draw_runs fm (layout_of d y) (views_of f) calls (count_glyphs pre) (2 * (count_glyphs pre + length pre)) = Ok (List.concat segs) /\
    Forall2 (segment_ok fm) ps segs.
Proof.
  induction ps as [|p ps IH]; intros pre calls E Ei F T; inversion F as [|[[[i k] x] yy] ? calls' ? C F']; subst.
  - exists []. split; [reflexivity|constructor].
  - inversion T as [|? ? [T1 T2] T']; subst.
    destruct C as (-> & -> & Hx & Hy). cbn [map seq length] in E, Ei. injection Ei as Er Ei'.
    cbn [draw_runs]. destruct (@doc_run_view d y pre (pl_of p) (map pl_of ps) E) as (V & _). rewrite <- Er in V. rewrite V.
    cbn [obind vrun_of ru_glyph_end ru_font ru_rtl ru_start ru_end].
    destruct (@make_ok f n Hf _ T1) as (it & Eit & Ait & S0 & U0). rewrite Eit. cbn [obind].
    pose proof (@doc_reads d y pre (pl_of p) (map pl_of ps) E) as R.
    assert (St : exists s0, vget (lo_pos (layout_of d y)) (2 * (count_glyphs pre + length pre)) = Ok s0 /\ s0 = hd 0%Q (run_xs (pl_of p))).
    { unfold run_xs. destruct (sr_glyphs (pl_of p)) as [|s gs]; cbn [map hd app].
      - eexists. split; [|reflexivity]. destruct R as [_ R]. cbn [length] in R. rewrite Nat.mul_0_r, Nat.add_0_r in R. exact R.
      - eexists. split; [|reflexivity]. apply (reads_head R). }
    destruct St as (s0 & Es0 & Hs0). rewrite Es0. cbn [obind].
    replace (count_glyphs pre + run_len (pl_of p) - count_glyphs pre)%nat with (run_len (pl_of p)) by lia.
    destruct (@draw_glyphs_of (layout_of d y) (fm (sr_font (pl_of p))) (pl_of p) x yy (sr_end_x (pl_of p)) (sr_glyphs (pl_of p)) _ _ it _ s0 s0 R Ait T1)
      as (body & it' & us & ss & Eb & B1 & B2 & B3).
    { unfold run_chars in T2. rewrite Forall_map in T2. exact T2. }
    unfold run_len at 1. rewrite Eb. cbn [obind].
    assert (Ex : vget (lo_pos (layout_of d y)) (2 * (count_glyphs pre + length pre) + 2 * run_len (pl_of p)) = Ok (sr_end_x (pl_of p))) by apply R.
    rewrite Ex. cbn [obind].
    destruct (IH (pre ++ [pl_of p]) calls') as (segs & Eo & Fo).
    { rewrite E, <- app_assoc. reflexivity. }
    { rewrite app_length. cbn [length]. rewrite Nat.add_1_r. exact Ei'. }
    { exact F'. }
    { exact T'. }
    rewrite count_glyphs_app, count_glyphs_cons, app_length in Eo. replace (count_glyphs []) with 0%nat in Eo by reflexivity. cbn [length] in Eo.
    rewrite Nat.add_0_r in Eo.
    replace (2 * (count_glyphs pre + run_len (pl_of p) + (length pre + 1)))%nat
      with (2 * (count_glyphs pre + length pre) + 2 * run_len (pl_of p) + 2)%nat in Eo by lia.
    set (SC := if fi_strike it' then [mk_rect (fm (sr_font (pl_of p))) x yy true (ss, sr_end_x (pl_of p), fi_color it')] else []) in *.
    set (UC := if fi_under it' then [mk_rect (fm (sr_font (pl_of p))) x yy false (us, sr_end_x (pl_of p), fi_color it')] else []) in *.
    exists ((DRun (pl_line p) (pl_run p) :: body ++ SC ++ UC) :: segs). split.
    + unfold SC, UC. destruct (fi_strike it'), (fi_under it'); cbn [obind]; rewrite Eo; cbn [obind List.concat app mk_rect];
        rewrite <- !app_assoc; reflexivity.
    + constructor; [|exact Fo]. split.
      * cbn [filter is_rect negb]. rewrite !filter_app, B1.
        replace (filter (fun c => negb (is_rect c)) SC) with (@nil draw_call) by (unfold SC; destruct (fi_strike it'); reflexivity).
        replace (filter (fun c => negb (is_rect c)) UC) with (@nil draw_call) by (unfold UC; destruct (fi_under it'); reflexivity).
        cbn [app]. rewrite app_nil_r. unfold run_calls. constructor; [cbn; auto|]. apply glyph_calls_eq; assumption.
      * intros strike. exists s0. split; [rewrite Hs0; reflexivity|]. exists (fi_color it).
        cbn [filter rect_of]. rewrite !filter_app.
        destruct strike.
        { replace (filter (rect_of true) UC) with (@nil draw_call) by (unfold UC; destruct (fi_under it'); reflexivity).
          replace (filter (rect_of true) SC) with SC by (unfold SC; destruct (fi_strike it'); reflexivity).
          rewrite app_nil_r. rewrite B3, S0. apply mk_rect_eq; assumption. }
        { replace (filter (rect_of false) UC) with UC by (unfold UC; destruct (fi_under it'); reflexivity).
          replace (filter (rect_of false) SC) with (@nil draw_call) by (unfold SC; destruct (fi_strike it'); reflexivity).
          cbn [app]. rewrite B2, U0. apply mk_rect_eq; assumption. }
Qed.

Lemma draw_text_of fm d y w a : Forall (run_in_text n) (doc_runs d) ->
  exists segs, draw_text fm (layout_of d y) (views_of f) w a = Ok (List.concat segs) /\
    Forall2 (segment_ok fm) (places w a 0 0 y d) segs.
Proof.
  intros T. unfold draw_text. destruct (for_each_run_of d y w a) as (rc & E & F). rewrite E. cbn [obind].
  apply (@draw_runs_of fm d y (places w a 0 0 y d) [] rc).
  - rewrite places_of. reflexivity.
  - rewrite places_idx. cbn [length]. rewrite <- (places_of w a d 0 0 y) at 1. rewrite map_length. reflexivity.
  - exact F.
  - rewrite <- (places_of w a d 0 0 y) in T. rewrite Forall_map in T. exact T.
Qed.

(** The lines of a segment, when none begins where the colour changes. *)
Lemma segment_lines fm p seg strike : segment_ok fm p seg -> steady_run f strike (pl_of p) ->
  lines_drawn f (fm (sr_font (pl_of p))) p strike seg.
Proof.
  intros (_ & H) St. destruct (H strike) as (start & Hs & c0 & F). set (r := pl_of p) in *.
  assert (Es : (start == xs (sr_glyphs r) (sr_end_x r) 0)%Q).
  { rewrite Hs. unfold xs, run_xs. destruct (map sg_x (sr_glyphs r)); reflexivity. }
  destruct (@line_rects_spans (lined f strike) (color_of f) (sr_glyphs r) (sr_end_x r) (sr_glyphs r) 0 0 c0 false) as (spans & S1 & S2 & S3 & S4);
    try reflexivity; try lia; try discriminate.
  { intros j H1 H2 _. apply St. exact H2. }
  exists spans. split; [exact S1|]. split; [|split].
  - intros k Hk. apply S2. split; [apply Nat.le_0_l|exact Hk].
  - exact S3.
  - assert (Q0 : forall rest c was s1 s2, (s1 == s2)%Q ->
      Forall2 (fun a b => (fst (fst a) == fst (fst b))%Q /\ snd (fst a) = snd (fst b) /\ snd a = snd b)
        (line_rects (lined f strike) (color_of f) c was s1 rest (sr_end_x r)) (line_rects (lined f strike) (color_of f) c was s2 rest (sr_end_x r))).
    { induction rest as [|g rest IH]; intros c was s1 s2 Hq; cbn [line_rects].
      - destruct was; repeat constructor; assumption.
      - apply Forall2_app.
        + destruct (_ || _); repeat constructor; assumption.
        + apply IH. destruct (_ && _); [reflexivity|assumption]. }
    specialize (Q0 (sr_glyphs r) c0 false start (xs (sr_glyphs r) (sr_end_x r) 0) Es).
    remember (line_rects _ _ c0 false start _ _) as L1. remember (line_rects _ _ c0 false (xs _ _ 0) _ _) as L2. clear HeqL1 HeqL2.
    remember (filter (rect_of strike) seg) as L0. clear HeqL0. clear - F S4 Q0.
    revert L0 L1 F Q0. induction S4 as [|[i j] [[a b] c] spans L2 Hr S4 IH]; intros L0 L1 F Q0.
    + inversion Q0; subst. inversion F; subst. constructor.
    + inversion Q0 as [|[[a1 b1] c1] ? L1' ? (Q1 & Q2 & Q3) Q0']; subst. cbn [fst snd] in Q1, Q2, Q3. subst b1 c1.
      inversion F as [|c' ? L0' ? Hd F']; subst. constructor; [|apply (IH L0' L1'); assumption].
      destruct Hr as (R1 & R2 & R3). cbn [fst snd] in R1, R2, R3 |- *. exists c. split; [|exact R3].
      subst a b. unfold rect_at. destruct c'; cbn in Hd |- *; try contradiction.
      destruct Hd as (D1 & D2 & D3 & D4 & D5 & D6). fold r. unfold xs in *. unfold run_xs.
      repeat split; try assumption; [rewrite D2, Q1|rewrite D4, Q1]; reflexivity.
Qed.
End Formatted.
