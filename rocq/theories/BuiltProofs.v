(** Lines of built layouts: runs are well formed, positions go right, carets stop at glyphs. *)
From Coq Require Import Permutation Sorted ZifyBool ZifyNat Lqa.
From Verif Require Import Base BaseFacts LayoutModel LayoutSpec LayoutProofs.
From Verif Require Import BuilderModel BuilderSpec BuilderVisualProofs BuilderBreakProofs BuilderTileProofs BuilderShapeProofs BuilderDocProofs BuilderLineProofs BuiltSpec.
Open Scope Z_scope.

(** ** Lists *)
Lemma nondecreasing_tail a l : nondecreasing (a :: l) -> Forall (fun b => a <= b) l /\ nondecreasing l.
Proof.
  revert a. induction l as [|b l IH]; intros a N; [split; [constructor|exact I]|]. cbn [nondecreasing] in N. destruct N as [L N].
  split; [|exact N]. constructor; [exact L|]. eapply Forall_impl; [|exact (proj1 (IH b N))]. cbn. lia.
Qed.
Lemma nondecreasing_intro a l : Forall (fun b => a <= b) l -> nondecreasing l -> nondecreasing (a :: l).
Proof. destruct l as [|b l]; intros F N; [exact I|]. inversion F; subst. split; assumption. Qed.
Lemma increasing_intro a l : Forall (fun b => a < b) l -> increasing l -> increasing (a :: l).
Proof. destruct l as [|b l]; intros F N; [exact I|]. inversion F; subst. split; assumption. Qed.
Lemma filter_nondecreasing {A} (f : A -> Z) (t : A -> bool) l : nondecreasing (map f l) -> nondecreasing (map f (filter t l)).
Proof.
  induction l as [|x l IH]; intros N; [exact I|]. cbn [map] in N. destruct (nondecreasing_tail _ _ N) as [F N2]. cbn [filter]. destruct (t x); [|auto].
  cbn [map]. apply nondecreasing_intro; [|auto]. rewrite Forall_map in *. rewrite Forall_forall in *. intros y I. apply filter_In in I. apply F. tauto.
Qed.
Lemma filter_increasing {A} (f : A -> Z) (t : A -> bool) l : increasing (map f l) -> increasing (map f (filter t l)).
Proof.
  induction l as [|x l IH]; intros N; [exact I|]. cbn [map] in N. destruct (increasing_cons _ _ N) as [F N2]. cbn [filter]. destruct (t x); [|auto].
  cbn [map]. apply increasing_intro; [|auto]. rewrite Forall_map in *. rewrite Forall_forall in *. intros y I. apply filter_In in I. apply F. tauto.
Qed.

(** ** Where runs begin *)
Lemma consecutive_next : forall rs a b s n level, consecutive a b rs -> In (s, n, level) rs ->
  s + n = b \/ exists n' level', In (s + n, n', level') rs.
Proof.
  induction rs as [|[[s0 n0] l0] rs IH]; intros a b s n level C I; [destruct I|]. cbn [consecutive] in C. destruct C as (-> & P & C).
  destruct I as [E|I].
  - inversion E; subst. destruct rs as [|[[s1 n1] l1] rs]; [cbn in C; left; exact C|]. cbn [consecutive] in C. destruct C as (-> & _). right. exists n1, l1. right. left. reflexivity.
  - destruct (IH _ _ _ _ _ C I) as [E|(n' & l' & J)]; [left; exact E|right; exists n', l'; right; exact J].
Qed.
Lemma bidi_next a b rs s n level : bidi_partition a b rs -> In (s, n, level) rs -> s + n = b \/ exists n' level', In (s + n, n', level') rs.
Proof.
  intros (rs' & P & C) I. apply (Permutation_in _ (Permutation_sym P)) in I. destruct (consecutive_next _ _ _ _ _ _ C I) as [E|(n' & l' & J)]; [left; exact E|right].
  exists n', l'. exact (Permutation_in _ P J).
Qed.
Lemma merge_from_ends_in : forall ss f a x, In x (map snd (merge_from f a ss)) -> x = a \/ In x (map se_end ss).
Proof.
  induction ss as [|s ss IH]; intros f a x I; cbn [merge_from] in I; [destruct I as [<-|[]]; left; reflexivity|].
  destruct (same_font f (se_font s)).
  - destruct (IH _ _ _ I) as [->|J]; right; [left; reflexivity|right; exact J].
  - destruct I as [<-|I]; [left; reflexivity|]. destruct (IH _ _ _ I) as [->|J]; right; [left; reflexivity|right; exact J].
Qed.
Lemma merged_ends_in ss x : In x (map snd (merged ss)) -> In x (map se_end ss).
Proof. destruct ss as [|s ss]; intros I; [destruct I|]. cbn [merged] in I. destruct (merge_from_ends_in _ _ _ _ I) as [->|J]; [left; reflexivity|right; exact J]. Qed.
Lemma tile_next : forall ss a b x, segments_tile a b ss -> In x (map se_end ss) -> x = b \/ In x (map se_start ss).
Proof.
  unfold segments_tile. induction ss as [|s ss IH]; intros a b x C I; [destruct I|]. cbn [map chain] in C. destruct C as (_ & _ & C).
  destruct I as [<-|I].
  - destruct ss as [|s2 ss]; [left; exact C|]. cbn [map chain] in C. destruct C as (<- & _). right. right. left. reflexivity.
  - destruct (IH _ _ _ C I) as [->|J]; [left; reflexivity|right; right; exact J].
Qed.
Lemma tile_nonempty ss a b : segments_tile a b ss -> Forall (fun s => se_start s < se_end s) ss.
Proof.
  unfold segments_tile. revert a. induction ss as [|s ss IH]; intros a C; constructor; cbn [map chain] in C; destruct C as (_ & L & C); [exact L|exact (IH _ C)].
Qed.

Lemma nth_error_ext' {A} : forall l m : list A, (forall k, nth_error l k = nth_error m k) -> l = m.
Proof.
  induction l as [|x l IH]; intros [|y m] H; [reflexivity|specialize (H O); discriminate|specialize (H O); discriminate|].
  pose proof (H O) as H0. cbn in H0. inversion H0; subst. f_equal. apply IH. intros k. exact (H (S k)).
Qed.

Section Built.
Variables (e : engine) (text : list Z) (vertical : bool) (opp : Z -> Z -> Prop) (so : sources) (tabWidth : Z) (pixels : bool) (area count : Z).
Hypothesis EO : engine_ok e opp count.
Hypothesis WC : whole_clusters e text vertical opp so count.
Notation shown := (shown_line e text vertical opp so tabWidth pixels area count).
Notation at_glyph := (glyph_at e text vertical).

Lemma segment_start_glyph ss ps pe x : segments_tile ps pe ss -> In x (map se_start ss) -> at_glyph ss x.
Proof.
  intros T I. pose proof (tile_nonempty _ _ _ T) as NE. unfold glyph_at, shaped_para. cbn [para_of pa_glyphs]. clear T. generalize 0 at 1. intros c. revert c.
  induction ss as [|s ss IH]; intros c; [destruct I|]. inversion NE; subst. cbn [segments_glyphs]. rewrite map_app, in_app_iff. destruct I as [<-|I]; [left|right; apply IH; assumption].
  unfold segment_glyphs. assert (H : In (se_start s) (map lg_char (shaped_glyphs (en_info e) text vertical (se_font s) (se_start s) c (hb_of (en_shape e) s)))).
  { rewrite sglyphs_chars. pose proof (proj1 WC (se_font s) (se_script s) (Z.odd (se_level s)) (se_start s) (se_end s - se_start s) ltac:(lia)) as G.
    fold (hb_of (en_shape e) s) in G. apply in_map_iff in G. destruct G as (g & G0 & G). apply in_map_iff. exists g. split; [lia|exact G]. }
  destruct (Z.odd (se_level s)); [rewrite map_rev; apply -> in_rev|]; exact H.
Qed.
Lemma para_start_glyph ss ps pe : segments_tile ps pe ss -> ps < pe -> at_glyph ss ps.
Proof.
  intros T L. apply (segment_start_glyph ss ps pe); [exact T|]. destruct ss as [|s ss]; unfold segments_tile in T; cbn in T; [lia|]. destruct T as (<- & _). left. reflexivity.
Qed.

(** The facts about one line that shows text. *)
Section Line.
Variables (ps pe : Z) (ss : list segment) (ws : list Z) (ls le : Z) (s : sline).
Let p0 := shaped_para e text vertical ss.
Let p := with_widths p0 ws.
Hypothesis CU : cut_up e so count ps pe ss.
Hypothesis LW : length ws = length (pa_glyphs p0).
Hypothesis LS : ps <= ls < le.
Hypothesis LE : le <= pe.
Hypothesis LG : line_glyphs (en_code e) ps p (en_runs e ps ls (le - ls)) ls le s.
Hypothesis CL : cut_at opp ps pe p0 ls.
Hypothesis CE : cut_at opp ps pe p0 le.
Hypothesis OF : Forall (fun r => 0 <= sr_offset r) (sl_runs s).
Hypothesis OK : para_ok ps pe p0.
Let IP : is_para e count ps pe := proj1 CU.

Lemma cut_glyph c : cut_at opp ps pe p0 c -> ps <= c <= pe -> at_glyph ss c \/ c = pe.
Proof.
  intros C B. pose proof CU as (_ & T & _). destruct C as [->|[->|[C|C]]]; [left; apply (para_start_glyph ss ps pe T); lia|right; reflexivity| |left; exact C].
  destruct (Z.eq_dec c pe) as [->|D]; [right; reflexivity|left]. apply (proj1 (proj2 WC ps pe ss CU)); [exact C|lia].
Qed.
Lemma run_range r : In r (sl_runs s) -> ls <= sr_start r /\ sr_start r < sr_end r /\ sr_end r <= le.
Proof.
  intros I. destruct LG as ((l & P & C) & _). eapply chain_in; [exact C|]. apply (Permutation_in _ (Permutation_sym P)).
  apply in_map_iff. exists r. split; [reflexivity|exact I].
Qed.
Lemma bidi_glyph a n level : In (a, n, level) (en_runs e ps ls (le - ls)) -> at_glyph ss a.
Proof.
  intros I. destruct (cut_glyph ls CL ltac:(lia)) as [G|G]; [|lia].
  apply (proj2 (proj2 WC ps pe ss CU) ls le a n level); [exact G|lia| |exact I]. apply cut_glyph; [exact CE|lia].
Qed.
Lemma run_ends_in r : In r (sl_runs s) -> at_glyph ss (sr_start r) /\ (at_glyph ss (sr_end r) \/ sr_end r = pe).
Proof.
  intros I. destruct LG as (_ & _ & _ & F). pose proof (proj1 (Forall_forall _ _) F r I) as (_ & a & n & level & pre & f & en & post & IB & _ & PR & _ & S & E).
  destruct (run_range r I) as (R1 & R2 & R3). pose proof CU as (_ & T & _).
  cbn [p p0 with_widths pa_runs shaped_para para_of] in PR.
  assert (FE : forall x, In x (map snd (merged ss)) -> at_glyph ss x \/ x = pe).
  { intros x X. destruct (tile_next _ _ _ _ T (merged_ends_in _ _ X)) as [->|J]; [right; reflexivity|left]. exact (segment_start_glyph _ _ _ _ T J). }
  split.
  - rewrite S. destruct (Z.max_spec a (last (map snd pre) ps)) as [[L ->]|[L ->]]; [|exact (bidi_glyph _ _ _ IB)].
    destruct pre as [|z pre] using rev_ind; [apply (para_start_glyph ss ps pe T); lia|]. rewrite last_map_snoc in *.
    destruct (FE (snd z)) as [G|G]; [|exact G|].
    + rewrite PR, !map_app, !in_app_iff. left. right. left. reflexivity.
    + exfalso. lia.
  - rewrite E. destruct (Z.min_spec (a + n) en) as [[L ->]|[L ->]].
    + destruct EO as (_ & _ & _ & C). destruct (C ps pe IP) as (C1 & _).
      destruct (bidi_next _ _ _ _ _ _ (C1 ls le ltac:(lia) ltac:(lia) ltac:(lia)) IB) as [->|(n' & l' & J)]; [apply cut_glyph; [exact CE|lia]|left; exact (bidi_glyph _ _ _ J)].
    + apply FE. rewrite PR, map_app, in_app_iff. right. left. reflexivity.
Qed.

Lemma p_chars : map lg_char (pa_glyphs p) = map lg_char (pa_glyphs p0).
Proof. cbn [p with_widths pa_glyphs]. apply set_widths_chars. exact LW. Qed.
Lemma run_logical r : In r (sl_runs s) -> logical_chars r = map lg_char (glyphs_in p (sr_start r) (sr_end r)).
Proof.
  intros I. destruct LG as (_ & _ & _ & F). pose proof (proj1 (Forall_forall _ _) F r I) as (K & _). cbv zeta in K.
  assert (RC : run_chars r = map lg_char (if sr_rtl r then rev (glyphs_in p (sr_start r) (sr_end r)) else glyphs_in p (sr_start r) (sr_end r))).
  { unfold run_chars. apply (f_equal (map snd)) in K. unfold stored_keys, keys in K. rewrite !map_map in K. exact K. }
  unfold logical_chars. rewrite RC. destruct (sr_rtl r); [rewrite <- map_rev, rev_involutive|]; reflexivity.
Qed.
Lemma in_run_chars r c : In c (run_chars r) <-> In c (logical_chars r).
Proof. unfold logical_chars. destruct (sr_rtl r); [apply in_rev|reflexivity]. Qed.

Lemma run_is_ok r : count < 2 ^ 31 -> In r (sl_runs s) -> run_ok r.
Proof.
  intros CB I. destruct (run_range r I) as (R1 & R2 & R3). destruct (run_ends_in r I) as [GS _].
  pose proof (run_logical r I) as RL. destruct (para_pe EO IP) as [PB PE].
  assert (N : nondecreasing (logical_chars r)). { rewrite RL. apply filter_nondecreasing. rewrite p_chars. apply OK. }
  assert (B : Forall (fun c => sr_start r <= c < sr_end r) (logical_chars r)).
  { rewrite RL. apply Forall_map, Forall_forall. intros g G. apply filter_In in G. lia. }
  assert (IN : In (sr_start r) (logical_chars r)).
  { rewrite RL. unfold glyph_at in GS. fold p0 in GS. rewrite <- p_chars in GS. apply in_map_iff in GS. destruct GS as (g & G1 & G2). apply in_map_iff. exists g. split; [exact G1|].
    apply filter_In. split; [exact G2|lia]. }
  split; [lia|]. split; [lia|]. split; [exact (proj1 (Forall_forall _ _) OF r I)|]. split.
  - apply Forall_forall. intros c C. apply in_run_chars in C. exact (proj1 (Forall_forall _ _) B c C).
  - destruct (logical_chars r) as [|c cs]; [destruct IN|]. split; [|exact N]. destruct (nondecreasing_tail _ _ N) as [F _].
    inversion B; subst. destruct IN as [E|J]; [exact E|]. rewrite Forall_forall in F. specialize (F _ J). lia.
Qed.
Lemma run_single r : In r (sl_runs s) -> increasing (map lg_char (pa_glyphs p0)) -> increasing (logical_chars r).
Proof. intros I S. rewrite (run_logical r I). apply filter_increasing. rewrite p_chars. exact S. Qed.
Lemma run_stops B r : stops_at_glyphs e text vertical so count B -> In r (sl_runs s) -> begins_at_stops B r.
Proof.
  intros (_ & S2 & S3) I. destruct (run_ends_in r I) as [_ GE]. split.
  - apply Forall_forall. intros c C. apply in_run_chars in C. rewrite (run_logical r I) in C. apply (S3 ps pe ss c CU). unfold glyph_at. fold p0. rewrite <- p_chars.
    apply in_map_iff in C. destruct C as (g & <- & G). apply in_map. apply filter_In in G. tauto.
  - destruct GE as [G| ->]; [exact (S3 ps pe ss _ CU G)|exact (S2 ps pe IP)].
Qed.

(** ** Positions *)
Hypothesis V : vertical = false.
Hypothesis LP : line_positions vertical p (en_runs e ps ls (le - ls)) ls le s.
Let vo := visual_order p (en_runs e ps ls (le - ls)).
Definition pen (k : nat) : Q := fixed (total (firstn k vo)).

Lemma vo_length : length vo = count_glyphs (sl_runs s).
Proof. destruct LG as (_ & K & _). apply (f_equal (@length _)) in K. unfold stored_keys, keys in K. rewrite !map_length in K. symmetry. exact K. Qed.
Lemma glyph_pen k q : nth_error (flat_map sr_glyphs (sl_runs s)) k = Some q -> sg_x q = pen k.
Proof.
  intros N. assert (L : (k < length vo)%nat) by (rewrite vo_length; apply nth_error_Some; congruence).
  destruct (nth_error vo k) as [g|] eqn:E; [|apply nth_error_None in E; lia].
  destruct (nth_error_split _ _ E) as (g1 & g2 & W & LN). destruct LP as (L1 & _). destruct (L1 g1 g g2 W) as (q' & Q1 & Q2 & _). replace (if vertical then sg_y q' else sg_x q') with (sg_x q') in Q2 by (rewrite V; reflexivity).
  rewrite LN, N in Q1. inversion Q1; subst q'. rewrite Q2. unfold pen. rewrite W, <- LN, firstn_app, Nat.sub_diag, firstn_all, firstn_O, app_nil_r. reflexivity.
Qed.
Lemma run_xs_pen rs1 r rs2 : sl_runs s = rs1 ++ r :: rs2 -> run_xs r = map pen (seq (count_glyphs rs1) (S (run_len r))).
Proof.
  intros E. unfold run_xs. assert (S : seq (count_glyphs rs1) (S (run_len r)) = seq (count_glyphs rs1) (run_len r) ++ [(count_glyphs rs1 + run_len r)%nat]) by apply seq_S.
  rewrite S, map_app. f_equal.
  - apply nth_error_ext'. intros k. rewrite !nth_error_map. destruct (nth_error (sr_glyphs r) k) as [q|] eqn:N.
    + assert (L : (k < run_len r)%nat) by (apply nth_error_Some; congruence).
      rewrite (nth_error_nth' _ O) by (rewrite seq_length; exact L). rewrite List.seq_nth by exact L. cbn [option_map]. f_equal. apply glyph_pen.
      rewrite E, flat_map_app, nth_error_app2 by (unfold count_glyphs; lia). cbn [flat_map]. unfold count_glyphs. rewrite nth_error_app1 by (unfold run_len in L; lia).
      replace (length (flat_map sr_glyphs rs1) + k - length (flat_map sr_glyphs rs1))%nat with k by lia. exact N.
    + apply nth_error_None in N. replace (nth_error (seq (count_glyphs rs1) (run_len r)) k) with (@None nat); [reflexivity|]. symmetry. apply nth_error_None. rewrite seq_length. exact N.
  - cbn [map]. f_equal. destruct LP as (_ & L2 & _). specialize (L2 rs1 r rs2 E). replace (if vertical then sr_end_y r else sr_end_x r) with (sr_end_x r) in L2 by (rewrite V; reflexivity). rewrite L2. unfold pen, vo. rewrite count_glyphs_app, count_glyphs_cons. unfold count_glyphs at 2. cbn [flat_map length]. do 3 f_equal. lia.
Qed.
Lemma pen_mono k : rightward p -> (pen k <= pen (S k))%Q.
Proof.
  intros RW. unfold pen. assert (F : Forall (fun g => 0 <= lg_width g) vo).
  { apply Forall_forall. intros g G. destruct LG as (_ & _ & P & _). apply (Permutation_in _ P) in G. apply filter_In in G. exact (proj1 (Forall_forall _ _) RW g (proj1 G)). }
  assert (L : total (firstn k vo) <= total (firstn (S k) vo)).
  { clear -F. revert k. induction vo as [|g l IH]; intros k; [destruct k; cbn; lia|]. inversion F; subst. cbn [firstn total fold_right]. destruct k as [|k]; [cbn; lia|].
    specialize (IH H2 k). cbn [firstn total fold_right] in *. unfold total in IH. lia. }
  unfold fixed, Qle. cbn [Qnum Qden]. nia.
Qed.
Lemma pens_forward k n : rightward p -> qnondecreasing (map pen (seq k n)).
Proof.
  intros RW. revert k. induction n as [|n IH]; intros k; [exact I|]. specialize (IH (S k)). destruct n as [|n]; [exact I|]. cbn [seq map] in *.
  split; [apply pen_mono; exact RW|exact IH].
Qed.
Lemma run_forward r : rightward p -> In r (sl_runs s) -> qnondecreasing (run_xs r).
Proof. intros RW I. destruct (in_split _ _ I) as (rs1 & rs2 & E). rewrite (run_xs_pen _ _ _ E). apply pens_forward. exact RW. Qed.
Lemma runs_adjacent : adjacent (sl_runs s).
Proof.
  assert (G : forall rs2 rs1, sl_runs s = rs1 ++ rs2 -> adjacent rs2).
  { induction rs2 as [|r rs2 IH]; intros rs1 E; [exact I|]. destruct rs2 as [|q rs2]; [exact I|].
    assert (E2 : sl_runs s = (rs1 ++ [r]) ++ q :: rs2) by (rewrite <- app_assoc; exact E). split; [|exact (IH _ E2)].
    unfold run_first_x. rewrite (run_xs_pen _ _ _ E2). cbn [seq map hd]. destruct LP as (_ & L2 & _). specialize (L2 _ _ _ E). replace (if vertical then sr_end_y r else sr_end_x r) with (sr_end_x r) in L2 by (rewrite V; reflexivity). rewrite L2. reflexivity. }
  exact (G _ [] eq_refl).
Qed.
End Line.

(** ** Lines of the text *)
Hypothesis CB : 0 <= count < 2 ^ 31.

Lemma no_tabs_width p ws : ~ In 9 text -> same_but_tabs text p ws -> with_widths p ws = p.
Proof.
  intros NT (L & S). rewrite <- (with_widths_same p) at 2. f_equal. apply nth_error_ext'. intros k. rewrite nth_error_map.
  destruct (nth_error (pa_glyphs p) k) as [g|] eqn:G.
  - rewrite (S k g G); [reflexivity|]. intros T. apply NT. unfold zget in T. destruct (_ <? 0); [discriminate|]. unfold vget in T.
    destruct (nth_error text (Z.to_nat (lg_char g))) eqn:N; inversion T; subst. exact (nth_error_In _ _ N).
  - cbn. apply nth_error_None. apply nth_error_None in G. lia.
Qed.

Lemma blank_run f pos sep : exists r, sl_runs (blank e f pos sep) = [r] /\ sr_glyphs r = [] /\ sr_start r = pos /\ sr_end r = pos /\ sr_offset r = sep /\ sr_rtl r = false.
Proof. eexists. split; [reflexivity|]. cbn. auto. Qed.

Lemma shown_ok s : shown s -> Forall run_ok (sl_runs s).
Proof.
  intros [(f & pos & sep & -> & P & SP)|H].
  - destruct (blank_run f pos sep) as (r & -> & R1 & R2 & R3 & R4 & R5). pose proof (start_bounds EO P). constructor; [|constructor]. unfold run_ok, logical_chars, run_chars.
    rewrite R1, R2, R3, R4, R5. cbn -[Z.pow]. repeat split; try lia. constructor.
  - destruct H as (ps & pe & ss & ws0 & ws & ls & le & IP & T & SOK & SB & L1 & L2 & SB0 & A0 & GL & LG & LP & LZ & CL & CE & RW & OF & INC & OK).
    apply Forall_forall. intros r I. eapply (run_is_ok ps pe ss ws ls le s (conj IP (conj T SOK)) (proj1 SB)); eauto. lia.
Qed.
Lemma shown_stops B s : stops_at_glyphs e text vertical so count B -> shown s -> Forall (begins_at_stops B) (sl_runs s).
Proof.
  intros SG [(f & pos & sep & -> & P & SP)|H].
  - destruct (blank_run f pos sep) as (r & -> & R1 & R2 & R3 & R4 & R5). constructor; [|constructor]. unfold begins_at_stops, run_chars. rewrite R1, R3. split; [constructor|]. apply SG. exact P.
  - destruct H as (ps & pe & ss & ws0 & ws & ls & le & IP & T & SOK & SB & L1 & L2 & SB0 & A0 & GL & LG & LP & LZ & CL & CE & RW & OF & INC & OK).
    apply Forall_forall. intros r I. eapply (run_stops ps pe ss ws ls le s (conj IP (conj T SOK)) (proj1 SB)); eauto.
Qed.
Lemma shown_single s : single_glyphs e text vertical so count -> shown s -> Forall (fun r => increasing (logical_chars r)) (sl_runs s).
Proof.
  intros SG [(f & pos & sep & -> & P & SP)|H].
  - destruct (blank_run f pos sep) as (r & -> & R1 & R2 & R3 & R4 & R5). constructor; [|constructor]. unfold logical_chars, run_chars. rewrite R1, R5. exact I.
  - destruct H as (ps & pe & ss & ws0 & ws & ls & le & IP & T & SOK & SB & L1 & L2 & SB0 & A0 & GL & LG & LP & LZ & CL & CE & RW & OF & INC & OK).
    apply Forall_forall. intros r I. apply (run_single ps ss ws ls le s (proj1 SB) LG r I). apply (SG ps pe ss). exact (conj IP (conj T SOK)).
Qed.
Lemma shown_adjacent s : vertical = false -> shown s -> adjacent (sl_runs s).
Proof.
  intros V [(f & pos & sep & -> & P & SP)|H].
  - destruct (blank_run f pos sep) as (r & -> & _). exact I.
  - destruct H as (ps & pe & ss & ws0 & ws & ls & le & IP & T & SOK & SB & L1 & L2 & SB0 & A0 & GL & LG & LP & LZ & CL & CE & RW & OF & INC & OK).
    exact (runs_adjacent ps ss ws ls le s (proj1 SB) LG V LP).
Qed.
Lemma shown_forward s : vertical = false -> pen_forward e text vertical so count tabWidth pixels -> shown s -> Forall (fun r => qnondecreasing (run_xs r)) (sl_runs s).
Proof.
  intros V (PF & TB) [(f & pos & sep & -> & P & SP)|H].
  - destruct (blank_run f pos sep) as (r & -> & R1 & _). constructor; [|constructor]. unfold run_xs. rewrite R1. exact I.
  - destruct H as (ps & pe & ss & ws0 & ws & ls & le & IP & T & SOK & SB & L1 & L2 & SB0 & A0 & GL & LG & LP & LZ & CL & CE & RW & OF & INC & OK).
    specialize (PF ps pe ss (conj IP (conj T SOK))). fold (shaped_para e text vertical ss) in *.
    assert (RP : rightward (with_widths (shaped_para e text vertical ss) ws)).
    { destruct TB as [NT|[-> TW]]; [rewrite (no_tabs_width _ _ NT SB); exact PF|]. apply RW; auto. }
    apply Forall_forall. intros r I. exact (run_forward ps ss ws ls le s (proj1 SB) LG V LP r RP I).
Qed.
Lemma shown_height s : (forall f, fo_descent (en_base_info e f) <= fo_ascent (en_base_info e f))%Q -> shown s -> (0 <= sl_height s)%Q.
Proof.
  intros HB [(f & pos & sep & -> & P & SP)|H].
  - cbn. specialize (HB f). lra.
  - destruct H as (ps & pe & ss & ws0 & ws & ls & le & IP & T & SOK & SB & L1 & L2 & SB0 & A0 & GL & LG & LP & (fs & d & _ & (LA & _) & (LB & _) & ->) & _). lra.
Qed.
Lemma shown_range s r : shown s -> In r (sl_runs s) -> 0 <= sr_start r /\ sr_end r <= count /\
  (sr_start r < sr_end r -> exists ps pe, is_para e count ps pe /\ ps <= sr_start r /\ sr_end r <= pe).
Proof.
  intros [(f & pos & sep & -> & P & SP)|H] I.
  - destruct (blank_run f pos sep) as (r' & E & R1 & R2 & R3 & R4 & R5). rewrite E in I. destruct I as [<-|[]]. pose proof (start_bounds EO P) as SB0. split; [lia|].
    split; [lia|lia].
  - destruct H as (ps & pe & ss & ws0 & ws & ls & le & IP & T & SOK & SB & L1 & L2 & SB0 & A0 & GL & LG & _).
    destruct (run_range ps ss ws ls le s LG r I) as (R1 & R2 & R3). destruct (para_pe EO IP). split; [lia|]. split; [lia|]. intros _. exists ps, pe. split; [exact IP|lia].
Qed.

(** Runs of a line are apart. *)
Lemma chain_apart : forall l a b x y, chain a b l -> In x l -> In y l -> x = y \/ snd x <= fst y \/ snd y <= fst x.
Proof.
  induction l as [|[s z] l IH]; intros a b x y C X Y; [destruct X|]. cbn in C. destruct C as (-> & L & C).
  destruct X as [<-|X], Y as [<-|Y]; [left; reflexivity| | |exact (IH _ _ _ _ C X Y)].
  - destruct y as [u v]. destruct (chain_in _ _ _ _ _ C Y). right; left. cbn. lia.
  - destruct x as [u v]. destruct (chain_in _ _ _ _ _ C X). right; right. cbn. lia.
Qed.
Lemma covers_apart a b s r q : covers a b s -> Forall (fun r => 0 <= sr_offset r) (sl_runs s) -> In r (sl_runs s) -> In q (sl_runs s) ->
  r = q \/ sr_end r <= sr_start q \/ sr_end q <= sr_start r.
Proof.
  intros (l & P & C) OF R Q. rewrite Forall_forall in OF. pose proof (OF _ R). pose proof (OF _ Q).
  assert (ND : NoDup (map (fun r => (sr_start r, sr_end r + sr_offset r)) (sl_runs s))).
  { apply (Permutation_NoDup P). apply (NoDup_map_inv snd). exact (chain_ends_nodup _ _ _ C). }
  destruct (chain_apart l a b (sr_start r, sr_end r + sr_offset r) (sr_start q, sr_end q + sr_offset q) C) as [D|[D|D]];
    try (apply (Permutation_in _ (Permutation_sym P)); apply (in_map (fun r => (sr_start r, sr_end r + sr_offset r))); assumption); cbn [fst snd] in D; [left|lia|lia].
  revert ND R Q D. generalize (sl_runs s). intros rs. induction rs as [|z rs IH]; intros ND R Q D; [destruct R|]. cbn in ND. inversion ND as [|? ? N ND']; subst.
  destruct R as [<-|R], Q as [<-|Q]; [reflexivity| | |auto]; exfalso; apply N; apply in_map_iff; [exists q|exists r]; auto.
Qed.
Lemma shown_offsets s : shown s -> Forall (fun r => 0 <= sr_offset r) (sl_runs s).
Proof.
  intros [(f & pos & sep & -> & P & SP)|H].
  - destruct (blank_run f pos sep) as (r & -> & _ & _ & _ & R4 & _). constructor; [lia|constructor].
  - destruct H as (ps & pe & ss & ws0 & ws & ls & le & IP & T & SOK & SB & L1 & L2 & SB0 & A0 & GL & LG & LP & LZ & CL & CE & RW & OF & _). exact OF.
Qed.
Lemma shown_filled s r : shown s -> In r (sl_runs s) -> sr_start r < sr_end r \/ sl_runs s = [r].
Proof.
  intros [(f & pos & sep & -> & P & SP)|H] I.
  - destruct (blank_run f pos sep) as (r' & E & _). rewrite E in *. destruct I as [<-|[]]. right. reflexivity.
  - destruct H as (ps & pe & ss & ws0 & ws & ls & le & IP & T & SOK & SB & L1 & L2 & SB0 & A0 & GL & LG & _). left.
    destruct (run_range ps ss ws ls le s LG r I) as (R1 & R2 & R3). lia.
Qed.
Lemma doc_apart doc : text_lines e text vertical opp so tabWidth pixels area count 0 doc ->
  Forall (fun s => forall r q, In r (sl_runs s) -> In q (sl_runs s) -> r = q \/ sr_end r <= sr_start q \/ sr_end q <= sr_start r) doc.
Proof.
  intros TL. destruct (@text_tiled e text vertical opp so tabWidth pixels area count EO 0 doc TL) as (body & extra & ranges & E & C & F & _ & X); [constructor|lia|].
  pose proof (@text_shown e text vertical opp so tabWidth pixels area count EO 0 doc TL ltac:(constructor)) as SH. rewrite E in *. apply Forall_app in SH. destruct SH as [SH SX]. apply Forall_app. split.
  - clear -F SH. induction F as [|[a b] s ranges body CV F IH]; [constructor|]. inversion SH; subst. constructor; [|auto]. intros r q. apply (covers_apart a b); [exact CV|]. apply shown_offsets. assumption.
  - destruct (Z.eq_dec 0 count) as [Z0|Z0].
    + inversion TL as [HH N|]; subst; [|lia]. destruct body; destruct extra; try discriminate. constructor.
    + destruct X as [(last & f & _ & _ & _ & _ & _ & ->)|[-> _]]; [lia| |constructor]. constructor; [|constructor]. intros r q R Q. destruct (blank_run f count 0) as (r' & E' & _). rewrite E' in *.
      destruct R as [<-|[]], Q as [<-|[]]. left. reflexivity.
Qed.

(** ** Documents of left-to-right text *)
Hypothesis LR : left_to_right e count.
Definition span (r : srun) : Z * Z := (sr_start r, sr_end r + sr_offset r).

Lemma shown_ltr s : shown s -> Forall (fun r => sr_rtl r = false) (sl_runs s) /\ increasing (map sr_start (sl_runs s)).
Proof.
  intros [(f & pos & sep & -> & P & SP)|H].
  - destruct (blank_run f pos sep) as (r & -> & R1 & R2 & R3 & R4 & R5). split; [constructor; [exact R5|constructor]|exact I].
  - destruct H as (ps & pe & ss & ws0 & ws & ls & le & IP & T & SOK & SB & L1 & L2 & SB0 & A0 & GL & LG & LP & LZ & CL & CE & RW & OF & INC & OK).
    destruct (LR ps pe ls le IP ltac:(lia) ltac:(lia) L2) as (level & E & EV). split; [|exact (INC level E EV)].
    destruct LG as (_ & _ & _ & F). eapply Forall_impl; [|exact F]. intros r (_ & a & n & lv & pre & f & en & post & IB & RT & _). rewrite E in IB.
    destruct IB as [IB|[]]. inversion IB; subst. rewrite RT. exact EV.
Qed.
Lemma chain_sorted : forall l a b, chain a b l -> StronglySorted (fun x y => fst x < fst y) l.
Proof.
  induction l as [|[s x] l IH]; intros a b C; [constructor|]. cbn in C. destruct C as (-> & L & C). constructor; [exact (IH _ _ C)|].
  apply Forall_forall. intros [u v] I. destruct (chain_in _ _ _ _ _ C I). cbn. lia.
Qed.
Lemma increasing_sorted (l : list (Z * Z)) : increasing (map fst l) -> StronglySorted (fun x y => fst x < fst y) l.
Proof.
  induction l as [|x l IH]; intros N; [constructor|]. cbn [map] in N. destruct (increasing_cons _ _ N) as [F N2]. constructor; [auto|]. rewrite Forall_map in F. exact F.
Qed.
Lemma sorted_perm : forall l m : list (Z * Z), StronglySorted (fun x y => fst x < fst y) l -> StronglySorted (fun x y => fst x < fst y) m -> Permutation l m -> l = m.
Proof.
  induction l as [|x l IH]; intros m SL SM P; [symmetry; apply Permutation_nil; exact P|]. destruct m as [|y m]; [apply Permutation_sym, Permutation_nil in P; discriminate|].
  inversion SL as [|? ? S1 F1]; inversion SM as [|? ? S2 F2]; subst.
  assert (E : x = y).
  { assert (I1 : In x (y :: m)) by (apply (Permutation_in _ P); left; reflexivity). assert (I2 : In y (x :: l)) by (apply (Permutation_in _ (Permutation_sym P)); left; reflexivity).
    destruct I1 as [->|I1]; [reflexivity|]. destruct I2 as [->|I2]; [reflexivity|]. rewrite Forall_forall in F1, F2. specialize (F1 _ I2). specialize (F2 _ I1). lia. }
  subst y. f_equal. apply IH; auto. exact (Permutation_cons_inv P).
Qed.
Lemma covers_chain a b s : shown s -> covers a b s -> chain a b (map span (sl_runs s)).
Proof.
  intros SH (l & P & C). destruct (shown_ltr s SH) as [_ INC]. replace (map span (sl_runs s)) with l; [exact C|]. apply sorted_perm; [exact (chain_sorted _ _ _ C)| |exact P].
  apply increasing_sorted. rewrite map_map. exact INC.
Qed.
Lemma body_chain : forall ranges body a b, chain a b ranges -> Forall2 (fun r s => covers (fst r) (snd r) s) ranges body -> Forall shown body -> chain a b (map span (doc_runs body)).
Proof.
  induction ranges as [|[x y] ranges IH]; intros body a b C F SH; inversion F; subst; [exact C|]. inversion SH; subst. cbn in C. destruct C as (-> & L & C).
  unfold doc_runs. cbn [flat_map]. rewrite map_app. cbn [fst snd] in *. apply chain_app with (b := y); [apply covers_chain; assumption|]. apply IH; assumption.
Qed.
Lemma chain_nth : forall l a b i x y, chain a b l -> nth_error l i = Some x -> nth_error l (S i) = Some y -> snd x = fst y /\ fst x < snd x.
Proof.
  induction l as [|[s e0] l IH]; intros a b i x y C X Y; [destruct i; discriminate|]. cbn in C. destruct C as (-> & L & C). destruct i as [|i]; cbn in X, Y.
  - inversion X; subst. destruct l as [|[s2 e2] l]; [discriminate|]. cbn in C, Y. inversion Y; subst. cbn. lia.
  - exact (IH _ _ _ _ _ C X Y).
Qed.

Variable doc : sdoc.
Hypothesis TL : text_lines e text vertical opp so tabWidth pixels area count 0 doc.

Lemma doc_shown : Forall shown doc.
Proof. apply (@text_shown e text vertical opp so tabWidth pixels area count EO 0 doc TL). constructor. Qed.
Lemma doc_spans : exists body extra, doc = body ++ extra /\ chain 0 count (map span (doc_runs body)) /\
  ((exists last f, para_start e count last /\ last < count /\ last + fst (en_bound e last) = count /\ 0 < snd (en_bound e last) /\ extra = [blank e f count 0]) \/ extra = []).
Proof.
  destruct (@text_tiled e text vertical opp so tabWidth pixels area count EO 0 doc TL) as (body & extra & ranges & E & C & F & _ & X); [constructor|lia|].
  pose proof doc_shown as SH. rewrite E in SH. apply Forall_app in SH. destruct SH as [SH _].
  exists body, extra. split; [exact E|]. split; [exact (body_chain _ _ _ _ C F SH)|].
  destruct (Z.eq_dec 0 count) as [Z0|Z0].
  - right. inversion TL; subst; [|lia]. symmetry in H0. rename H0 into N. destruct body; destruct extra; try discriminate. reflexivity.
  - destruct X as [(last & f & P & L1 & L2 & L3 & _ & ->)|[-> _]]; [lia|left; exists last, f; auto|right; reflexivity].
Qed.
Lemma doc_spans_all : exists l, map span (doc_runs doc) = l /\ (chain 0 count l \/ exists m, l = m ++ [(count, count)] /\ chain 0 count m).
Proof.
  destruct doc_spans as (body & extra & E & C & X). eexists. split; [reflexivity|]. rewrite E, doc_runs_app, map_app.
  destruct X as [(last & f & _ & _ & _ & _ & ->)| ->]; [right|left; cbn; rewrite app_nil_r; exact C].
  eexists. split; [|exact C]. f_equal. destruct (blank_run f count 0) as (r & RE & R1 & R2 & R3 & R4 & R5). unfold doc_runs. cbn [flat_map]. rewrite RE. cbn. unfold span. repeat f_equal; lia.
Qed.
Lemma runs_next i r q : nth_error (doc_runs doc) i = Some r -> nth_error (doc_runs doc) (S i) = Some q -> sr_end r + sr_offset r = sr_start q /\ sr_start r < sr_end r + sr_offset r.
Proof.
  intros R Q. destruct doc_spans_all as (l & E & X).
  assert (R' : nth_error l i = Some (span r)) by (rewrite <- E, nth_error_map, R; reflexivity).
  assert (Q' : nth_error l (S i) = Some (span q)) by (rewrite <- E, nth_error_map, Q; reflexivity).
  destruct X as [C|(m & -> & C)]; [exact (chain_nth _ _ _ _ _ _ C R' Q')|].
  destruct (Nat.lt_ge_cases (S i) (length m)) as [L|L].
  - rewrite nth_error_app1 in R', Q' by lia. exact (chain_nth _ _ _ _ _ _ C R' Q').
  - assert (S i < length (m ++ [(count, count)]))%nat as L2 by (apply nth_error_Some; congruence). rewrite app_length in L2. cbn in L2.
    rewrite nth_error_app1 in R' by lia. rewrite nth_error_app2 in Q' by lia. replace (S i - length m)%nat with O in Q' by lia. inversion Q' as [[Q1 Q2]].
    destruct m as [|z m] using rev_ind; [cbn in *; lia|]. clear IHm. rewrite app_length in *. cbn in *. rewrite nth_error_app2 in R' by lia. replace (i - length m)%nat with O in R' by lia.
    inversion R'; subst z. assert (IS : In (span r) (m ++ [span r])) by (rewrite in_app_iff; right; left; reflexivity).
    assert (LT : chain 0 count (m ++ [span r]) -> snd (span r) = count).
    { clear. generalize 0. induction m as [|[u v] m IH]; intros a C; cbn in C; [destruct C as (_ & _ & C); exact C|]. destruct C as (_ & _ & C). exact (IH _ C). }
    specialize (LT C). destruct (span r) as [u v] eqn:SP. destruct (chain_in _ _ _ _ _ C IS) as (B1 & B2 & B3). unfold span in SP. inversion SP; subst. cbn in LT. lia.
Qed.
Lemma in_doc_runs r : In r (doc_runs doc) -> exists s, In s doc /\ shown s /\ In r (sl_runs s).
Proof. intros I. apply in_flat_map in I. destruct I as (s & S & R). exists s. split; [exact S|]. split; [exact (proj1 (Forall_forall _ _) doc_shown s S)|exact R]. Qed.
Lemma doc_ltr : Forall (fun r => sr_rtl r = false) (doc_runs doc).
Proof. apply Forall_forall. intros r I. destruct (in_doc_runs r I) as (s & _ & SH & R). exact (proj1 (Forall_forall _ _) (proj1 (shown_ltr s SH)) r R). Qed.
Lemma doc_joined : joined doc.
Proof.
  intros i r q R Q. destruct (runs_next i r q R Q) as [A B]. split; [exact A|]. split; [exact B|]. intros _ _ _.
  pose proof doc_ltr as F. rewrite Forall_forall in F. rewrite (F r), (F q); [reflexivity|exact (nth_error_In _ _ Q)|exact (nth_error_In _ _ R)].
Qed.
(** An empty line follows a separator. *)
Lemma doc_blank_after i r q : nth_error (doc_runs doc) i = Some r -> nth_error (doc_runs doc) (S i) = Some q -> sr_start q = sr_end q -> sr_offset r <> 0.
Proof.
  intros R Q EQ O0. destruct (runs_next i r q R Q) as [A B].
  destruct (in_doc_runs r (nth_error_In _ _ R)) as (s & _ & SS & RI). destruct (in_doc_runs q (nth_error_In _ _ Q)) as (s' & IS' & SS' & QI).
  destruct (shown_range s r SS RI) as (_ & _ & PR). destruct (PR ltac:(lia)) as (ps & pe & IP & P1 & P2). 
  assert (PQ : para_start e count (sr_start q) /\ exists f sep, s' = blank e f (sr_start q) sep).
  { destruct SS' as [(f & pos & sep & -> & P & SP)|H].
    - destruct (blank_run f pos sep) as (r' & E & _ & S1 & _). rewrite E in QI. destruct QI as [<-|[]]. rewrite S1. eauto.
    - exfalso. destruct H as (ps' & pe' & ss & ws0 & ws & ls & le & _ & _ & _ & _ & _ & _ & _ & _ & _ & LG & _). destruct (run_range ps' ss ws ls le s' LG q QI). lia. }
  destruct PQ as (PQ & f & sep & ES). pose proof IP as (PS & PL & PE & PN).
  pose proof (proj1 (proj2 (proj2 EO)) ps PS PL) as BO. destruct (en_bound e ps) as [plen sp] eqn:EB. cbn [fst snd] in PE.
  destruct (starts_linear EO PS PQ) as [D|[[_ D]|[D1 D]]]; [lia| |].
  2: { pose proof (proj1 (proj2 (proj2 EO)) _ PQ D1) as BQ. destruct (en_bound e (sr_start q)) as [pl2 sp2]. cbn in D. lia. }
  rewrite EB in D. cbn in D. assert (SP0 : sp = 0) by lia. destruct BO as (B1 & B2 & B3 & B4). specialize (B4 SP0).
  destruct doc_spans as (body & extra & ED & C & X).
  assert (QX : In s' extra).
  { rewrite ED in IS'. apply in_app_iff in IS'. destruct IS' as [IB|IX]; [|exact IX]. exfalso.
    assert (J : In (span q) (map span (doc_runs body))) by (apply in_map, in_flat_map; eauto).
    unfold span in J. destruct (chain_in _ _ _ _ _ C J) as (J1 & J2 & J3). lia. }
  destruct X as [(last & f' & PLs & L1 & L2 & L3 & ->)| ->]; [|destruct QX].
  destruct (starts_linear EO PS PLs) as [D2|[[_ D2]|[_ D2]]]; [subst last; rewrite EB in L3; cbn in L3; lia|rewrite EB in D2; cbn in D2; lia|].
  rewrite L2 in D2. lia.
Qed.
Lemma doc_nonempty : 0 < count -> doc <> [].
Proof. intros P E. destruct doc_spans as (body & extra & ED & C & _). rewrite E in ED. symmetry in ED. apply app_eq_nil in ED. destruct ED as [-> _]. cbn in C. lia. Qed.
(** The positions from the first run to the last are those of the text. *)
Lemma doc_first r0 : nth_error (doc_runs doc) 0 = Some r0 -> sr_start r0 = 0.
Proof.
  intros R. destruct doc_spans_all as (l & E & X). assert (R' : nth_error l 0 = Some (span r0)) by (rewrite <- E, nth_error_map, R; reflexivity).
  destruct X as [C|(m & -> & C)]; [|destruct m as [|z m]].
  - destruct l as [|[u v] l]; [discriminate|]. cbn in C, R'. inversion R'. lia.
  - cbn in C, R'. inversion R'. lia.
  - destruct z as [u v]. cbn in C, R'. inversion R'. lia.
Qed.
Lemma doc_last rn : nth_error (doc_runs doc) (length (doc_runs doc) - 1) = Some rn -> sr_end rn + sr_offset rn = count.
Proof.
  intros R. destruct doc_spans_all as (l & E & X). assert (R' : nth_error l (length l - 1) = Some (span rn)) by (rewrite <- E, map_length, nth_error_map, R; reflexivity).
  destruct X as [C|(m & -> & C)].
  - destruct l as [|z l] using rev_ind; [discriminate|]. clear IHl. rewrite app_length in R'. cbn in R'. rewrite nth_error_app2 in R' by lia. replace (length l + 1 - 1 - length l)%nat with O in R' by lia.
    inversion R'; subst z. clear -C. change (sr_end rn + sr_offset rn) with (snd (span rn)). revert C. generalize 0. induction l as [|[u v] l IH]; intros a C; cbn in C; [exact (proj2 (proj2 C))|exact (IH _ (proj2 (proj2 C)))].
  - rewrite app_length in R'. cbn in R'. rewrite nth_error_app2 in R' by lia. replace (length m + 1 - 1 - length m)%nat with O in R' by lia. inversion R'. reflexivity.
Qed.
End Built.
