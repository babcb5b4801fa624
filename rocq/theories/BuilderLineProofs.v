(** What the lines of a layout show: glyphs, positions, coverage. *)
From Coq Require Import Permutation ZifyBool ZifyNat.
From Verif Require Import Base BaseFacts ValueRunsModel ValueRunsSpec ScriptRunSpec LayoutModel LayoutSpec LayoutProofs BuilderModel BuilderSpec BuilderVisualProofs BuilderBreakProofs BuilderTileProofs BuilderDocProofs.
Open Scope Z_scope.
Set Implicit Arguments.

(** ** One line *)
Lemma slice_app {A} : forall (l : list A) a b c, (a <= b)%nat -> (b <= c)%nat -> skipn a (firstn c l) = skipn a (firstn b l) ++ skipn b (firstn c l).
Proof.
  induction l as [|x l IH]; intros a b c H1 H2; [rewrite !firstn_nil, !skipn_nil; reflexivity|].
  destruct c; [assert (b = 0%nat) by lia; assert (a = 0%nat) by lia; subst; reflexivity|]. destruct b; [assert (a = 0%nat) by lia; subst; reflexivity|].
  destruct a; cbn [firstn skipn app]; [f_equal; apply (IH 0%nat b c); lia|apply IH; lia].
Qed.
Lemma glyphs_in_app p a b c : nondecreasing (map lg_char (pa_glyphs p)) -> a <= b -> b <= c -> glyphs_in p a c = glyphs_in p a b ++ glyphs_in p b c.
Proof. intros N A B. rewrite !glyphs_in_slice by (auto; lia). apply slice_app; apply count_below_mono; assumption. Qed.
Lemma chain_glyphs p : nondecreasing (map lg_char (pa_glyphs p)) -> forall l a b, chain a b l -> flat_map (fun r => glyphs_in p (fst r) (snd r)) l = glyphs_in p a b.
Proof.
  intros N. induction l as [|[s e] l IH]; intros a b C; cbn [chain flat_map fst snd] in *.
  - subst. rewrite glyphs_in_slice by (auto; lia). symmetry. apply skipn_all2. rewrite firstn_length. lia.
  - destruct C as (-> & L & C). rewrite (IH _ _ C). symmetry. apply glyphs_in_app; [exact N|lia|exact (@chain_le _ _ _ C)].
Qed.
Lemma flat_map_map {A B C} (f : A -> B) (g : B -> list C) l : flat_map g (map f l) = flat_map (fun x => g (f x)) l.
Proof. induction l; cbn; [reflexivity|]. rewrite IHl. reflexivity. Qed.
Lemma flat_map_rev {A B} (f : A -> list B) l : flat_map (fun x => rev (f x)) (rev l) = rev (flat_map f l).
Proof. induction l; cbn; [reflexivity|]. rewrite flat_map_app, IHl, rev_app_distr. cbn. rewrite app_nil_r. reflexivity. Qed.
Lemma rev_if {A} (b : bool) (l : list A) : Permutation (if b then rev l else l) l.
Proof. destruct b; [symmetry; apply Permutation_rev|reflexivity]. Qed.

Section Line.
Variables (info : ssfont -> font_info) (vertical : bool) (code : ssfont -> Z) (p : para) (ps pe : Z).
Hypothesis OK : para_ok ps pe p.
Variables (ls le : Z) (rs : list (Z * Z * Z)).
Hypothesis LS : ps <= ls.
Hypothesis LT : ls < le.
Hypothesis LE : le <= pe.
Hypothesis BP : bidi_partition ls le rs.
Let s := line_of code info vertical p rs.
Let N : nondecreasing (map lg_char (pa_glyphs p)) := proj1 (proj2 OK).

Lemma rs_bounds : Forall (fun r => ls <= fst (fst r) /\ 0 < snd (fst r) /\ fst (fst r) + snd (fst r) <= le) rs.
Proof. exact (proj2 (bidi_bounds BP)). Qed.

Lemma bidi_glyphs r : In r rs -> flat_map (piece_glyphs p) (bidi_pieces p r) =
  (if Z.odd (snd r) then rev (glyphs_in p (fst (fst r)) (fst (fst r) + snd (fst r))) else glyphs_in p (fst (fst r)) (fst (fst r) + snd (fst r))).
Proof.
  intros I. pose proof (proj1 (Forall_forall _ _) rs_bounds r I) as B. destruct r as [[a n] lv]. cbn [fst snd] in *.
  pose proof OK as (_ & _ & _ & INC & L).
  pose proof (@pieces_chain info code (pa_runs p) ps a (a + n) INC ltac:(lia) ltac:(lia) ltac:(lia)) as C.
  apply (chain_glyphs p N) in C. rewrite flat_map_map in C. unfold bidi_pieces. rewrite flat_map_map. unfold piece_glyphs, vp_start, vp_end, vp_rtl. cbn [fst snd].
  destruct (Z.odd lv); cbn [fst snd].
  - rewrite (flat_map_rev (fun x : ssfont * Z * Z => glyphs_in p (snd (fst x)) (snd x))). f_equal. exact C.
  - exact C.
Qed.
Lemma line_order : flat_map (piece_glyphs p) (line_pieces p rs) = visual_order p rs.
Proof.
  assert (G : forall l, (forall r, In r l -> In r rs) -> flat_map (piece_glyphs p) (line_pieces p l) = visual_order p l).
  { induction l as [|r l IH]; intros H; [reflexivity|]. unfold line_pieces, visual_order in *. cbn [flat_map].
    rewrite flat_map_app, IH by (intros; apply H; right; assumption). rewrite bidi_glyphs by (apply H; left; reflexivity). destruct r as [[a n] lv]. reflexivity. }
  apply G. auto.
Qed.
Lemma order_perm : Permutation (visual_order p rs) (glyphs_in p ls le).
Proof.
  destruct BP as (rs' & P & C). unfold visual_order.
  rewrite <- (@Permutation_flat_map1 _ _ _ _ _ P).
  transitivity (flat_map (fun r => glyphs_in p (fst r) (snd r)) (map (fun r : Z * Z * Z => (fst (fst r), fst (fst r) + snd (fst r))) rs')).
  - rewrite flat_map_map. apply Permutation_flat_map2. intros [[a n] lv] _. cbn [fst snd]. apply rev_if.
  - erewrite (chain_glyphs p N) with (a := ls) (b := le); [reflexivity|]. clear P. revert C. generalize ls. induction rs' as [|[[a n] lv] l IH]; intros q C; cbn in *; [exact C|].
    destruct C as (-> & L & C). split; [reflexivity|]. split; [lia|]. apply IH. exact C.
Qed.

Lemma placed_keys : forall gs w, stored_keys (placed vertical w gs) = keys gs.
Proof. induction gs as [|g gs IH]; intros w; cbn; [reflexivity|]. f_equal. apply IH. Qed.
Lemma placed_app : forall a w b, placed vertical w (a ++ b) = placed vertical w a ++ placed vertical (w + total a) b.
Proof. induction a as [|g a IH]; intros w b; cbn; [rewrite Z.add_0_r; reflexivity|]. f_equal. rewrite IH, Z.add_assoc. reflexivity. Qed.
Lemma length_placed : forall gs w, length (placed vertical w gs) = length gs.
Proof. induction gs as [|g gs IH]; intros w; cbn; [reflexivity|]. f_equal. apply IH. Qed.
Lemma runs_placed : forall vs w, flat_map sr_glyphs (visual_runs code vertical p w vs) = placed vertical w (flat_map (piece_glyphs p) vs).
Proof.
  induction vs as [|v vs IH]; intros w; cbn [visual_runs flat_map]; [reflexivity|]. rewrite placed_app, IH. reflexivity.
Qed.
Lemma line_placed : flat_map sr_glyphs (sl_runs s) = placed vertical 0 (visual_order p rs).
Proof. unfold s, line_of. cbn [sl_runs]. rewrite runs_placed, line_order. reflexivity. Qed.

Lemma pieces_within : forall runs q a b f x y, increasing (q :: map snd runs) -> q <= a -> a < b -> In (f, x, y) (pieces runs a b) ->
  exists pre e post, runs = pre ++ (f, e) :: post /\ x = Z.max a (last (map snd pre) q) /\ y = Z.min b e.
Proof.
  induction runs as [|[f0 e0] runs IH]; intros q a b f x y I Q AB IN; [destruct IN|]. cbn [pieces map snd] in *. destruct (increasing_cons _ _ I) as [F2 I2].
  assert (LAST : forall pre : list (ssfont * Z), last (e0 :: map snd pre) q = last (map snd pre) e0).
  { intros pre. destruct pre as [|z pre] using rev_ind; [reflexivity|]. change (e0 :: map snd (pre ++ [z])) with (map snd (((f0, e0) :: pre) ++ [z])). rewrite last_map_snoc. symmetry. apply last_map_snoc. }
  destruct (Z.leb_spec e0 a) as [C|C].
  - destruct (IH e0 a b f x y I2 C AB IN) as (pre & e & post & -> & A & B). exists ((f0, e0) :: pre), e, post. cbn [map snd]. rewrite LAST. auto.
  - destruct (Z.leb_spec b e0) as [D|D].
    + destruct IN as [E|[]]. inversion E; subst. exists [], e0, runs. cbn. repeat split; lia.
    + destruct IN as [E|IN]; [inversion E; subst; exists [], y, runs; cbn; repeat split; lia|].
      destruct (IH e0 e0 b f x y I2 ltac:(lia) ltac:(lia) IN) as (pre & e & post & E & A & B). exists ((f0, e0) :: pre), e, post. cbn [map snd]. rewrite LAST.
      split; [rewrite E; reflexivity|]. split; [|exact B]. subst x.
      assert (e0 <= last (map snd pre) e0); [|lia].
      { clear -I2 E. subst runs. rewrite map_app in I2. destruct pre as [|z pre] using rev_ind; [cbn; lia|]. rewrite last_map_snoc.
        destruct (increasing_cons _ _ I2) as [F _]. rewrite Forall_forall in F. specialize (F (snd z)).
        assert (e0 < snd z); [|lia]. apply F. rewrite map_app, !in_app_iff. cbn. auto. }
Qed.

Lemma line_runs_show : Forall (run_shows code ps p rs) (sl_runs s).
Proof.
  unfold s, line_of. cbn [sl_runs]. pose proof OK as (_ & _ & _ & INC & L).
  assert (G : forall vs w, (forall v, In v vs -> In v (line_pieces p rs)) -> Forall (run_shows code ps p rs) (visual_runs code vertical p w vs)).
  { induction vs as [|v vs IH]; intros w H; cbn [visual_runs]; [constructor|]. constructor; [|apply IH; intros; apply H; right; assumption].
    specialize (H v (or_introl eq_refl)). unfold line_pieces in H. apply in_flat_map in H. destruct H as ([[a n] lv] & I & H).
    pose proof (proj1 (Forall_forall _ _) rs_bounds _ I) as B. cbn [fst snd] in B.
    unfold bidi_pieces in H. apply in_map_iff in H. destruct H as ([[f x] y] & <- & H).
    assert (H' : In (f, x, y) (pieces (pa_runs p) a (a + n))) by (destruct (Z.odd lv); [apply in_rev in H; exact H|exact H]).
    destruct (@pieces_within (pa_runs p) ps a (a + n) f x y INC ltac:(lia) ltac:(lia) H') as (pre & e & post & E1 & E2 & E3).
    unfold visual_run, vp_font, vp_start, vp_end, vp_rtl. cbn [fst snd]. split.
    - cbn [sr_glyphs sr_start sr_end sr_rtl]. rewrite placed_keys. reflexivity.
    - exists a, n, lv, pre, f, e, post. cbn [sr_start sr_end sr_rtl sr_font]. repeat split; auto. }
  apply G. auto.
Qed.

Lemma line_glyphs_of : line_glyphs code ps p rs ls le s.
Proof.
  split; [exact (@line_of_tile info vertical code p ps pe rs ls le OK BP LS LE)|]. split; [rewrite line_placed; apply placed_keys|]. split; [exact order_perm|exact line_runs_show].
Qed.

Lemma total_perm a b : Permutation a b -> total a = total b.
Proof. induction 1 as [|x l l1 P IH|x y l|l1 l2 l3 P1 IH1 P2 IH2]; [reflexivity|change (lg_width x + total l = lg_width x + total l1); lia|change (lg_width y + (lg_width x + total l) = lg_width x + (lg_width y + total l)); lia|congruence]. Qed.
Lemma run_ends : forall vs w rs1 r rs2, visual_runs code vertical p w vs = rs1 ++ r :: rs2 ->
  (if vertical then sr_end_y r else sr_end_x r) = fixed (w + total (firstn (count_glyphs (rs1 ++ [r])) (flat_map (piece_glyphs p) vs))).
Proof.
  induction vs as [|v vs IH]; intros w rs1 r rs2 E; cbn [visual_runs] in E; [destruct rs1; discriminate|].
  destruct rs1 as [|r0 rs1]; cbn [app] in E; inversion E; subst; clear E.
  - unfold count_glyphs. cbn [app flat_map visual_run sr_glyphs sr_end_y sr_end_x]. rewrite app_nil_r, length_placed.
    rewrite firstn_app, firstn_all, Nat.sub_diag, firstn_O, app_nil_r. destruct vertical; reflexivity.
  - rewrite (IH _ _ _ _ H1). f_equal. unfold count_glyphs. cbn [app flat_map]. rewrite app_length. cbn [visual_run sr_glyphs]. rewrite length_placed.
    rewrite firstn_app, (firstn_all2 (piece_glyphs p v)) by lia. rewrite total_app. rewrite (Nat.add_comm (length (piece_glyphs p v))), Nat.add_sub. lia.
Qed.

Lemma line_positions_of : line_positions vertical p rs ls le s.
Proof.
  split; [|split].
  - intros gs1 g gs2 E. rewrite line_placed, E, placed_app. rewrite nth_error_app2; rewrite length_placed; [|lia]. rewrite Nat.sub_diag. cbn [placed nth_error].
    eexists. split; [reflexivity|]. cbn [sg_x sg_y]. rewrite Z.add_0_l. destruct vertical; split; reflexivity.
  - intros rs1 r rs2 E. unfold s, line_of in E. cbn [sl_runs] in E. rewrite (@run_ends _ _ _ _ _ E), line_order. f_equal.
  - intros V. unfold line_width. pose proof (@line_placed) as LP. pose proof order_perm as OP. rewrite <- (total_perm OP).
    destruct (sl_runs s) as [|r l] eqn:E using rev_ind.
    + destruct (@line_of_nonempty info vertical code p ps pe OK rs ls le BP LS LT LE E).
    + clear IHl. rewrite map_app. cbn [map]. rewrite last_last. assert (E' : sl_runs s = l ++ r :: []) by exact E. unfold s, line_of in E'. cbn [sl_runs] in E'.
      pose proof (@run_ends _ _ _ _ _ E') as RE. rewrite V in RE. rewrite RE, line_order. f_equal.
      rewrite Z.add_0_l. f_equal. apply firstn_all2. unfold count_glyphs. rewrite LP, length_placed. lia.
Qed.
End Line.

(** ** Every line of a text *)
Lemma separator_glyphs pe sep r : sr_glyphs (with_separator pe sep r) = sr_glyphs r.
Proof. unfold with_separator. destruct (_ =? _); reflexivity. Qed.
Lemma separator_flat pe sep rs : flat_map sr_glyphs (map (with_separator pe sep) rs) = flat_map sr_glyphs rs.
Proof. rewrite flat_map_map. apply flat_map_ext. intros. apply separator_glyphs. Qed.
Lemma separator_ends pe sep r : sr_end_x (with_separator pe sep r) = sr_end_x r /\ sr_end_y (with_separator pe sep r) = sr_end_y r.
Proof. unfold with_separator. destruct (_ =? _); split; reflexivity. Qed.

Definition separate_line (pe sep : Z) (s : sline) : sline :=
  {| sl_runs := map (with_separator pe sep) (sl_runs s); sl_height := sl_height s; sl_ascent := sl_ascent s |}.
Lemma higher_top l : forall a m, top_of m a -> top_of (m ++ l) (fold_left higher l a).
Proof.
  induction l as [|x l IH]; intros a m T; cbn [fold_left]; [rewrite app_nil_r; exact T|]. replace (m ++ x :: l) with ((m ++ [x]) ++ l) by (rewrite <- app_assoc; reflexivity). apply IH. destruct T as (A & B & C).
  unfold higher. destruct (Qle_bool x a) eqn:E.
  - apply Qle_bool_iff in E. split; [exact A|]. split; [apply Forall_app; split; [exact B|constructor; [exact E|constructor]]|]. destruct C as [C|C]; [left; exact C|right; apply in_app_iff; left; exact C].
  - assert (L : (a <= x)%Q). { destruct (Qlt_le_dec x a) as [Q|Q]; [|exact Q]. apply Qlt_le_weak, Qle_bool_iff in Q. congruence. }
    split; [eapply Qle_trans; eassumption|]. split; [apply Forall_app; split; [eapply Forall_impl; [|exact B]; cbn; intros y Y; eapply Qle_trans; eassumption|constructor; [apply Qle_refl|constructor]]|].
    right. apply in_app_iff. right. left. reflexivity.
Qed.
Lemma lower_bottom l : forall a m, bottom_of m a -> bottom_of (m ++ l) (fold_left lower l a).
Proof.
  induction l as [|x l IH]; intros a m T; cbn [fold_left]; [rewrite app_nil_r; exact T|]. replace (m ++ x :: l) with ((m ++ [x]) ++ l) by (rewrite <- app_assoc; reflexivity). apply IH. destruct T as (A & B & C).
  unfold lower. destruct (Qle_bool a x) eqn:E.
  - apply Qle_bool_iff in E. split; [exact A|]. split; [apply Forall_app; split; [exact B|constructor; [exact E|constructor]]|]. destruct C as [C|C]; [left; exact C|right; apply in_app_iff; left; exact C].
  - assert (L : (x <= a)%Q). { destruct (Qlt_le_dec a x) as [Q|Q]; [|exact Q]. apply Qlt_le_weak, Qle_bool_iff in Q. congruence. }
    split; [eapply Qle_trans; eassumption|]. split; [apply Forall_app; split; [eapply Forall_impl; [|exact B]; cbn; intros y Y; eapply Qle_trans; eassumption|constructor; [apply Qle_refl|constructor]]|].
    right. apply in_app_iff. right. left. reflexivity.
Qed.
Lemma visual_fonts code vertical p vs : forall w, map sr_font (visual_runs code vertical p w vs) = map code (map vp_font vs).
Proof. induction vs as [|v vs IH]; intros w; cbn; [reflexivity|]. f_equal. apply IH. Qed.
Lemma line_size_of code info vertical p rs : line_size code info (line_of code info vertical p rs).
Proof.
  exists (map vp_font (line_pieces p rs)), (snd (line_metrics info (line_pieces p rs))). split; [apply visual_fonts|]. rewrite !map_map. cbn [line_of sl_ascent sl_height]. split; [|split; [|reflexivity]].
  - apply (@higher_top _ 0%Q []). split; [apply Qle_refl|]. split; [constructor|left; reflexivity].
  - apply (@lower_bottom _ 0%Q []). split; [apply Qle_refl|]. split; [constructor|left; reflexivity].
Qed.
Lemma separated_line_size pe sep code info s : line_size code info s -> line_size code info (separate_line pe sep s).
Proof.
  intros (fs & d & A & B). exists fs, d. split; [|exact B]. rewrite <- A. unfold separate_line. cbn [sl_runs]. rewrite map_map. apply map_ext. intros r. unfold with_separator. destruct (sr_end r =? pe); reflexivity.
Qed.
Lemma separated_line_glyphs pe sep code ps p rs ls le s : line_glyphs code ps p rs ls le s -> line_glyphs code ps p rs ls le (separate_line pe sep s).
Proof.
  intros (T & K & P & F). unfold line_glyphs, separate_line. cbn [sl_runs]. split; [|split; [rewrite separator_flat; exact K|split; [exact P|]]].
  - destruct T as (l & P1 & C). exists l. split; [|exact C]. rewrite map_map. erewrite map_ext; [exact P1|]. intros r. cbn. unfold with_separator. destruct (_ =? _); reflexivity.
  - apply Forall_map. eapply Forall_impl; [|exact F]. intros r H. unfold run_shows, with_separator in *. destruct (sr_end r =? pe); exact H.
Qed.
Lemma separated_line_positions pe sep vertical p rs ls le s : line_positions vertical p rs ls le s -> line_positions vertical p rs ls le (separate_line pe sep s).
Proof.
  intros (A & B & C). unfold line_positions, separate_line. cbn [sl_runs]. split; [|split].
  - rewrite separator_flat. exact A.
  - intros rs1 r rs2 E. apply map_eq_app in E. destruct E as (l1 & l2 & E & <- & E2). apply map_eq_cons in E2. destruct E2 as (r0 & l3 & -> & <- & <-).
    specialize (B l1 r0 l3 E). destruct (separator_ends pe sep r0) as [-> ->]. rewrite B. unfold count_glyphs.
    change [with_separator pe sep r0] with (map (with_separator pe sep) [r0]). rewrite <- map_app, separator_flat. reflexivity.
  - intros V. rewrite <- (C V). unfold line_width. cbn [sl_runs]. rewrite map_map. f_equal. apply map_ext. intros r. apply separator_ends.
Qed.

Lemma set_widths_same gs : set_widths gs (map lg_width gs) = gs.
Proof. induction gs as [|[] gs IH]; cbn; [reflexivity|]. rewrite IH. reflexivity. Qed.
Lemma with_widths_same p : with_widths p (map lg_width (pa_glyphs p)) = p.
Proof. unfold with_widths. rewrite set_widths_same. destruct p; reflexivity. Qed.
Lemma set_widths_twice : forall gs a b, length a = length gs -> set_widths (set_widths gs a) b = set_widths gs b.
Proof. induction gs as [|g gs IH]; intros [|x a] [|y b] L; cbn in *; try lia; auto. f_equal. apply IH. lia. Qed.
Lemma with_widths_twice p a b : length a = length (pa_glyphs p) -> with_widths (with_widths p a) b = with_widths p b.
Proof. intros L. unfold with_widths. cbn [pa_glyphs pa_end_sec pa_runs]. rewrite set_widths_twice by exact L. reflexivity. Qed.
Lemma set_widths_length gs ws : length ws = length gs -> length (set_widths gs ws) = length gs.
Proof. intros L. rewrite <- (map_length lg_char (set_widths gs ws)), set_widths_chars, map_length by exact L. reflexivity. Qed.
Lemma same_but_tabs_twice text p a b : same_but_tabs text p a -> same_but_tabs text (with_widths p a) b -> same_but_tabs text p b.
Proof.
  intros (L1 & S1) (L2 & S2). pose proof (@set_widths_length (pa_glyphs p) a L1) as SL. split; [cbn [with_widths pa_glyphs] in L2; rewrite L2, SL; reflexivity|].
  intros i g G T. specialize (S1 i g G T).
  assert (IL : (i < length (set_widths (pa_glyphs p) a))%nat) by (rewrite SL; apply nth_error_Some; congruence).
  destruct (nth_error (set_widths (pa_glyphs p) a) i) as [g'|] eqn:G'; [|apply nth_error_None in G'; lia].
  assert (NC : lg_char g' = lg_char g).
  { pose proof (@set_widths_chars (pa_glyphs p) a L1) as SC. assert (X : nth_error (map lg_char (set_widths (pa_glyphs p) a)) i = Some (lg_char g')) by (rewrite nth_error_map, G'; reflexivity).
    rewrite SC, nth_error_map, G in X. cbn in X. congruence. }
  assert (NW : lg_width g' = lg_width g).
  { pose proof (@set_widths_widths (pa_glyphs p) a L1) as SW. assert (X : nth_error (map lg_width (set_widths (pa_glyphs p) a)) i = Some (lg_width g')) by (rewrite nth_error_map, G'; reflexivity).
    rewrite SW in X. congruence. }
  rewrite <- NW. apply (S2 i g'); [exact G'|rewrite NC; exact T].
Qed.

Section Text.
Variables (e : engine) (text : list Z) (vertical : bool) (opp : Z -> Z -> Prop) (so : sources) (tabWidth : Z) (pixels : bool) (area count : Z).
Hypothesis EO : engine_ok e opp count.
Notation shown := (shown_line e text vertical opp so tabWidth pixels area count).

Lemma start_bounds off : para_start e count off -> 0 <= off <= Z.max 0 count.
Proof.
  induction 1 as [|off P IH L]; [lia|]. destruct EO as (_ & _ & B & _). specialize (B off P L). destruct (en_bound e off). cbn [fst]. lia.
Qed.

Lemma para_pe ps pe : is_para e count ps pe -> 0 <= ps < pe /\ pe <= count.
Proof.
  intros (P & L & -> & H). pose proof (start_bounds P). destruct EO as (_ & _ & B & _). specialize (B ps P L). destruct (en_bound e ps) as [plen sep]. cbn [fst snd] in *. lia.
Qed.

Lemma visual_offsets code p w vs : Forall (fun r => sr_offset r = 0) (visual_runs code vertical p w vs).
Proof. revert w. induction vs as [|v vs IH]; intros w; cbn; constructor; auto. Qed.
Lemma separated_offsets code info p pe sep rs : 0 <= sep -> Forall (fun r => 0 <= sr_offset r) (sl_runs (separate_line pe sep (line_of code info vertical p rs))).
Proof.
  intros SP. cbn [separate_line sl_runs]. apply Forall_map. eapply Forall_impl; [|apply visual_offsets]. intros r O. cbv beta in *. unfold with_separator.
  destruct (sr_end r =? pe); cbn [sr_offset]; lia.
Qed.
Lemma chain_starts : forall l a b, chain a b l -> increasing (map fst l).
Proof.
  induction l as [|[s x] l IH]; intros a b C; [exact I|]. cbn in C. destruct C as (-> & B & C). specialize (IH _ _ C).
  destruct l as [|[s2 x2] l]; [exact I|]. cbn in C. destruct C as (-> & B2 & C). cbn [map fst increasing] in *. split; [exact B|exact IH].
Qed.
(** A line all in one left-to-right run is in logical order. *)
Lemma line_in_order code info p pe sep ps ls le level : para_ok ps pe p -> ps <= ls -> ls < le -> le <= pe -> Z.odd level = false ->
  increasing (map sr_start (sl_runs (separate_line pe sep (line_of code info vertical p [(ls, le - ls, level)])))).
Proof.
  intros OK LS LT LE EV. cbn [separate_line sl_runs line_of].
  assert (E : map sr_start (map (with_separator pe sep) (visual_runs code vertical p 0 (line_pieces p [(ls, le - ls, level)]))) = map fst (map range (pieces (pa_runs p) ls le))).
  { rewrite map_map. transitivity (map fst (map (fun r => (sr_start r, sr_end r)) (visual_runs code vertical p 0 (line_pieces p [(ls, le - ls, level)])))).
    { rewrite map_map. apply map_ext. intros r. unfold with_separator. destruct (sr_end r =? pe); reflexivity. }
    rewrite visual_runs_ranges. unfold line_pieces. cbn [flat_map bidi_pieces]. rewrite app_nil_r, EV, !map_map. replace (ls + (le - ls)) with le by lia.
    apply map_ext. intros [[f a] b]. reflexivity. }
  rewrite E. pose proof OK as (P0 & _ & _ & I & L). eapply chain_starts. eapply pieces_chain with (q := ps); auto. lia.
Qed.

Lemma paragraph_shown ps pe sep lines : is_para e count ps pe -> 0 <= sep -> paragraph_lines e text vertical opp so tabWidth pixels area ps pe sep lines -> Forall shown lines.
Proof.
  intros IP SP (ss & bs & T & SOK & OK & W & ->). destruct (para_pe IP) as [PB PE].
  destruct EO as (_ & _ & _ & C). destruct (C ps pe IP) as (C1 & _).
  set (p0 := para_of (en_info e) text (en_shape e) vertical ss) in *.
  assert (G : forall bs p ws0 ls, p = with_widths p0 ws0 -> same_but_tabs text p0 ws0 -> ps <= ls -> (area = 0 -> ls < pe -> ls = ps /\ ws0 = map lg_width (pa_glyphs p0)) ->
    cut_at opp ps pe p0 ls -> (pixels = true -> 0 < tabWidth -> rightward p0 -> rightward p) ->
    wrapped (good_line e text opp tabWidth pixels area ps pe) text p pe ls bs ->
    Forall shown (separated pe sep (wrapped_lines (en_code e) (en_info e) vertical (fun a b => en_runs e ps a (b - a)) p ls bs))).
  { clear W bs. induction bs as [|[le ws] bs IH]; intros p ws0 ls -> SB LS A0 CL RW W; cbn [wrapped wrapped_lines separated map] in *; [constructor|].
    destruct W as (W1 & W2 & W3 & W4). pose proof (same_but_tabs_twice SB W2) as SB2. rewrite with_widths_twice in * by exact (proj1 SB).
    assert (CL' : cut_at opp ps pe p0 le).
    { unfold cut_at. unfold good_line in W3. destruct W3 as (_ & W3). destruct (area =? 0); [right; left; exact (proj1 W3)|].
      destruct W3 as (_ & [B|[B|[B _]]] & _); auto. right; right; right. cbn [with_widths pa_glyphs] in B. rewrite set_widths_chars in B by exact (proj1 SB2). exact B. }
    assert (RW' : pixels = true -> 0 < tabWidth -> rightward p0 -> rightward (with_widths p0 ws)) by (intros; apply W3; auto).
    constructor; [|apply (IH _ ws le); auto; [lia|]; intros Z0 L; unfold good_line in W3; rewrite (proj2 (Z.eqb_eq area 0) Z0) in W3; lia].
    pose proof (@with_widths_ok p0 ps pe OK ws (proj1 SB2)) as OK'. right. exists ps, pe, ss, ws0, ws, ls, le. cbv zeta. fold p0.
    split; [exact IP|]. split; [exact T|]. split; [exact SOK|]. split; [exact SB2|]. split; [lia|]. split; [lia|]. split; [exact SB|]. split; [intros Z0; apply A0; [exact Z0|lia]|]. split; [exact W3|].
    pose proof (C1 ls le LS ltac:(lia) ltac:(lia)) as BP. split.
    { apply (@separated_line_glyphs pe sep). apply (@line_glyphs_of (en_info e) vertical (en_code e) (with_widths p0 ws) ps pe OK' ls le); auto; lia. }
    split.
    { apply (@separated_line_positions pe sep). apply (@line_positions_of (en_info e) vertical (en_code e) (with_widths p0 ws) ps pe OK' ls le); auto; lia. }
    split; [apply (@separated_line_size pe sep), line_size_of|]. split; [exact CL|]. split; [exact CL'|]. split; [exact RW'|].
    split; [apply separated_offsets; exact SP|]. split; [|exact OK]. intros level -> EV. apply (@line_in_order _ _ (with_widths p0 ws) pe sep ps ls le level OK'); auto; lia. }
  apply (G bs p0 (map lg_width (pa_glyphs p0)) ps); [symmetry; apply with_widths_same| |lia|split; reflexivity|left; reflexivity|auto|exact W].
  split; [apply map_length|]. intros i g Gi _. rewrite nth_error_map, Gi. reflexivity.
Qed.

Lemma text_shown off doc : text_lines e text vertical opp so tabWidth pixels area count off doc -> para_start e count off -> Forall shown doc.
Proof.
  induction 1 as [|off plen sep f lines extra rest LT EB LF PL EX TL IH]; intros PS; [constructor|].
  pose proof (@start_next e count off PS LT) as PN. rewrite EB in PN. cbn [fst] in PN. apply Forall_app. split; [|apply Forall_app; split; [|exact (IH PN)]].
  - destruct (Z.ltb_spec 0 (plen - sep)) as [L|L].
    + pose proof (proj1 (proj2 (proj2 EO)) off PS LT) as B. rewrite EB in B.
      eapply paragraph_shown; [| |exact PL]; [|lia]. unfold is_para. rewrite EB. cbn [fst snd]. repeat split; auto; lia.
    + subst. pose proof (proj1 (proj2 (proj2 EO)) off PS LT) as B. rewrite EB in B. constructor; [left; exists f, off, sep; repeat split; auto; lia|constructor].
  - subst. destruct (Z.eqb_spec (off + plen) count) as [EC|EC]; cbn [andb]; [|constructor]. destruct (0 <? sep); constructor; [|constructor].
    left. exists f, count, 0. rewrite EC in PN. repeat split; auto; lia.
Qed.

(** ** Coverage *)
Lemma starts_linear : forall a b, para_start e count a -> para_start e count b ->
  a = b \/ (a < count /\ a + fst (en_bound e a) <= b) \/ (b < count /\ b + fst (en_bound e b) <= a).
Proof.
  assert (POS : forall x, para_start e count x -> x < count -> 0 < fst (en_bound e x)).
  { intros x P L. destruct EO as (_ & _ & B & _). specialize (B x P L). destruct (en_bound e x). cbn. lia. }
  assert (G : forall n a b, a + b < Z.of_nat n -> para_start e count a -> para_start e count b ->
    a = b \/ (a < count /\ a + fst (en_bound e a) <= b) \/ (b < count /\ b + fst (en_bound e b) <= a)).
  { induction n as [|n IH]; intros a b S PA PB; pose proof (start_bounds PA); pose proof (start_bounds PB); [lia|].
    inversion PA as [E|a0 PA0 LA E]; inversion PB as [F|b0 PB0 LB F]; subst.
    - left; reflexivity.
    - pose proof (POS _ PB0 LB). pose proof (start_bounds PB0). destruct (IH 0 b0 ltac:(lia) PA PB0) as [D|[D|D]]; [subst; right; left; lia|right; left; lia|lia].
    - pose proof (POS _ PA0 LA). pose proof (start_bounds PA0). destruct (IH a0 0 ltac:(lia) PA0 PB) as [D|[D|D]]; [subst; right; right; lia|lia|right; right; lia].
    - pose proof (POS _ PA0 LA). pose proof (POS _ PB0 LB).
      destruct (IH a0 (b0 + fst (en_bound e b0)) ltac:(lia) PA0 PB) as [D|[D|D]]; [rewrite <- D; right; right; lia| |right; right; lia].
      destruct (IH (a0 + fst (en_bound e a0)) b0 ltac:(lia) PA PB0) as [D2|[D2|D2]]; [rewrite D2; right; left; lia|right; left; lia|left; lia]. }
  intros a b PA PB. apply (G (S (Z.to_nat (a + b)))); auto. pose proof (start_bounds PA). pose proof (start_bounds PB). lia.
Qed.

Lemma chain_extend pe sep : 0 <= sep -> forall l a, chain a pe l -> a < pe -> chain a (pe + sep) (map (fun r => (fst r, if snd r =? pe then snd r + sep else snd r)) l).
Proof.
  intros SP. induction l as [|[s x] l IH]; intros a C L; cbn in C; [lia|]. destruct C as (-> & B & C). cbn [map chain fst snd].
  split; [reflexivity|]. destruct (Z.eqb_spec x pe) as [->|D].
  - split; [lia|]. destruct l as [|[s2 x2] l]; [reflexivity|]. exfalso. cbn in C. destruct C as (-> & B2 & C). apply chain_le in C. lia.
  - split; [exact B|]. apply IH; [exact C|]. apply chain_le in C. lia.
Qed.

Lemma line_covers info code p pe sep ps ls le rs : para_ok ps pe p -> 0 <= sep -> ps <= ls -> ls < le -> le <= pe -> bidi_partition ls le rs ->
  covers ls (if le =? pe then pe + sep else le) (separate_line pe sep (line_of code info vertical p rs)).
Proof.
  intros OK SP LS LT LE BP. destruct (@line_of_tile info vertical code p ps pe rs ls le OK BP LS LE) as (l & P & C).
  exists (map (fun r => (fst r, if snd r =? pe then snd r + sep else snd r)) l). split.
  - cbn [separate_line sl_runs]. rewrite map_map. eapply Permutation_map with (f := fun r => (fst r, if snd r =? pe then snd r + sep else snd r)) in P.
    rewrite map_map in P. rewrite P. erewrite map_ext_in; [reflexivity|]. intros r I. cbn [fst snd].
    pose proof (proj1 (Forall_forall _ _) (@visual_offsets code p 0 (line_pieces p rs)) r I) as O. cbn in O.
    unfold with_separator. destruct (Z.eqb_spec (sr_end r) pe); cbn [sr_start sr_end sr_offset]; [reflexivity|rewrite O, Z.add_0_r; reflexivity].
  - destruct (Z.eqb_spec le pe) as [->|D]; [apply chain_extend; auto|].
    erewrite map_ext_in with (g := fun r => r); [rewrite map_id; exact C|]. intros [s x] I. cbn [fst snd]. destruct (@chain_in _ _ _ _ _ C I) as (_ & _ & H).
    destruct (Z.eqb_spec x pe); [lia|reflexivity].
Qed.

Lemma paragraph_covers ps pe sep lines : is_para e count ps pe -> 0 <= sep -> paragraph_lines e text vertical opp so tabWidth pixels area ps pe sep lines ->
  exists ranges, chain ps (pe + sep) ranges /\ Forall2 (fun r s => covers (fst r) (snd r) s) ranges lines.
Proof.
  intros IP SP (ss & bs & T & SOK & OK & W & ->). destruct (para_pe IP) as [PB PE].
  destruct EO as (_ & _ & _ & C). destruct (C ps pe IP) as (C1 & _).
  assert (G : forall bs p ls, para_ok ps pe p -> ps <= ls < pe -> wrapped (good_line e text opp tabWidth pixels area ps pe) text p pe ls bs ->
    exists ranges, chain ls (pe + sep) ranges /\
    Forall2 (fun r s => covers (fst r) (snd r) s) ranges (separated pe sep (wrapped_lines (en_code e) (en_info e) vertical (fun a b => en_runs e ps a (b - a)) p ls bs))).
  { clear -C1 PB SP. induction bs as [|[le ws] bs IH]; intros p ls OK LS W; cbn [wrapped wrapped_lines separated map] in *; [lia|].
    destruct W as (W1 & (W2 & _) & _ & W4). pose proof (@with_widths_ok p ps pe OK ws W2) as OK'.
    pose proof (@line_covers (en_info e) (en_code e) (with_widths p ws) pe sep ps ls le _ OK' SP ltac:(lia) ltac:(lia) ltac:(lia) (C1 ls le ltac:(lia) ltac:(lia) ltac:(lia))) as LC.
    destruct (Z.eqb_spec le pe) as [->|D].
    - destruct bs as [|[le2 ws2] bs]; [|cbn in W4; lia]. exists [(ls, pe + sep)]. split; [cbn; lia|]. constructor; [exact LC|constructor].
    - destruct (IH (with_widths p ws) le OK' ltac:(lia) W4) as (ranges & CH & F). exists ((ls, le) :: ranges). split; [cbn; split; [reflexivity|]; split; [lia|exact CH]|]. constructor; [exact LC|exact F]. }
  exact (G bs _ ps OK ltac:(lia) W).
Qed.

Lemma text_tiled off doc : text_lines e text vertical opp so tabWidth pixels area count off doc -> para_start e count off -> off <= count ->
  exists body extra ranges, doc = body ++ extra /\ chain off count ranges /\ Forall2 (fun r s => covers (fst r) (snd r) s) ranges body /\
    (forall x, para_start e count x -> off <= x -> x = off \/ In x (map snd ranges)) /\
    (off < count -> (exists last f, para_start e count last /\ last < count /\ last + fst (en_bound e last) = count /\ 0 < snd (en_bound e last) /\
                       lookup (so_table so) last = Some f /\ extra = [blank e f count 0]) \/
                    (extra = [] /\ ~ final_separator e count)).
Proof.
  induction 1 as [|off plen sep f lines extra rest LT EB LF PL EX TL IH]; intros PS LC.
  - exists [], [], []. cbn. split; [reflexivity|]. split; [reflexivity|]. split; [constructor|]. split; [|lia].
    intros x PX L. left. pose proof (start_bounds PX). pose proof (start_bounds PS). lia.
  - pose proof (@start_next e count off PS LT) as PN. rewrite EB in PN. cbn [fst] in PN.
    pose proof (proj1 (proj2 (proj2 EO)) off PS LT) as B. rewrite EB in B. destruct B as (B1 & B2 & B3 & B4).
    assert (CV : exists r1, chain off (off + plen) r1 /\ Forall2 (fun r s => covers (fst r) (snd r) s) r1 lines).
    { destruct (Z.ltb_spec 0 (plen - sep)) as [L|L].
      - assert (IP : is_para e count off (off + plen - sep)) by (unfold is_para; rewrite EB; cbn [fst snd]; repeat split; auto; lia).
        destruct (@paragraph_covers off (off + plen - sep) sep lines IP ltac:(lia) PL) as (r1 & C & F). exists r1. split; [|exact F]. replace (off + plen) with (off + plen - sep + sep) by lia. exact C.
      - subst lines. exists [(off, off + plen)]. split; [cbn; lia|]. constructor; [|constructor]. cbn [fst snd]. exists [(off, off + plen)].
        split; [|cbn; lia]. cbn. replace (off + sep) with (off + plen) by lia. reflexivity. }
    destruct CV as (r1 & C1 & F1). destruct (IH PN B3) as (body & ex & r2 & -> & C2 & F2 & S2 & X2).
    assert (NX : forall x, para_start e count x -> off <= x -> x = off \/ off + plen <= x).
    { intros x PX L. destruct (starts_linear PS PX) as [D|[[_ D]|[H D]]]; [left; auto|rewrite EB in D; right; exact D|].
      pose proof (proj1 (proj2 (proj2 EO)) x PX H) as BX. destruct (en_bound e x). cbn in D. lia. }
    destruct (Z.eqb_spec (off + plen) count) as [EC|EC]; cbn [andb] in EX.
    + assert (NIL : body ++ ex = []) by (rewrite EC in TL; inversion TL; [reflexivity|lia]). apply app_eq_nil in NIL. destruct NIL as [-> ->].
      inversion F2; subst r2. exists lines, extra, r1. rewrite app_nil_r. split; [reflexivity|]. split; [rewrite <- EC; exact C1|]. split; [exact F1|]. split.
      * intros x PX L. destruct (NX x PX L) as [D|D]; [left; exact D|right]. pose proof (start_bounds PX). pose proof (start_bounds PS). assert (x = off + plen) by lia. subst x.
        apply (@chain_last _ _ _ C1). lia.
      * intros _. destruct (Z.ltb_spec 0 sep) as [SP|SP].
        -- left. exists off, f. rewrite EB. cbn [fst snd]. repeat split; auto.
        -- right. split; [exact EX|]. intros (x & PX & LX & EX' & SX). destruct (starts_linear PS PX) as [D|[[_ D]|[_ D]]].
           ++ subst x. rewrite EB in SX. cbn in SX. lia.
           ++ rewrite EB in D. cbn in D. lia.
           ++ lia.
    + subst extra. cbn [app]. exists (lines ++ body), ex, (r1 ++ r2). split; [rewrite app_assoc; reflexivity|]. split; [exact (@chain_app _ _ _ _ _ C1 C2)|].
      split; [apply Forall2_app; assumption|]. split.
      * intros x PX L. destruct (NX x PX L) as [D|D]; [left; exact D|right]. rewrite map_app. apply in_app_iff.
        destruct (S2 x PX D) as [->|I]; [left; apply (@chain_last _ _ _ C1); lia|right; exact I].
      * intros _. apply X2. lia.
Qed.

Lemma text_doc_ok off doc : text_lines e text vertical opp so tabWidth pixels area count off doc -> para_start e count off -> doc_ok doc.
Proof.
  induction 1 as [|off plen sep f lines extra rest LT EB LF PL EX TL IH]; intros PS; [constructor|].
  pose proof (@start_next e count off PS LT) as PN. rewrite EB in PN. cbn [fst] in PN. apply Forall_app. split; [|apply Forall_app; split; [|exact (IH PN)]].
  - destruct (Z.ltb_spec 0 (plen - sep)) as [L|L]; [|subst; constructor; [discriminate|constructor]].
    assert (IP : is_para e count off (off + plen - sep)) by (unfold is_para; rewrite EB; cbn [fst snd]; repeat split; auto; lia).
    destruct PL as (ss & bs & T & SOK & OK & W & ->). destruct (para_pe IP) as [PB PE].
    destruct EO as (_ & _ & _ & C). destruct (C _ _ IP) as (C1 & _).
    pose proof (@wrapped_doc_ok (en_info e) vertical (en_code e) _ text off (off + plen - sep) _ C1 bs _ off OK ltac:(lia) W) as D.
    unfold separated. apply Forall_map. eapply Forall_impl; [|exact D]. cbn. intros s N E. apply map_eq_nil in E. contradiction.
  - subst. destruct (_ && _); constructor; [discriminate|constructor].
Qed.
End Text.
