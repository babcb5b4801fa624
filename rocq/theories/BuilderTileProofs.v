(** The visual runs of lines and paragraphs tile their characters. *)
From Coq Require Import Permutation ZifyBool ZifyNat.
From Verif Require Import Base LayoutModel LayoutSpec LayoutProofs BuilderModel BuilderSpec BuilderVisualProofs BuilderBreakProofs.
Open Scope Z_scope.
Set Implicit Arguments.

Lemma chain_app : forall l1 l2 a b c, chain a b l1 -> chain b c l2 -> chain a c (l1 ++ l2).
Proof.
  induction l1 as [|[s e] l1 IH]; intros l2 a b c H1 H2; cbn [chain app] in *; [subst; exact H2|].
  destruct H1 as (A & B & C). split; [exact A|]. split; [exact B|]. exact (IH l2 e b c C H2).
Qed.
Lemma chain_le : forall l a b, chain a b l -> a <= b.
Proof. induction l as [|[s e] l IH]; intros a b H; cbn in H; [lia|]. destruct H as (A & B & C). apply IH in C. lia. Qed.
Lemma chain_in : forall l a b s e, chain a b l -> In (s, e) l -> a <= s /\ s < e /\ e <= b.
Proof.
  induction l as [|[s0 e0] l IH]; intros a b s e H E; [destruct E|]. cbn in H; destruct H as (A & B & C); destruct E as [E|E].
  - inversion E; subst. apply chain_le in C. lia.
  - destruct (IH e0 b s e C E). lia.
Qed.
Lemma chain_ends_nodup : forall l a b, chain a b l -> NoDup (map snd l).
Proof.
  induction l as [|[s e] l IH]; intros a b H; cbn [map snd]; [constructor|]. cbn in H. destruct H as (A & B & C).
  constructor; [|exact (IH e b C)]. intros I. apply in_map_iff in I. destruct I as ([s1 e1] & E & I). cbn in E. subst.
  destruct (@chain_in _ _ _ _ _ C I). lia.
Qed.
Lemma chain_last : forall l a b, chain a b l -> a < b -> In b (map snd l).
Proof.
  induction l as [|[s e] l IH]; intros a b H L; cbn in H; [lia|]. destruct H as (A & B & C). cbn [map snd].
  destruct (Z.eq_dec e b) as [->|D]; [left; reflexivity|right]. apply (IH e b C). apply chain_le in C. lia.
Qed.

Section Tile.
Variables (info : ssfont -> font_info) (vertical : bool) (code : ssfont -> Z).

Definition range (x : ssfont * Z * Z) : Z * Z := (snd (fst x), snd x).
Definition vrange (v : vpiece) : Z * Z := (vp_start v, vp_end v).

Lemma pieces_chain : forall runs q a b, increasing (q :: map snd runs) -> q <= a -> a < b -> b <= last (map snd runs) q ->
  chain a b (map range (pieces runs a b)).
Proof.
  induction runs as [|[f e] runs IH]; intros q a b I Q AB L; [cbn in L; lia|].
  cbn [map snd] in *. destruct (increasing_cons _ _ I) as [_ I2].
  assert (L2 : last (e :: map snd runs) q = last (map snd runs) e).
  { destruct runs as [|z runs] using rev_ind; [reflexivity|]. rewrite last_map_snoc.
    change (e :: map snd (runs ++ [z])) with (map snd (((f, e) :: runs) ++ [z])). apply last_map_snoc. }
  rewrite L2 in L. cbn [pieces]. destruct (Z.leb_spec e a) as [C|C]; [exact (IH e a b I2 C AB L)|].
  destruct (Z.leb_spec b e) as [D|D]; cbn [map chain range fst snd]; [lia|].
  split; [reflexivity|]. split; [exact C|]. apply (IH e e b I2); lia.
Qed.

Lemma visual_runs_ranges p : forall vs w,
  map (fun r => (sr_start r, sr_end r)) (visual_runs code vertical p w vs) = map vrange vs.
Proof. induction vs as [|v vs IH]; intros w; cbn [visual_runs map]; [reflexivity|]. rewrite IH. reflexivity. Qed.

Lemma bidi_pieces_range p r : Permutation (map range (pieces (pa_runs p) (fst (fst r)) (fst (fst r) + snd (fst r)))) (map vrange (bidi_pieces p r)).
Proof.
  destruct r as [[s n] lv]. cbn [fst snd bidi_pieces]. rewrite map_map.
  replace (map (fun x => vrange (x, Z.odd lv)) (if Z.odd lv then rev (pieces (pa_runs p) s (s + n)) else pieces (pa_runs p) s (s + n)))
    with (map range (if Z.odd lv then rev (pieces (pa_runs p) s (s + n)) else pieces (pa_runs p) s (s + n))) by (apply map_ext; intros [[f a] b]; reflexivity).
  apply Permutation_map. destruct (Z.odd lv); [apply Permutation_rev|reflexivity].
Qed.

Lemma Permutation_flat_map2 {A B} (f g : A -> list B) l : (forall x, In x l -> Permutation (f x) (g x)) -> Permutation (flat_map f l) (flat_map g l).
Proof.
  induction l as [|x l IH]; intros H; cbn; [constructor|]. apply Permutation_app; [apply H; left; reflexivity|].
  apply IH. intros y Y. apply H. right. exact Y.
Qed.
Lemma Permutation_flat_map1 {A B} (f : A -> list B) l l' : Permutation l l' -> Permutation (flat_map f l) (flat_map f l').
Proof.
  induction 1; cbn; auto.
  - apply Permutation_app_head. assumption.
  - rewrite !app_assoc. apply Permutation_app_tail. apply Permutation_app_comm.
  - etransitivity; eassumption.
Qed.
Lemma map_flat_map {A B C} (f : A -> list B) (g : B -> C) l : map g (flat_map f l) = flat_map (fun x => map g (f x)) l.
Proof. induction l; cbn; [reflexivity|]. rewrite map_app, IHl. reflexivity. Qed.

Lemma line_of_tile p ps pe bs a b : para_ok ps pe p -> bidi_partition a b bs -> ps <= a -> b <= pe ->
  runs_tile a b (sl_runs (line_of code info vertical p bs)).
Proof.
  intros OK (bs' & P & C) H1 H2. cbn [line_of sl_runs].
  exists (flat_map (fun r => map range (pieces (pa_runs p) (fst (fst r)) (fst (fst r) + snd (fst r)))) bs'). split.
  - rewrite visual_runs_ranges. unfold line_pieces. rewrite map_flat_map.
    etransitivity; [apply Permutation_flat_map1; exact P|]. apply Permutation_flat_map2. intros r _. apply bidi_pieces_range.
  - pose proof OK as (_ & _ & _ & I & L). clear P. revert a H1 C. induction bs' as [|[[s n] lv] bs' IH]; intros a H1 C; cbn in C; [exact C|].
    destruct C as (-> & N & C). cbn [flat_map fst snd]. destruct (consecutive_bounds _ _ _ C) as [LE _].
    apply chain_app with (b := a + n); [|apply IH; [lia|exact C]].
    apply pieces_chain with (q := ps); [exact I|exact H1|lia|lia].
Qed.

Lemma runs_tile_app a b c rs1 rs2 : runs_tile a b rs1 -> runs_tile b c rs2 -> runs_tile a c (rs1 ++ rs2).
Proof.
  intros (l1 & P1 & C1) (l2 & P2 & C2). exists (l1 ++ l2). split; [|exact (@chain_app _ _ _ _ _ C1 C2)].
  rewrite map_app. apply Permutation_app; assumption.
Qed.

Lemma wrapped_tile (good : para -> para -> Z -> Z -> Prop) text ps pe runs : (forall a b, ps <= a -> a < b -> b <= pe -> bidi_partition a b (runs a b)) ->
  forall bs p ls, para_ok ps pe p -> ps <= ls -> wrapped good text p pe ls bs ->
  runs_tile ls pe (doc_runs (wrapped_lines code info vertical runs p ls bs)).
Proof.
  intros R. induction bs as [|[le ws] bs IH]; intros p ls OK LS W; cbn [wrapped wrapped_lines] in *.
  - subst. exists []. split; [constructor|reflexivity].
  - destruct W as (W1 & (W2 & _) & _ & W4). pose proof (@with_widths_ok p ps pe OK ws W2) as OK'.
    change (doc_runs (?x :: ?l)) with (sl_runs x ++ doc_runs l). apply runs_tile_app with (b := le).
    + apply line_of_tile with (ps := ps) (pe := pe); [exact OK'|apply R; lia|lia|lia].
    + apply IH; [exact OK'|lia|exact W4].
Qed.

Lemma wrapped_doc_ok (good : para -> para -> Z -> Z -> Prop) text ps pe runs : (forall a b, ps <= a -> a < b -> b <= pe -> bidi_partition a b (runs a b)) ->
  forall bs p ls, para_ok ps pe p -> ps <= ls -> wrapped good text p pe ls bs ->
  doc_ok (wrapped_lines code info vertical runs p ls bs).
Proof.
  intros R. induction bs as [|[le ws] bs IH]; intros p ls OK LS W; cbn [wrapped wrapped_lines] in *; [constructor|].
  destruct W as (W1 & (W2 & _) & _ & W4). pose proof (@with_widths_ok p ps pe OK ws W2) as OK'.
  constructor; [|apply IH; [exact OK'|lia|exact W4]].
  apply (@line_of_nonempty info vertical code (with_widths p ws) ps pe OK' (runs ls le) ls le); [apply R|..]; lia.
Qed.

(** ** The separator goes to the run that ends last *)
Lemma list_set_map {A} (f : A -> A) : forall l i x, nth_error l i = Some x ->
  (forall j y, nth_error l j = Some y -> j <> i -> f y = y) -> list_set l i (f x) = map f l.
Proof.
  induction l as [|z l IH]; intros [|i] x H F; cbn in H; try discriminate.
  - inversion H; subst. cbn [list_set map]. f_equal. symmetry. rewrite <- (map_id l) at 2. apply map_ext_in. intros y Y.
    destruct (In_nth_error _ _ Y) as (j & J). apply (F (S j) y J). lia.
  - cbn [list_set map]. rewrite (F 0%nat z eq_refl) by lia. f_equal. apply IH; [exact H|]. intros j y J D. apply (F (S j) y J). lia.
Qed.

Lemma runs_of_set g sep : forall rs i r, nth_error rs i = Some r ->
  exists q, nth_error (runs_of g rs) i = Some q /\
  list_set (runs_of g rs) i {| ru_font := ru_font q; ru_glyph_end := ru_glyph_end q; ru_start := ru_start q; ru_end := ru_end q; ru_offset := sep; ru_rtl := ru_rtl q |}
  = runs_of g (list_set rs i {| sr_font := sr_font r; sr_start := sr_start r; sr_end := sr_end r; sr_offset := sep; sr_rtl := sr_rtl r;
          sr_glyphs := sr_glyphs r; sr_end_x := sr_end_x r; sr_end_y := sr_end_y r |}).
Proof.
  intros rs. revert g. induction rs as [|x rs IH]; intros g [|i] r H; cbn in H; try discriminate.
  - inversion H; subst. cbn [runs_of nth_error list_set]. eexists. split; [reflexivity|]. reflexivity.
  - destruct (IH (g + run_len x)%nat i r H) as (q & Q1 & Q2). cbn [runs_of nth_error list_set]. exists q. split; [exact Q1|]. f_equal. exact Q2.
Qed.

Lemma separated_runs pe sep lines : doc_runs (separated pe sep lines) = map (with_separator pe sep) (doc_runs lines).
Proof. unfold doc_runs, separated. induction lines as [|s l IH]; cbn [map flat_map]; [reflexivity|]. rewrite IH, map_app. reflexivity. Qed.
Lemma separated_glyphs pe sep rs : flat_map sr_glyphs (map (with_separator pe sep) rs) = flat_map sr_glyphs rs.
Proof. induction rs as [|r rs IH]; cbn [map flat_map]; [reflexivity|]. rewrite IH. unfold with_separator. destruct (_ =? _); reflexivity. Qed.
Lemma separated_pos pe sep rs : flat_map run_pos (map (with_separator pe sep) rs) = flat_map run_pos rs.
Proof. induction rs as [|r rs IH]; cbn [map flat_map]; [reflexivity|]. rewrite IH. unfold with_separator. destruct (_ =? _); reflexivity. Qed.
Lemma separated_lines pe sep : forall lines k y, lines_of k y (separated pe sep lines) = lines_of k y lines.
Proof.
  induction lines as [|s l IH]; intros k y; [reflexivity|]. cbn [separated map lines_of sl_runs sl_height sl_ascent].
  rewrite map_length. fold (separated pe sep l). rewrite IH. do 2 f_equal. unfold line_width. cbn [sl_runs]. rewrite map_map. f_equal.
  apply map_ext. intros r. unfold with_separator. destruct (_ =? _); reflexivity.
Qed.

Lemma separate d0 lines y high hend ps pe sep : ps < pe -> runs_tile ps pe (doc_runs lines) -> highest (length (doc_runs d0)) (doc_runs lines) high hend ->
  set_run_char_end_offset (layout_of (d0 ++ lines) y) high sep = Ok (layout_of (d0 ++ separated pe sep lines) y).
Proof.
  intros LT (l & P & C) HI.
  assert (NE : doc_runs lines <> []).
  { intros E. rewrite E in P. apply Permutation_sym in P. apply Permutation_nil in P. subst. cbn in C. lia. }
  assert (EX : exists r, nth_error (doc_runs lines) (high - length (doc_runs d0)) = Some r /\ (length (doc_runs d0) <= high)%nat /\
     Forall (fun q => sr_end q <= sr_end r) (doc_runs lines)).
  { unfold highest in HI. destruct (doc_runs lines) as [|r0 rs0]; [contradiction|]. destruct HI as (r & A & B & _ & D). eauto. }
  destruct EX as (r & R & H & F). set (i := (high - length (doc_runs d0))%nat) in *.
  assert (ND : NoDup (map sr_end (doc_runs lines))).
  { replace (map sr_end (doc_runs lines)) with (map snd (map (fun r => (sr_start r, sr_end r)) (doc_runs lines))) by (rewrite map_map; reflexivity).
    eapply Permutation_NoDup; [apply Permutation_map; exact P|]. exact (@chain_ends_nodup _ _ _ C). }
  assert (IN : In pe (map sr_end (doc_runs lines))).
  { replace (map sr_end (doc_runs lines)) with (map snd (map (fun r => (sr_start r, sr_end r)) (doc_runs lines))) by (rewrite map_map; reflexivity).
    eapply Permutation_in; [apply Permutation_map; exact P|]. exact (@chain_last _ _ _ C LT). }
  assert (RE : sr_end r = pe).
  { apply in_map_iff in IN. destruct IN as (q & Q1 & Q2). rewrite Forall_forall in F. specialize (F q Q2).
    assert (I2 : In (sr_start r, sr_end r) l).
    { eapply Permutation_in; [apply Permutation_sym; exact P|]. apply (in_map (fun r => (sr_start r, sr_end r))). exact (nth_error_In _ _ R). }
    destruct (@chain_in _ _ _ _ _ C I2). lia. }
  assert (SET : list_set (doc_runs lines) i (with_separator pe sep r) = map (with_separator pe sep) (doc_runs lines)).
  { apply list_set_map; [exact R|]. intros j q J D. unfold with_separator. destruct (Z.eqb_spec (sr_end q) pe) as [E|E]; [|reflexivity].
    exfalso. apply D. rewrite NoDup_nth_error in ND. apply ND.
    - rewrite map_length. apply nth_error_Some. congruence.
    - rewrite !nth_error_map, J, R. cbn. congruence. }
  assert (WS : with_separator pe sep r = {| sr_font := sr_font r; sr_start := sr_start r; sr_end := sr_end r; sr_offset := sep; sr_rtl := sr_rtl r;
          sr_glyphs := sr_glyphs r; sr_end_x := sr_end_x r; sr_end_y := sr_end_y r |}) by (unfold with_separator; rewrite (proj2 (Z.eqb_eq _ _) RE); reflexivity).
  assert (R' : nth_error (doc_runs (d0 ++ lines)) high = Some r) by (rewrite doc_runs_app, nth_error_app2 by exact H; exact R).
  destruct (@runs_of_set 0 sep _ _ _ R') as (q & Q1 & Q2).
  unfold set_run_char_end_offset. cbn [layout_of lo_runs]. rewrite (vget_some _ _ Q1). cbn [obind].
  unfold vset. rewrite (proj2 (Nat.ltb_lt high _)) by (apply nth_error_Some; congruence). cbn [obind].
  rewrite Q2, <- WS. cbn [layout_of lo_runs lo_lines lo_glyphs lo_chars lo_pos lo_start_y].
  assert (DR : list_set (doc_runs (d0 ++ lines)) high (with_separator pe sep r) = doc_runs (d0 ++ separated pe sep lines)).
  { rewrite !doc_runs_app, separated_runs, <- SET. unfold i. clear -H.
    revert high H. induction (doc_runs d0) as [|z rs IH]; intros high H; cbn [length app list_set] in *.
    - rewrite Nat.sub_0_r. reflexivity.
    - destruct high as [|high]; [lia|]. cbn [list_set Nat.sub]. f_equal. apply IH. lia. }
  unfold layout_of, doc_glyphs, doc_lines. rewrite <- DR. f_equal. 
  assert (G : flat_map sr_glyphs (list_set (doc_runs (d0 ++ lines)) high (with_separator pe sep r)) = flat_map sr_glyphs (doc_runs (d0 ++ lines))).
  { rewrite DR, !doc_runs_app, !flat_map_app, separated_runs, separated_glyphs. reflexivity. }
  assert (G2 : flat_map run_pos (list_set (doc_runs (d0 ++ lines)) high (with_separator pe sep r)) = flat_map run_pos (doc_runs (d0 ++ lines))).
  { rewrite DR, !doc_runs_app, !flat_map_app, separated_runs, separated_pos. reflexivity. }
  rewrite G, G2. f_equal. rewrite !lines_of_app, separated_lines. reflexivity.
Qed.
End Tile.
