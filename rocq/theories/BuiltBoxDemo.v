(** Libraries for every text a box may hold: one paragraph of one script and one font, left
    to right, one glyph for each character. *)
From Coq Require Import ZifyBool ZifyNat Permutation.
From Verif Require Import Base BaseFacts ValueRunsModel ValueRunsSpec ScriptRunModel ScriptRunSpec LayoutModel LayoutSpec TextBoxSpec TextBoxUtfProofs TextBoxExample.
From Verif Require Import BuilderModel BuilderSpec BuilderTileProofs BuilderShapeProofs BuilderDocProofs BuilderLineProofs BuilderDemo BuiltSpec BuiltDemo.
Open Scope Z_scope.

Definition box_glyph (t : list Z) (a : Z) (i : nat) : hb_glyph :=
  {| hb_id := nth (Z.to_nat a + i) t 0; hb_cluster := Z.of_nat i; hb_xadv := 640; hb_yadv := 0; hb_xoff := 0; hb_yoff := 0 |}.
Definition box_clusters (t : list Z) (a n : Z) : list nat := filter (fun i => (i =? 0)%nat || begins t (Z.to_nat a + i)) (seq 0 (Z.to_nat n)).
Definition box_engine (t : list Z) : engine := {|
  en_script := fun _ => 0; en_info := fun _ => demo_info;
  en_shape := fun _ _ rtl a n => let gs := map (box_glyph t a) (box_clusters t a n) in if rtl then rev gs else gs;
  en_sub := fun base a limit scr sc sb sp => (demo_font base sc sb sp, limit);
  en_runs := fun _ a n => [(a, n, 0)]; en_code := demo_code; en_next := fun a pe => (nth (Z.to_nat a) t 0, a + 1); en_hangs := fun c => c =? 32;
  en_preceding := fun _ _ _ => -1; en_levels := fun _ => repeat 0 (length t);
  en_items := fun a n => map (fun b => (b, 1)) (firstn (Z.to_nat n) (skipn (Z.to_nat a) t));
  en_bound := fun _ => (size t, 0); en_base_info := fun _ => demo_info; en_default := fun base => demo_font base false false false |}.
Definition box_sources (t : list Z) : sources :=
  {| so_view := padded_view [(size t, 1)] [(size t + 1, 0)]; so_table := [(size t, 1)]; so_pad := [(size t + 1, 0)];
     so_small := no_style; so_sub := no_style; so_super := no_style |}.

Lemma box_bytes (l : list Z) : bytes (map (fun b => (b, 1)) l) = Z.of_nat (length l).
Proof. induction l as [|x l IH]; [reflexivity|]. cbn [map bytes fold_right snd length] in *. unfold bytes in IH. rewrite IH. lia. Qed.

Section Box.
Variable t : list Z.
Hypothesis NE : t <> [].
Lemma box_pos : 0 < size t.
Proof. unfold size. destruct t; [contradiction|]. cbn [length]. lia. Qed.
Lemma box_starts x : para_start (box_engine t) (size t) x -> x = 0 \/ x = size t.
Proof. induction 1 as [|x P IH L]; [auto|]. cbn in *. lia. Qed.
Lemma box_para ps pe : is_para (box_engine t) (size t) ps pe -> ps = 0 /\ pe = size t.
Proof. intros (P & L & E & _). destruct (box_starts _ P) as [->| ->]; cbn in *; lia. Qed.
Lemma clusters_ok a n : nondecreasing (map Z.of_nat (box_clusters t a n)) /\ Forall (fun i => 0 <= Z.of_nat i < n) (box_clusters t a n).
Proof.
  unfold box_clusters. split.
  - generalize (fun i => (i =? 0)%nat || begins t (Z.to_nat a + i)). intros f. generalize 0%nat at 1. intros k. revert k.
    assert (G : forall m k, nondecreasing (map Z.of_nat (filter f (seq k m))) /\ Forall (fun z => Z.of_nat k <= z) (map Z.of_nat (filter f (seq k m)))).
    { induction m as [|m IH]; intros k; [split; constructor|]. cbn [seq filter]. destruct (IH (S k)) as [N F]. destruct (f k).
      - cbn [map]. split; [|constructor; [lia|eapply Forall_impl; [|exact F]; cbn; lia]]. destruct (map Z.of_nat (filter f (seq (S k) m))) as [|y l]; [exact I|]. inversion F; subst. split; [lia|exact N].
      - split; [exact N|]. eapply Forall_impl; [|exact F]. cbn. lia. }
    intros k. apply G.
  - apply Forall_forall. intros i I. apply filter_In in I. destruct I as [I _]. apply in_seq in I. lia.
Qed.
Lemma box_engine_ok : engine_ok (box_engine t) (fun _ _ => False) (size t).
Proof.
  pose proof box_pos as BP. split; [|split; [|split]].
  - intros f scr rtl a n N. cbn [box_engine en_shape]. destruct (clusters_ok a n) as [C1 C2].
    assert (S : nondecreasing (map hb_cluster (map (box_glyph t a) (box_clusters t a n)))) by (rewrite map_map; exact C1).
    assert (F : Forall (fun g => 0 <= hb_cluster g < n) (map (box_glyph t a) (box_clusters t a n))) by (apply Forall_map; exact C2).
    cbv zeta. destruct rtl; [rewrite rev_involutive|]; split; try assumption. apply Forall_rev. exact F.
  - intros base a limit scr sc sb sp L. cbn. lia.
  - intros off P L. destruct (box_starts _ P) as [->| ->]; cbn; lia.
  - intros ps pe IP. destruct (box_para ps pe IP) as [-> ->]. cbn [box_engine en_runs en_next en_preceding en_levels en_items]. rewrite Z.sub_0_r.
    split; [intros a b _ L _; exists [(a, b - a, 0)]; split; [reflexivity|]; cbn [consecutive]; lia|].
    split; [cbn; lia|]. split; [intros x; split; [intros o []|right; lia]|]. split; [intros o []|]. split; [intros o a []|].
    split; [rewrite repeat_length; unfold size; lia|]. split; [apply Forall_map, Forall_forall; cbn; lia|].
    unfold size. rewrite box_bytes, firstn_length, skipn_length. cbn [Z.to_nat]. lia.
Qed.
Lemma box_can_build : can_build (box_engine t) (t ++ [0]) (fun _ _ => False) (box_sources t) (size t).
Proof.
  pose proof box_pos as BP. split; [exact box_engine_ok|]. split; [|split; [split; [lia|exists 0; split; [unfold zget, vget, size; rewrite (proj2 (Z.ltb_ge _ _)) by lia; rewrite Nat2Z.id, nth_error_app2, Nat.sub_diag by lia; reflexivity|lia]]|left]].
  - unfold sources_ok, style_ok, table_ok, reads, sorted, final_limit. cbn [box_sources so_view so_table so_pad so_small so_sub so_super no_style st_view st_table st_pad].
    split; [|split; [exact I|split; exact I]].
    split; [split; [reflexivity|split; reflexivity]|]. split; [cbn; lia|]. split; [cbn; repeat constructor; lia|]. split; [discriminate|]. split; [cbn; repeat constructor; lia|reflexivity].
  - split; [discriminate|]. split; [|split].
    + intros s [<-|[<-|[<-|[]]]]; cbn; congruence.
    + intros l [<-|[]]. cbn. lia.
    + intros s l [<-|[<-|[<-|[]]]] H; destruct H.
Qed.

(** There is one segment. *)
Definition weak (st : stack) : Prop := Forall (fun x => strong (snd x) = false) st.
Lemma weak_drop o st : weak st -> weak (drop_to o st).
Proof. induction 1 as [|[p c] st H W IH]; [constructor|]. cbn [drop_to]. destruct (p =? o); [constructor; assumption|exact IH]. Qed.
Lemma one_group : forall its st code bad cur, weak st -> strong code = false -> exists c, groups_from (fun _ => 0) st code bad cur its = [(rev cur ++ its, c)].
Proof.
  induction its as [|it its IH]; intros st code bad cur W S; cbn [groups_from]; [rewrite app_nil_r; eauto|].
  assert (M : forall st1 sc bad1, meet (fun _ => 0) st code bad (fst it) = (st1, sc, bad1) -> weak st1 /\ strong sc = false).
  { intros st1 sc bad1. unfold meet. set (own := if bad || negb (valid_char (fst it)) then -1 else 0). assert (SO : strong own = false) by (unfold own; destruct (bad || negb (valid_char (fst it))); reflexivity).
    destruct (role_of (fst it)) as [|o|o].
    - intros E; inversion E; subst. auto.
    - intros E; inversion E; subst. split; [|exact SO]. apply Forall_forall. intros x X. apply (firstn_In 32) in X || idtac. assert (Y : In x ((o, code) :: st)) by (rewrite <- (firstn_skipn 32 ((o, code) :: st)); apply in_app_iff; left; exact X).
      destruct Y as [<-|Y]; [exact S|]. unfold weak in W. rewrite Forall_forall in W. auto.
    - pose proof (weak_drop o st W) as WD. destruct (drop_to o st) as [|[p c] st']; intros E; inversion E; subst; (split; [exact WD|]); [exact SO|]. inversion WD; subst. assumption. }
  destruct (meet (fun _ => 0) st code bad (fst it)) as [[st1 sc] bad1] eqn:E. destruct (M _ _ _ eq_refl) as [W1 S1].
  unfold compatible. rewrite S. cbn [negb orb]. unfold absorb. rewrite S, S1. cbn [negb andb].
  destruct (IH (match role_of (fst it) with Closes _ => tl st1 | _ => st1 end) code bad1 (it :: cur)) as (c & EG); [|exact S|].
  { destruct (role_of (fst it)); try exact W1. unfold weak in *. destruct W1; [constructor|assumption]. }
  exists c. rewrite EG. cbn [rev]. rewrite <- app_assoc. reflexivity.
Qed.
Lemma box_edges m : edge (box_engine t) (box_sources t) 0 (size t) m -> m = size t.
Proof.
  intros [E|[E|[(s & I & N & _)|[(a & b & scr & I & E)|(L & D)]]]].
  - exact E.
  - destruct E as [E|[]]. symmetry. exact E.
  - exfalso. apply N. destruct I as [<-|[<-|[<-|[]]]]; reflexivity.
  - cbn [box_engine en_items en_script] in I. rewrite Z.sub_0_r in I. unfold size in I. rewrite Nat2Z.id in I. change (skipn (Z.to_nat 0) t) with t in I. rewrite firstn_all in I. unfold script_groups in I.
    destruct (map (fun b => (b, 1)) t) as [|z l] eqn:EM; [destruct I|]. rewrite <- EM in I. destruct (one_group (map (fun b => (b, 1)) t) [] 0 false []) as (c & EG); [constructor|reflexivity|].
    rewrite EG in I. cbn [rev app laid_out] in I. destruct I as [I|[]]. inversion I; subst. rewrite box_bytes. unfold size. lia.
  - exfalso. apply D. cbn [box_engine en_levels]. unfold size in L. rewrite !(nth_error_repeat 0) by lia. reflexivity.
Qed.
Lemma box_segments ps pe ss : cut_up (box_engine t) (box_sources t) (size t) ps pe ss -> ps = 0 /\ pe = size t /\ exists s, ss = [s] /\ se_start s = 0 /\ se_end s = size t /\ se_level s = 0.
Proof.
  intros (IP & T & OK). destruct (box_para ps pe IP) as [-> ->]. split; [reflexivity|]. split; [reflexivity|]. pose proof box_pos as BP.
  destruct ss as [|s ss]; unfold segments_tile in T; cbn [map chain] in T; [lia|]. destruct T as (S0 & L & T). inversion OK as [|? ? SK _]; subst.
  destruct SK as (base & sc & sb & sp & limit & L1 & L2 & ED & SU & AT). apply box_edges in ED. subst limit. cbn [box_engine en_sub] in SU. inversion SU as [[F1 F2]].
  rewrite <- F2 in T. destruct ss as [|s2 ss]; [exists s; split; [reflexivity|]; split; [exact S0|]; split; [symmetry; exact F2|]|].
  - destruct (AT 0 ltac:(lia)) as (_ & AL & _). cbn [box_engine en_levels] in AL. rewrite (nth_error_repeat 0) in AL by (unfold size in *; lia). inversion AL. reflexivity.
  - exfalso. cbn [map chain] in T. destruct T as (U1 & U2 & U3). apply chain_le in U3. lia.
Qed.
Lemma box_glyph_at ps pe ss x : valid_utf8 t -> cut_up (box_engine t) (box_sources t) (size t) ps pe ss -> (glyph_at (box_engine t) (t ++ [0]) false ss x <-> on_char t x /\ x < size t).
Proof.
  intros V CU. destruct (box_segments ps pe ss CU) as (-> & -> & s & -> & S0 & S1 & S2). unfold glyph_at, shaped_para. cbn [para_of pa_glyphs segments_glyphs]. rewrite app_nil_r.
  unfold segment_glyphs. rewrite S2. cbn [Z.odd]. rewrite sglyphs_chars. unfold hb_of. rewrite S0, S1, S2. cbn [box_engine en_shape Z.odd]. rewrite map_map, in_map_iff.
  pose proof box_pos as BP. rewrite Z.sub_0_r. unfold box_clusters.
  assert (B0 : begins t 0 = true).
  { pose proof (seam [] t V) as O0. cbn [app] in O0. apply marks_in in O0. unfold marks in O0. apply in_map_iff in O0. destruct O0 as (i & Ei & I). apply filter_In in I. change (size []) with 0 in Ei. replace i with 0%nat in I by lia. exact (proj2 I). }
  split.
  - intros (i & <- & I). apply filter_In in I. destruct I as [I B]. apply in_seq in I. cbn [box_glyph hb_cluster Z.to_nat plus] in *. rewrite Z.add_0_r. split; [|unfold size in *; lia].
    apply marks_in. unfold marks. apply in_map, filter_In. split; [apply in_seq; unfold size in *; lia|]. destruct (Nat.eqb_spec i 0) as [->|]; [exact B0|exact B].
  - intros (O & L). apply marks_in in O. unfold marks in O. apply in_map_iff in O. destruct O as (i & <- & I). apply filter_In in I. destruct I as [I B].
    exists i. split; [cbn; lia|]. apply filter_In. split; [apply in_seq; unfold size in *; lia|]. change (Z.to_nat 0 + i)%nat with i. apply orb_true_iff. right. exact B.
Qed.

Lemma box_whole : valid_utf8 t -> whole_clusters (box_engine t) (t ++ [0]) false (fun _ _ => False) (box_sources t) (size t).
Proof.
  intros V. split.
  - intros f scr rtl a n N. cbn [box_engine en_shape]. cbv zeta.
    assert (I0 : In 0 (map hb_cluster (map (box_glyph t a) (box_clusters t a n)))).
    { rewrite map_map. apply in_map_iff. exists 0%nat. split; [reflexivity|]. apply filter_In. split; [apply in_seq; lia|reflexivity]. }
    destruct rtl; [rewrite map_rev; apply in_rev; rewrite rev_involutive|]; exact I0.
  - intros ps pe ss CU. split; [intros o []|]. intros a b s n level GA _ _ [E|[]]. inversion E; subst. exact GA.
Qed.
Lemma box_stops : valid_utf8 t -> stops_at_glyphs (box_engine t) (t ++ [0]) false (box_sources t) (size t) (on_char t).
Proof.
  intros V. assert (O0 : on_char t 0) by exact (seam [] t V).
  assert (OE : on_char t (size t)). { pose proof (seam t [] (ex_intro _ [] (conj (Forall_nil _) eq_refl))) as S. rewrite app_nil_r in S. exact S. }
  split; [|split].
  - intros x P. destruct (box_starts x P) as [->| ->]; assumption.
  - intros ps pe IP. destruct (box_para ps pe IP) as [-> ->]. exact OE.
  - intros ps pe ss c CU GA. apply (box_glyph_at ps pe ss c V CU) in GA. exact (proj1 GA).
Qed.
End Box.
