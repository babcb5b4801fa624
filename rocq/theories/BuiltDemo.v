(** The small text engine keeps the further contracts, too. *)
From Coq Require Import ZifyBool ZifyNat.
From Verif Require Import Base ValueRunsModel ScriptRunModel LayoutModel LayoutSpec BuilderModel BuilderSpec BuilderTileProofs BuilderShapeProofs BuilderVisualProofs BuilderDocProofs BuilderLineProofs BuilderDemo BuiltSpec.
Open Scope Z_scope.

Fixpoint numbers (a : Z) (n : nat) : list Z := match n with O => [] | S n => a :: numbers (a + 1) n end.
Lemma numbers_app a n m : numbers a (n + m) = numbers a n ++ numbers (a + Z.of_nat n) m.
Proof. revert a. induction n as [|n IH]; intros a; cbn [numbers plus app]; [f_equal; lia|]. rewrite IH. do 2 f_equal. f_equal. lia. Qed.
Lemma numbers_in a n x : In x (numbers a n) <-> a <= x < a + Z.of_nat n.
Proof. revert a. induction n as [|n IH]; intros a; cbn [numbers In]; [lia|]. rewrite IH. lia. Qed.
Lemma numbers_increasing a n : increasing (numbers a n).
Proof.
  revert a. induction n as [|n IH]; intros a; [exact I|]. cbn [numbers]. specialize (IH (a + 1)). destruct n; [exact I|]. cbn [numbers] in *. split; [lia|exact IH].
Qed.
Lemma map_seq_numbers a k n : map (fun i => Z.of_nat i + a) (seq k n) = numbers (a + Z.of_nat k) n.
Proof. revert k. induction n as [|n IH]; intros k; [reflexivity|]. cbn [seq map numbers]. rewrite IH. f_equal; [lia|f_equal; lia]. Qed.

Section Demo.
Variables (text : list Z) (bound : Z -> Z * Z) (opps : Z -> list Z) (runs : Z -> Z -> Z -> list (Z * Z * Z)) (levels : Z -> list Z) (script : Z -> Z) (adv yadv : Z -> Z).
Variables (so : sources) (count : Z).
Notation eng := (demo text bound opps runs levels script adv yadv).
Hypothesis EO : engine_ok eng (demo_opp opps) count.
Hypothesis CB : 0 <= count.

Lemma demo_chars ss a b : segments_tile a b ss -> forall c, map lg_char (segments_glyphs (en_info eng) text (en_shape eng) false c ss) = numbers a (Z.to_nat (b - a)).
Proof.
  revert a. induction ss as [|s ss IH]; intros a T c; unfold segments_tile in T; cbn [map chain] in T.
  - subst. rewrite Z.sub_diag. reflexivity.
  - destruct T as (<- & L & T). pose proof (chain_le _ _ _ T). cbn [segments_glyphs]. rewrite map_app, (IH (se_end s) T).
    replace (Z.to_nat (b - se_start s)) with (Z.to_nat (se_end s - se_start s) + Z.to_nat (b - se_end s))%nat by lia. rewrite numbers_app. f_equal; [|f_equal; lia].
    unfold segment_glyphs, hb_of. cbn [demo en_shape]. unfold demo_shape.
    destruct (Z.odd (se_level s)); [rewrite map_rev|]; rewrite sglyphs_chars; [rewrite map_rev, rev_involutive|]; rewrite map_map; cbn [demo_glyph hb_cluster]; rewrite map_seq_numbers; f_equal; lia.
Qed.
Lemma demo_glyph_at ps pe ss x : segments_tile ps pe ss -> (glyph_at eng text false ss x <-> ps <= x < pe).
Proof. intros T. unfold glyph_at, shaped_para. cbn [para_of pa_glyphs]. rewrite (demo_chars _ _ _ T), numbers_in. pose proof (chain_le _ _ _ T). lia. Qed.
Lemma demo_clusters : whole_clusters eng text false (demo_opp opps) so count.
Proof.
  split.
  - intros f scr rtl a n N. cbn [demo en_shape]. unfold demo_shape.
    assert (H : In 0 (map hb_cluster (map (fun i => demo_glyph text adv yadv scr a (Z.of_nat i)) (seq 0 (Z.to_nat n))))).
    { rewrite map_map. apply in_map_iff. exists 0%nat. split; [reflexivity|]. apply in_seq. lia. }
    destruct rtl; [rewrite map_rev; apply -> in_rev|]; exact H.
  - intros ps pe ss (IP & T & _). split; [intros o _ H; apply (demo_glyph_at ps pe); assumption|].
    intros a b s n level GA L GB I. apply (demo_glyph_at ps pe _ _ T) in GA. apply (demo_glyph_at ps pe _ _ T).
    assert (a < b <= pe) by (destruct GB as [GB|GB]; [apply (demo_glyph_at ps pe _ _ T) in GB|]; lia).
    destruct EO as (_ & _ & _ & C). destruct (C ps pe IP) as (BP & _). specialize (BP a b ltac:(lia) ltac:(lia) ltac:(lia)).
    destruct (bidi_bounds BP) as (_ & BB). rewrite Forall_forall in BB. specialize (BB _ I). cbn in BB. lia.
Qed.
Lemma demo_single : single_glyphs eng text false so count.
Proof. intros ps pe ss (_ & T & _). unfold shaped_para. cbn [para_of pa_glyphs]. rewrite (demo_chars _ _ _ T). apply numbers_increasing. Qed.
Lemma demo_forward tabWidth pixels : (forall b, 0 <= adv b) -> ~ In 9 text \/ pixels = true /\ 0 < tabWidth -> pen_forward eng text false so count tabWidth pixels.
Proof.
  intros A TB. split; [|exact TB]. intros ps pe ss _. unfold rightward, shaped_para. cbn [para_of pa_glyphs].
  assert (G : forall c, Forall (fun g => 0 <= lg_width g) (segments_glyphs (en_info eng) text (en_shape eng) false c ss)); [|apply G].
  induction ss as [|s ss IH]; intros c; [constructor|]. cbn [segments_glyphs]. apply Forall_app. split; [|apply IH]. clear IH.
  assert (Z0 : Forall (fun h => 0 <= hb_xadv h /\ hb_xoff h = 0) (hb_of (en_shape eng) s)).
  { unfold hb_of. cbn [demo en_shape]. unfold demo_shape. assert (F : Forall (fun h => 0 <= hb_xadv h /\ hb_xoff h = 0) (map (fun i => demo_glyph text adv yadv (se_script s) (se_start s) (Z.of_nat i)) (seq 0 (Z.to_nat (se_end s - se_start s))))).
    { apply Forall_map, Forall_forall. intros i _. cbn. split; [apply A|reflexivity]. }
    destruct (Z.odd (se_level s)); [apply Forall_rev|]; exact F. }
  unfold segment_glyphs. assert (F : Forall (fun g => 0 <= lg_width g) (shaped_glyphs (en_info eng) text false (se_font s) (se_start s) c (hb_of (en_shape eng) s))).
  { revert Z0. generalize (hb_of (en_shape eng) s). intros l. revert c. induction l as [|h l IH]; intros c F; [constructor|]. inversion F as [|? ? [A1 A2] F2]; subst. cbn [shaped_glyphs]. constructor; [|apply IH; exact F2].
    cbn [lg_width prim_adv prim_off]. assert (N : next_off false l = 0) by (destruct l as [|h2 l]; [reflexivity|]; inversion F2 as [|? ? [_ B] _]; subst; exact B). rewrite N.
    destruct (is_tab text (se_start s + hb_cluster h) && negb false); cbn; lia. }
  destruct (Z.odd (se_level s)); [apply Forall_rev|]; exact F.
Qed.
Lemma demo_stops : stops_at_glyphs eng text false so count (fun x => 0 <= x <= count).
Proof.
  assert (S : forall x, para_start eng count x -> 0 <= x <= count) by (intros x P; pose proof (start_bounds EO P); lia).
  split; [exact S|]. split; [intros ps pe IP; destruct (para_pe EO IP); lia|].
  intros ps pe ss c (IP & T & _) G. apply (demo_glyph_at ps pe _ _ T) in G. destruct (para_pe EO IP). lia.
Qed.
End Demo.
