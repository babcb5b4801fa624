(** A break iterator and a layout that meet the conditions of the text box: every
    character is a stop, and a text is one line drawn as one ligature. *)
From Coq Require Import ZifyBool ZifyNat Sorted.
From Verif Require Import Base BaseFacts PackingModel LayoutModel LayoutSpec LayoutProofs CursorModel CursorSpec TextBoxModel TextBoxSpec TextBoxUtfProofs.
Open Scope Z_scope.

(** The stops of a text, in order. *)
Definition begins (t : list Z) (i : nat) : bool := match nth_error t i with Some b => negb ((128 <=? b) && (b <=? 191)) | None => true end.
Definition marks (t : list Z) : list Z := map Z.of_nat (filter (begins t) (seq 0 (S (length t)))).
Definition e_following (t : list Z) (x : Z) : Z := hd (-1) (filter (fun b => x <? b) (marks t)).
Definition e_preceding (t : list Z) (x : Z) : Z := hd (-1) (filter (fun b => b <? x) (rev (marks t))).
Definition e_decode (t : list Z) (x : Z) : Z := nth (Z.to_nat x) t 0.
Definition e_white (c : Z) : bool := (c =? 32) || (c =? 10).
Definition e_run (t : list Z) : srun :=
  {| sr_font := 1; sr_start := 0; sr_end := size t; sr_offset := 0; sr_rtl := false;
     sr_glyphs := [{| sg_id := 7; sg_char := 0; sg_x := 0; sg_y := 0 |}]; sr_end_x := inject_Z (10 * size t); sr_end_y := 0 |}.
Definition e_doc (t : list Z) : sdoc := [{| sl_runs := [e_run t]; sl_height := 10; sl_ascent := 8 |}].
(** The text "<b>hi</b>" is "hi" when rich. *)
Definition tagged : list Z := [60; 98; 62; 104; 105; 60; 47; 98; 62].
Definition e_strip (t : list Z) : list Z := if list_eq_dec Z.eq_dec t tagged then [104; 105] else t.
Definition e_build (rich : bool) (t : list Z) : layout := layout_of (e_doc (if rich then e_strip t else t)) 0.

Lemma marks_in t b : In b (marks t) <-> on_char t b.
Proof.
  unfold marks. rewrite in_map_iff. split.
  - intros (i & <- & I). apply filter_In in I. destruct I as (I & G). apply in_seq in I. split; [unfold size; lia|]. rewrite Nat2Z.id. intros x X. unfold begins in G. rewrite X in G. lia.
  - intros (R & O). exists (Z.to_nat b). split; [lia|]. apply filter_In. split; [apply in_seq; unfold size in R; lia|]. unfold begins. destruct (nth_error t (Z.to_nat b)) as [x|]; [|reflexivity]. specialize (O x eq_refl). lia.
Qed.
Lemma sorted_filter {A} (R : A -> A -> Prop) f l : StronglySorted R l -> StronglySorted R (filter f l).
Proof.
  induction 1 as [|a l S IH F]; cbn; [constructor|]. destruct (f a); [|exact IH]. constructor; [exact IH|]. rewrite Forall_forall in *. intros x X. apply filter_In in X. apply F, X.
Qed.
Lemma seq_sorted n : forall k, StronglySorted lt (seq k n).
Proof. induction n as [|n IH]; intros k; cbn; constructor; [apply IH|]. apply Forall_forall. intros x X. apply in_seq in X. lia. Qed.
Lemma marks_sorted t : StronglySorted Z.lt (marks t).
Proof.
  unfold marks. pose proof (sorted_filter _ (begins t) _ (seq_sorted (S (length t)) 0)) as S. induction S as [|a l S IH F]; cbn; constructor; [exact IH|].
  rewrite Forall_forall in *. intros x X. apply in_map_iff in X. destruct X as (y & <- & Y). specialize (F y Y). lia.
Qed.
Lemma hd_filter_spec {A} (R : A -> A -> Prop) f d l : StronglySorted R l ->
  (In (hd d (filter f l)) l /\ f (hd d (filter f l)) = true /\ forall b, In b l -> f b = true -> b = hd d (filter f l) \/ R (hd d (filter f l)) b) \/
  (hd d (filter f l) = d /\ forall b, In b l -> f b = false).
Proof.
  intros S. destruct (filter f l) as [|a m] eqn:E; cbn [hd].
  - right. split; [reflexivity|]. intros b Bi. destruct (f b) eqn:FB; [|reflexivity]. assert (X : In b (filter f l)) by (apply filter_In; auto). rewrite E in X. destruct X.
  - left. assert (X : In a (filter f l)) by (rewrite E; left; reflexivity). apply filter_In in X. split; [apply X|]. split; [apply X|]. intros b Bi FB.
    assert (Y : In b (filter f l)) by (apply filter_In; auto). pose proof (sorted_filter R f l S) as SF. rewrite E in *. destruct Y as [->|Y]; [auto|]. right. inversion SF as [|? ? _ F]. rewrite Forall_forall in F. apply F, Y.
Qed.
Lemma rev_sorted l : StronglySorted Z.lt l -> StronglySorted Z.gt (rev l).
Proof.
  induction 1 as [|a l S IH F]; cbn; [constructor|]. clear S. rewrite Forall_forall in F.
  assert (G : forall x, In x (rev l) -> x > a) by (intros x X; apply in_rev in X; specialize (F x X); lia). clear F. revert G.
  induction IH as [|b m S' IH' F']; intros G; cbn; [repeat constructor|]. constructor; [apply IH'; intros x X; apply G; right; exact X|].
  apply Forall_app. split; [exact F'|]. constructor; [apply G; left; reflexivity|constructor].
Qed.
Lemma e_stops : good_stops (fun t => on_char t) e_following e_preceding.
Proof.
  intros t V S. split; [|split; [|split]].
  - split; [exact (seam [] t V)|]. split; [|intros b (R & _); exact R]. pose proof (seam t [] valid_nil) as H. rewrite app_nil_r in H. exact H.
  - intros x X. unfold e_following, next_stop, DONE. destruct (hd_filter_spec Z.lt (fun b => x <? b) (-1) (marks t) (marks_sorted t)) as [(H1 & H2 & H3)|(H1 & H2)]; [left|right].
    + split; [apply marks_in; exact H1|]. split; [lia|]. intros b Bb L. apply marks_in in Bb. destruct (H3 b Bb ltac:(lia)); lia.
    + split; [exact H1|]. intros b Bb. apply marks_in in Bb. specialize (H2 b Bb). lia.
  - intros x X. unfold e_preceding, prev_stop, DONE. destruct (hd_filter_spec Z.gt (fun b => b <? x) (-1) (rev (marks t)) (rev_sorted _ (marks_sorted t))) as [(H1 & H2 & H3)|(H1 & H2)]; [left|right].
    + split; [apply marks_in; apply in_rev; exact H1|]. split; [lia|]. intros b Bb L. apply marks_in in Bb. apply in_rev in Bb. destruct (H3 b Bb ltac:(lia)); lia.
    + split; [exact H1|]. intros b Bb. apply marks_in in Bb. apply in_rev in Bb. specialize (H2 b Bb). lia.
  - auto.
Qed.
Lemma e_doc_ok t : doc_ok (e_doc t).
Proof. constructor; [discriminate|constructor]. Qed.
Lemma e_layouts : good_layouts (e_build false) (fun t => on_char t).
Proof.
  intros t V NE S. exists (e_doc t), 0%Q. assert (SP : 0 < size t) by (unfold size; destruct t; [congruence|cbn [length]; lia]).
  split; [apply e_doc_ok|]. split; [apply stored_layout; apply e_doc_ok|]. split; [discriminate|]. split; [constructor; [discriminate|constructor]|]. split.
  - constructor; [|constructor]. unfold run_ok, logical_chars, run_chars. cbn. split; [lia|]. split; [lia|]. split; [lia|]. split; [constructor; [lia|constructor]|]. split; [reflexivity|exact I].
  - constructor; [|constructor]. split.
    + constructor; [exact (seam [] t V)|constructor].
    + cbn [e_run sr_end]. pose proof (seam t [] valid_nil) as H. rewrite app_nil_r in H. exact H.
Qed.
