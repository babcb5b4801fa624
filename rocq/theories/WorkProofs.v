(** Proofs about the memory of a layout builder. *)
From Coq Require Import Lia Bool.
From Verif Require Import Base BaseFacts WorkModel WorkSpec.
Open Scope list_scope.

Lemma kind_dec (a b : work_kind) : {a = b} + {a <> b}. Proof. decide equality. Defined.
Lemma snoc_split {A} (l : list A) x before e after : l ++ [x] = before ++ e :: after -> (after = [] /\ before = l /\ e = x) \/ exists a', after = a' ++ [x] /\ l = before ++ e :: a'.
Proof.
  destruct (exists_last (l := e :: after)) as (a' & y & E); [discriminate|]. rewrite E, app_assoc. intros H. apply app_inj_tail in H as [-> <-].
  destruct a' as [|z a']; cbn in E; injection E as -> ->; [left|right].
  - rewrite app_nil_r. auto.
  - exists a'. auto.
Qed.
Lemma now_snoc tr e k n : exists_now (tr ++ [e]) k n <->
  match e with Got k' n' => (k = k' /\ n = n') \/ exists_now tr k n | Gave k' n' => exists_now tr k n /\ ~ (k = k' /\ n = n') | _ => exists_now tr k n end.
Proof.
  unfold exists_now. split.
  - intros (b & a & E & N). apply snoc_split in E as [(-> & -> & <-)|(a' & -> & ->)]; [left; auto|].
    assert (X : exists before after, b ++ Got k n :: a' = before ++ Got k n :: after /\ ~ In (Gave k n) after) by (exists b, a'; split; [reflexivity|intros I; apply N, in_or_app; left; exact I]).
    destruct e; auto. split; [exact X|]. intros [-> ->]. apply N, in_or_app. right. left. reflexivity.
  - destruct e as [k' n'|k' n'|k' n'|]; intros H.
    + destruct H as [[-> ->]|(b & a & -> & N)]; [exists tr, []; split; [reflexivity|intros []]|].
      exists b, (a ++ [Got k' n']). rewrite <- app_assoc. split; [reflexivity|]. intros I. apply in_app_or in I as [I|[I|[]]]; [tauto|discriminate].
    + destruct H as (b & a & -> & N). exists b, (a ++ [Used k' n']). rewrite <- app_assoc. split; [reflexivity|]. intros I. apply in_app_or in I as [I|[I|[]]]; [tauto|discriminate].
    + destruct H as [(b & a & -> & N) D]. exists b, (a ++ [Gave k' n']). rewrite <- app_assoc. split; [reflexivity|]. intros I. apply in_app_or in I as [I|[I|[]]]; [tauto|]. injection I as -> ->. auto.
    + destruct H as (b & a & -> & N). exists b, (a ++ [Unwritten]). rewrite <- app_assoc. split; [reflexivity|]. intros I. apply in_app_or in I as [I|[I|[]]]; [tauto|discriminate].
Qed.
Definition event_ok (tr : list work_event) (e : work_event) : Prop := match e with Got k n => ~ exists_now tr k n | Used k n | Gave k n => exists_now tr k n | Unwritten => True end.
Lemma proper_snoc tr e : work_proper tr -> event_ok tr e -> work_proper (tr ++ [e]).
Proof. intros P O before x after E. apply snoc_split in E as [(-> & -> & ->)|(a' & -> & ->)]; [exact O|]. exact (P before x a' eq_refl). Qed.

(** All is well with a record: blocks stay. *)
Record good (tr : list work_event) : Prop := {
  g_proper : work_proper tr;
  g_fresh : forall k n, exists_now tr k n -> n < length tr;
  g_blocks : forall n, exists_now tr TextBlock n <-> In (Got TextBlock n) tr
}.
Record frame (tr tr' : list work_event) (c : nat) : Prop := {
  f_good : good tr';
  f_same : forall k n, k <> TextBlock -> exists_now tr' k n <-> exists_now tr k n;
  f_count : blocks_made tr' = blocks_made tr + c
}.
Lemma frame_trans a b c m n : frame a b m -> frame b c n -> frame a c (m + n).
Proof. intros F G. split; [apply G| |]. { intros k x K. rewrite (f_same _ _ _ G) by exact K. apply (f_same _ _ _ F), K. } rewrite (f_count _ _ _ G), (f_count _ _ _ F). lia. Qed.
Lemma made_snoc tr e : blocks_made (tr ++ [e]) = blocks_made tr + (if is_block e then 1 else 0).
Proof. unfold blocks_made. rewrite filter_app, app_length. cbn. destruct (is_block e); reflexivity. Qed.
Lemma good_snoc tr e : good tr -> event_ok tr e -> (forall k n, e = Got k n -> n = length tr) -> (forall n, e <> Gave TextBlock n) -> good (tr ++ [e]).
Proof.
  intros G O N NB. split.
  - apply proper_snoc; [apply G|exact O].
  - intros k n E. rewrite app_length. cbn [length]. rewrite now_snoc in E. destruct e as [k' n'|k' n'|k' n'|].
    + destruct E as [[-> ->]|E]; [rewrite (N _ _ eq_refl); lia|]. pose proof (g_fresh _ G _ _ E). lia.
    + pose proof (g_fresh _ G _ _ E). lia.
    + pose proof (g_fresh _ G _ _ (proj1 E)). lia.
    + pose proof (g_fresh _ G _ _ E). lia.
  - intros n. rewrite now_snoc, in_app_iff, <- (g_blocks _ G n). cbn [In]. destruct e as [k' n'|k' n'|k' n'|]; split.
    + intros [[<- ->]|E]; auto.
    + intros [E|[E|[]]]; [auto|]. injection E as -> ->. auto.
    + auto.
    + intros [E|[E|[]]]; [auto|discriminate].
    + intros [E _]. auto.
    + intros [E|[E|[]]]; [|discriminate]. split; [exact E|]. intros [<- ->]. exact (NB _ eq_refl).
    + auto.
    + intros [E|[E|[]]]; [auto|discriminate].
Qed.
Lemma good_use tr k n : good tr -> exists_now tr k n -> good (use tr k n) /\ frame tr (use tr k n) 0 /\ (forall k' n', exists_now (use tr k n) k' n' <-> exists_now tr k' n').
Proof.
  intros G E. assert (GG : good (use tr k n)) by (apply good_snoc; [exact G|exact E|discriminate|discriminate]). assert (S : forall k' n', exists_now (use tr k n) k' n' <-> exists_now tr k' n') by (intros; apply now_snoc).
  split; [exact GG|]. split; [|exact S]. split; [exact GG|intros; apply S|]. unfold use. rewrite made_snoc. reflexivity.
Qed.
Lemma fresh_not tr k : good tr -> ~ exists_now tr k (length tr).
Proof. intros G E. pose proof (g_fresh _ G _ _ E). lia. Qed.
Lemma good_get tr k tr' n : good tr -> get tr k = (tr', n) -> good tr' /\ n = length tr /\ (forall k' n', exists_now tr' k' n' <-> (k' = k /\ n' = n) \/ exists_now tr k' n') /\ blocks_made tr' = blocks_made tr + (if kind_dec k TextBlock then 1 else 0).
Proof.
  intros G E. injection E as <- <-. split; [apply good_snoc; [exact G|apply fresh_not, G|intros ? ? E; injection E as -> ->; reflexivity|discriminate]|]. split; [reflexivity|]. split; [intros; apply now_snoc|].
  rewrite made_snoc. destruct k; reflexivity.
Qed.
Lemma good_give tr k n : good tr -> exists_now tr k n -> k <> TextBlock -> good (give tr k n) /\ (forall k' n', exists_now (give tr k n) k' n' <-> exists_now tr k' n' /\ ~ (k' = k /\ n' = n)) /\ blocks_made (give tr k n) = blocks_made tr.
Proof.
  intros G E K. split; [apply good_snoc; [exact G|exact E|discriminate|intros m X; injection X as -> ->; congruence]|]. split; [intros; apply now_snoc|]. unfold give. rewrite made_snoc. cbn. lia.
Qed.
Lemma frame_block tr tr' n : good tr -> get tr TextBlock = (tr', n) -> frame tr tr' 1.
Proof.
  intros G E. destruct (good_get _ _ _ _ G E) as (G' & _ & S & C). split; [exact G'| |exact C]. intros k x K. rewrite S. split; [intros [[? _]|?]; [contradiction|assumption]|auto].
Qed.
Lemma frame_refl tr : good tr -> frame tr tr 0.
Proof. intros G. split; [exact G|tauto|lia]. Qed.

Lemma runs_frame n : forall tr buffer, good tr -> exists_now tr Buffer buffer -> frame tr (work_runs tr buffer n) n.
Proof.
  induction n as [|n IH]; intros tr buffer G E; [apply frame_refl, G|]. cbn [work_runs]. destruct (get tr TextBlock) as [tr1 x] eqn:A. pose proof (frame_block _ _ _ G A) as F.
  assert (E1 : exists_now tr1 Buffer buffer) by (apply (f_same _ _ _ F); [discriminate|exact E]). destruct (good_use _ _ _ (f_good _ _ _ F) E1) as (G2 & F2 & S2).
  replace (S n) with (1 + (0 + n)) by lia. eapply frame_trans; [exact F|]. eapply frame_trans; [exact F2|]. apply IH; [exact G2|apply S2, E1].
Qed.
Lemma line_frame tr p : good tr -> exists_now tr Paragraph p -> frame tr (work_line tr p) 0.
Proof.
  intros G E. unfold work_line. destruct (good_use _ _ _ G E) as (G1 & F1 & S1). destruct (get (use tr Paragraph p) Line) as [tr2 l] eqn:A. destruct (good_get _ _ _ _ G1 A) as (G2 & L2 & S2 & C2).
  assert (EL : exists_now tr2 Line l) by (apply S2; auto). destruct (good_use _ _ _ G2 EL) as (G3 & F3 & S3). destruct (good_give _ _ _ G3 (proj2 (S3 _ _) EL)) as (G4 & S4 & C4); [discriminate|].
  split; [exact G4| |].
  - intros k n K. rewrite S4, S3, S2, S1. split; [intros [[X|X] N]; [contradiction|exact X]|]. intros X. split; [auto|]. intros [-> ->]. rewrite <- S1, L2 in X. exact (fresh_not _ _ G1 X).
  - rewrite C4, (f_count _ _ _ F3), C2, (f_count _ _ _ F1). destruct (kind_dec Line TextBlock); [discriminate|]. lia.
Qed.
Lemma lines_frame n : forall tr iter p, good tr -> exists_now tr LineIterator iter -> exists_now tr Paragraph p -> frame tr (work_lines tr iter p n) 0.
Proof.
  induction n as [|n IH]; intros tr iter p G I P; [apply frame_refl, G|]. cbn [work_lines]. destruct (good_use _ _ _ G I) as (G1 & F1 & S1). pose proof (line_frame _ _ G1 (proj2 (S1 _ _) P)) as F2.
  change 0 with (0 + (0 + 0)). eapply frame_trans; [exact F1|]. eapply frame_trans; [exact F2|]. apply IH; [apply F2| |]; (apply (f_same _ _ _ F2); [discriminate|]); apply S1; assumption.
Qed.
Definition holds_now (tr : list work_event) (b : builder) : Prop := forall k n, held_by b k n -> exists_now tr k n.
Lemma held_not_block b k n : held_by b k n -> k <> TextBlock. Proof. intros [[-> _]|[-> _]]; discriminate. Qed.
Lemma holds_frame tr tr' c b : frame tr tr' c -> holds_now tr b -> holds_now tr' b.
Proof. intros F H k n X. apply (f_same _ _ _ F); [exact (held_not_block _ _ _ X)|apply H, X]. Qed.
Lemma build_frame tr b p breaking wp : good tr -> holds_now tr b -> exists_now tr Paragraph p -> whole b ->
  exists tr', work_build tr b p breaking wp = Ok tr' /\ frame tr tr' (wp_runs wp + if breaking then 1 else 0).
Proof.
  intros G H P [WI WB]. unfold work_build. destruct (bu_buffer b) as [buffer|] eqn:EB; [|congruence]. destruct (bu_iter b) as [iter|] eqn:EI; [|congruence]. cbn [obind].
  destruct (good_use _ _ _ G P) as (G1 & F1 & S1). assert (B1 : exists_now (use tr Paragraph p) Buffer buffer) by (apply S1, H; right; auto). pose proof (runs_frame (wp_runs wp) _ _ G1 B1) as F2. pose proof (frame_trans _ _ _ _ _ F1 F2) as F3.
  destruct breaking.
  - destruct (get _ TextBlock) as [tr4 x] eqn:A. pose proof (frame_trans _ _ _ _ _ F3 (frame_block _ _ _ (f_good _ _ _ F3) A)) as F4. eexists. split; [reflexivity|].
    assert (I4 : exists_now tr4 LineIterator iter) by (apply (f_same _ _ _ F4); [discriminate|]; apply H; left; auto). assert (P4 : exists_now tr4 Paragraph p) by (apply (f_same _ _ _ F4); [discriminate|exact P]).
    destruct (good_use _ _ _ (f_good _ _ _ F4) I4) as (G5 & F5 & S5). pose proof (lines_frame (wp_lines wp) _ _ _ G5 (proj2 (S5 _ _) I4) (proj2 (S5 _ _) P4)) as F6.
    replace (wp_runs wp + 1) with (0 + wp_runs wp + 1 + 0 + 0) by lia. eapply frame_trans; [|exact F6]. eapply frame_trans; [exact F4|exact F5].
  - eexists. split; [reflexivity|]. replace (wp_runs wp + 0) with (0 + wp_runs wp + 0) by lia. eapply frame_trans; [exact F3|]. apply line_frame; [apply F3|]. apply (f_same _ _ _ F3); [discriminate|exact P].
Qed.
Definition cost (breaking : bool) (ps : list work_paragraph) : nat := runs_of ps + if breaking then texts ps else 0.
Definition same_holds (b b' : builder) : Prop := bu_iter b' = bu_iter b /\ bu_buffer b' = bu_buffer b.
Lemma paragraphs_frame breaking a ps : forall tr b, good tr -> holds_now tr b -> whole b -> exists_now tr Algorithm a ->
  exists tr' b', work_paragraphs tr b a breaking ps = Ok (tr', b') /\ frame tr tr' (cost breaking ps) /\ same_holds b b' /\ (bu_cursor b = true -> bu_cursor b' = true).
Proof.
  induction ps as [|p ps IH]; intros tr b G H W A.
  - exists tr, b. split; [reflexivity|]. split; [|split; [split; reflexivity|auto]]. unfold cost, runs_of, texts. cbn. destruct breaking; apply frame_refl, G.
  - cbn [work_paragraphs]. destruct (good_use _ _ _ G A) as (G1 & F1 & S1). destruct (wp_empty p) eqn:EP.
    + destruct (IH (use tr Algorithm a) b G1) as (tr' & b' & E & F & K); [intros k n X; apply S1, H, X|exact W|apply S1, A|]. exists tr', b'. split; [exact E|]. split; [|exact K].
      replace (cost breaking (p :: ps)) with (0 + cost breaking ps); [exact (frame_trans _ _ _ _ _ F1 F)|]. unfold cost, runs_of, texts. cbn [filter]. rewrite EP. reflexivity.
    + destruct (good_use _ _ _ G1 (proj2 (S1 _ _) A)) as (G2 & F2 & S2). pose proof (frame_trans _ _ _ _ _ F1 F2) as F12. destruct (get _ Paragraph) as [tr3 x] eqn:GP. destruct (good_get _ _ _ _ G2 GP) as (G3 & L3 & S3 & C3).
      assert (H3 : holds_now tr3 b) by (intros k n X; apply S3; right; apply S2, S1, H, X). assert (P3 : exists_now tr3 Paragraph x) by (apply S3; auto).
      destruct (build_frame tr3 b x breaking p G3 H3 P3 W) as (tr4 & E4 & F4). rewrite E4. cbn [obind]. destruct (good_give tr4 Paragraph x (f_good _ _ _ F4)) as (G5 & S5 & C5); [apply (f_same _ _ _ F4); [discriminate|exact P3]|discriminate|].
      assert (F15 : frame tr (give tr4 Paragraph x) (wp_runs p + if breaking then 1 else 0)).
      { split; [exact G5| |].
        - intros k n K. rewrite S5, (f_same _ _ _ F4) by exact K. rewrite S3, S2, S1. split; [intros [[X|X] N]; [contradiction|exact X]|]. intros X. split; [auto|]. intros [-> ->]. rewrite <- S1, <- S2, L3 in X. exact (fresh_not _ _ G2 X).
        - rewrite C5, (f_count _ _ _ F4), C3, (f_count _ _ _ F12). destruct (kind_dec Paragraph TextBlock); [discriminate|]. lia. }
      destruct (IH (give tr4 Paragraph x) {| bu_iter := bu_iter b; bu_buffer := bu_buffer b; bu_cursor := true |} G5) as (tr' & b' & E & F & K & CU); [| | |].
      * intros k n X. apply (f_same _ _ _ F15); [exact (held_not_block _ _ _ X)|]. apply H. exact X.
      * exact W.
      * apply (f_same _ _ _ F15); [discriminate|exact A].
      * exists tr', b'. split; [exact E|]. split; [|split; [exact K|intros _; apply CU; reflexivity]].
        replace (cost breaking (p :: ps)) with ((wp_runs p + (if breaking then 1 else 0)) + cost breaking ps); [exact (frame_trans _ _ _ _ _ F15 F)|]. unfold cost, runs_of, texts. cbn [filter]. rewrite EP. cbn [negb map length]. change (list_sum (wp_runs p :: ?l)) with (wp_runs p + list_sum l). cbn [list_sum fold_right]. unfold list_sum. destruct breaking; lia.
Qed.
Lemma layout_frame tr b breaking ps : good tr -> holds_now tr b -> whole b ->
  exists tr' b', work_layout tr b breaking ps = Ok (tr', b') /\ frame tr tr' (cost breaking ps) /\ same_holds b b' /\ (bu_cursor b = true -> bu_cursor b' = true).
Proof.
  intros G H W. unfold work_layout. destruct (get tr Algorithm) as [tr1 a] eqn:A. destruct (good_get _ _ _ _ G A) as (G1 & L1 & S1 & C1).
  assert (EA : exists_now tr1 Algorithm a) by (apply S1; auto). destruct (paragraphs_frame breaking a ps tr1 b G1) as (tr2 & b' & E & F & K); [intros k n X; apply S1; right; apply H, X|exact W|exact EA|]. rewrite E. cbn [obind].
  destruct (good_give tr2 Algorithm a (f_good _ _ _ F)) as (G3 & S3 & C3); [apply (f_same _ _ _ F); [discriminate|exact EA]|discriminate|]. do 2 eexists. split; [reflexivity|]. split; [|exact K]. split; [exact G3| |].
  - intros k n X. rewrite S3, (f_same _ _ _ F), S1 by exact X. split; [intros [[Y|Y] N]; [contradiction|exact Y]|]. intros Y. split; [auto|]. intros [-> ->]. rewrite L1 in Y. exact (fresh_not _ _ G Y).
  - rewrite C3, (f_count _ _ _ F), C1. destruct (kind_dec Algorithm TextBlock); [discriminate|]. lia.
Qed.

(** * Programs *)
Definition in_place (w : work_world) (i : nat) (b : builder) : Prop := nth_error (ww_builders w) i = Some (Some b).
Record winv (w : work_world) : Prop := {
  wi_good : good (ww_record w);
  wi_held : forall k n, k <> TextBlock -> exists_now (ww_record w) k n <-> exists i b, in_place w i b /\ held_by b k n;
  wi_once : forall i j b c k n, in_place w i b -> in_place w j c -> held_by b k n -> held_by c k n -> i = j;
  wi_whole : forall i b, in_place w i b -> whole b \/ (bu_iter b = None /\ bu_buffer b = None)
}.
Lemma good_nil : good [].
Proof.
  split.
  - intros before e after E. destruct before; discriminate.
  - intros k n (b & a & E & _). destruct b; discriminate.
  - intros n. split; [intros (b & a & E & _); destruct b; discriminate|intros []].
Qed.
Lemma winv_start : winv work_start.
Proof.
  split; [apply good_nil| | |].
  - intros k n K. split; [intros (b & a & E & _); destruct b; discriminate|]. intros (i & b & E & _). destruct i; discriminate.
  - intros [|i] j b c k n E; discriminate.
  - intros [|i] b E; discriminate.
Qed.
Lemma at_place_ok w i b : at_place w i = Ok b <-> in_place w i b.
Proof. unfold at_place, in_place, vget. destruct (nth_error (ww_builders w) i) as [[x|]|]; cbn; split; congruence. Qed.
Lemma in_set tr l i x j b : i < length l -> in_place {| ww_record := tr; ww_builders := list_set l i x |} j b <-> (j = i /\ x = Some b) \/ (j <> i /\ nth_error l j = Some (Some b)).
Proof.
  intros L. unfold in_place. cbn [ww_builders]. destruct (Nat.eq_dec j i) as [->|N].
  - rewrite nth_error_list_set_same by exact L. split; [intros E; injection E as ->; auto|intros [[_ ->]|[E _]]; [reflexivity|congruence]].
  - rewrite nth_error_list_set_other by congruence. split; [auto|intros [[E _]|[_ E]]; [congruence|exact E]].
Qed.
Lemma set_nth (l : list (option builder)) i x j b : i < length l -> nth_error (list_set l i x) j = Some (Some b) <-> (j = i /\ x = Some b) \/ (j <> i /\ nth_error l j = Some (Some b)).
Proof. exact (in_set [] l i x j b). Qed.
Lemma in_snoc tr l x j b : in_place {| ww_record := tr; ww_builders := l ++ [x] |} j b <-> (j = length l /\ x = Some b) \/ nth_error l j = Some (Some b).
Proof.
  unfold in_place. cbn [ww_builders]. destruct (Nat.lt_trichotomy j (length l)) as [L|[->|L]].
  - rewrite nth_error_app1 by exact L. split; [auto|intros [[-> _]|E]; [lia|exact E]].
  - rewrite nth_error_app2, Nat.sub_diag by lia. cbn. rewrite (proj2 (nth_error_None l (length l))) by lia. split; [intros E; injection E as ->; auto|intros [[_ ->]|E]; [reflexivity|discriminate]].
  - rewrite (proj2 (nth_error_None (l ++ [x]) j)) by (rewrite app_length; cbn; lia). rewrite (proj2 (nth_error_None l j)) by lia. split; [discriminate|intros [[-> _]|E]; [lia|discriminate]].
Qed.
Lemma in_place_lt w i b : in_place w i b -> i < length (ww_builders w).
Proof. unfold in_place. intros E. apply nth_error_Some. congruence. Qed.
Lemma new_held tr tr' b : good tr -> new_builder tr = (tr', b) -> good tr' /\ blocks_made tr' = blocks_made tr /\ whole b /\ (forall k n, exists_now tr' k n <-> held_by b k n \/ exists_now tr k n) /\ (forall k n, held_by b k n -> ~ exists_now tr k n).
Proof.
  intros G E. unfold new_builder in E. destruct (get tr Buffer) as [tr1 x] eqn:A1. destruct (good_get _ _ _ _ G A1) as (G1 & L1 & S1 & C1). destruct (get tr1 LineIterator) as [tr2 y] eqn:A2. destruct (good_get _ _ _ _ G1 A2) as (G2 & L2 & S2 & C2).
  assert (EB : exists_now tr2 Buffer x) by (apply S2; right; apply S1; auto). destruct (good_use _ _ _ G2 EB) as (G3 & F3 & S3). injection E as <- <-. split; [exact G3|].
  split; [rewrite (f_count _ _ _ F3), C2, C1; cbn; lia|]. split; [split; discriminate|]. split.
  - intros k n. rewrite S3, S2, S1. unfold held_by. cbn [bu_iter bu_buffer]. split.
    + intros [[-> ->]|[[-> ->]|X]]; auto.
    + intros [[[-> Y]|[-> Y]]|X]; [injection Y as ->; auto|injection Y as ->; auto|auto].
  - intros k n [[-> Y]|[-> Y]] X; cbn in Y; injection Y as <-.
    + assert (X' : exists_now tr1 LineIterator y) by (apply S1; auto). rewrite L2 in X'. exact (fresh_not _ _ G1 X').
    + rewrite L1 in X. exact (fresh_not _ _ G X).
Qed.
Lemma end_held tr b : good tr -> holds_now tr b -> let tr' := end_builder tr b in good tr' /\ blocks_made tr' = blocks_made tr /\ (forall k n, exists_now tr' k n <-> exists_now tr k n /\ ~ held_by b k n).
Proof.
  intros G H tr'. unfold tr', end_builder. clear tr'.
  assert (H1 : exists t, t = (match bu_iter b with Some i => give tr LineIterator i | None => tr end) /\ good t /\ blocks_made t = blocks_made tr /\ (forall k n, exists_now t k n <-> exists_now tr k n /\ ~ (k = LineIterator /\ bu_iter b = Some n))).
  { eexists. split; [reflexivity|]. destruct (bu_iter b) as [i|] eqn:EI.
    - destruct (good_give tr LineIterator i G) as (G1 & S1 & C1); [apply H; left; auto|discriminate|]. split; [exact G1|]. split; [exact C1|]. intros k n. rewrite S1. split; intros [X N]; (split; [exact X|]); intros [-> Y]; apply N; split; congruence.
    - split; [exact G|]. split; [reflexivity|]. intros k n. split; [intros X; split; [exact X|intros [_ Y]; discriminate]|tauto]. }
  destruct H1 as (t & <- & G1 & C1 & S1). destruct (bu_buffer b) as [j|] eqn:EB.
  - assert (X1 : exists_now t Buffer j) by (apply S1; split; [apply H; right; auto|intros [? _]; discriminate]). destruct (good_give t Buffer j G1 X1) as (G2 & S2 & C2); [discriminate|]. split; [exact G2|]. split; [congruence|].
    intros k n. rewrite S2, S1. unfold held_by. rewrite EB. split.
    + intros [[X N1] N2]. split; [exact X|]. intros [Y|[-> Y]]; [exact (N1 Y)|]. apply N2. split; congruence.
    + intros [X N]. split; [split; [exact X|intros Y; apply N; auto]|]. intros [-> ->]. apply N. auto.
  - split; [exact G1|]. split; [exact C1|]. intros k n. rewrite S1. unfold held_by. rewrite EB. split; intros [X N]; (split; [exact X|]); [intros [Y|[_ Y]]; [exact (N Y)|discriminate]|intros Y; apply N; auto].
Qed.
Lemma unwritten_frame tr (c : bool) : good tr -> frame tr (if c then tr else tr ++ [Unwritten]) 0 /\ (forall k n, exists_now (if c then tr else tr ++ [Unwritten]) k n <-> exists_now tr k n).
Proof.
  intros G. destruct c; [split; [apply frame_refl, G|tauto]|]. assert (S : forall k n, exists_now (tr ++ [Unwritten]) k n <-> exists_now tr k n) by (intros; apply now_snoc). split; [|exact S].
  split; [apply good_snoc; [exact G|exact Logic.I|discriminate|discriminate]|intros; apply S|]. rewrite made_snoc. reflexivity.
Qed.
Lemma holds_of w i b : winv w -> in_place w i b -> holds_now (ww_record w) b.
Proof. intros I P k n H. apply (wi_held _ I); [exact (held_not_block _ _ _ H)|]. exists i, b. auto. Qed.
Definition op_cost (o : work_op) : nat := match o with Layout _ breaking ps => cost breaking ps | _ => 0 end.
Lemma step_inv w o w' : winv w -> work_step w o = Ok w' -> winv w' /\ blocks_made (ww_record w') = blocks_made (ww_record w) + op_cost o.
Proof.
  intros I E. destruct o as [|i|i|i j|i breaking ps]; cbn [work_step op_cost] in *.
  - destruct (new_builder (ww_record w)) as [tr b] eqn:NB. injection E as <-. destruct (new_held _ _ _ (wi_good _ I) NB) as (G & C & W & S & D). cbn [ww_record]. split; [|lia]. split; cbn [ww_record].
    + exact G.
    + intros k n K. rewrite S, (wi_held _ I) by exact K. split.
      * intros [H|(i & c & P & H)]; [exists (length (ww_builders w)), b; split; [apply in_snoc; auto|exact H]|]. exists i, c. split; [apply in_snoc; right; exact P|exact H].
      * intros (i & c & P & H). apply in_snoc in P as [[-> P]|P]; [injection P as ->; auto|]. right. exists i, c. auto.
    + intros x y a c k n PX PY HA HC. apply in_snoc in PX, PY. destruct PX as [[-> PX]|PX], PY as [[-> PY]|PY].
      * reflexivity.
      * injection PX as ->. exfalso. apply (D k n HA). apply (wi_held _ I); [exact (held_not_block _ _ _ HA)|]. exists y, c. auto.
      * injection PY as ->. exfalso. apply (D k n HC). apply (wi_held _ I); [exact (held_not_block _ _ _ HC)|]. exists x, a. auto.
      * exact (wi_once _ I x y a c k n PX PY HA HC).
    + intros x c P. apply in_snoc in P as [[_ P]|P]; [injection P as ->; auto|exact (wi_whole _ I x c P)].
  - destruct (at_place w i) as [b| |] eqn:A; cbn [obind] in E; try discriminate. injection E as <-. apply at_place_ok in A. pose proof (in_place_lt _ _ _ A) as L. destruct (end_held _ _ (wi_good _ I) (holds_of _ _ _ I A)) as (G & C & S). cbn [ww_record]. split; [|lia]. split; cbn [ww_record].
    + exact G.
    + intros k n K. rewrite S, (wi_held _ I) by exact K. split.
      * intros [(x & c & P & H) N]. exists x, c. split; [|exact H]. apply in_set; [exact L|]. right. split; [|exact P]. intros ->. unfold in_place in *. rewrite P in A. injection A as ->. exact (N H).
      * intros (x & c & P & H). apply in_set in P as [[_ P]|[N P]]; [discriminate| |exact L]. split; [exists x, c; auto|]. intros HB. exact (N (wi_once _ I _ _ _ _ _ _ P A H HB)).
    + intros x y a c k n PX PY. apply in_set in PX as [[_ PX]|[NX PX]]; [discriminate| |exact L]. apply in_set in PY as [[_ PY]|[NY PY]]; [discriminate| |exact L]. exact (wi_once _ I x y a c k n PX PY).
    + intros x c P. apply in_set in P as [[_ P]|[N P]]; [discriminate| |exact L]. exact (wi_whole _ I x c P).
  - destruct (at_place w i) as [b| |] eqn:A; cbn [obind] in E; try discriminate. apply at_place_ok in A. pose proof (in_place_lt _ _ _ A) as L. unfold move_builder, assign_builder in E. cbn [bu_iter bu_buffer bu_cursor andb] in E. injection E as <-.
    destruct (unwritten_frame (ww_record w) false (wi_good _ I)) as [F S]. cbn [ww_record]. split; [|apply (f_count _ _ _ F)].
    assert (LL : length (ww_builders w) = length (list_set (ww_builders w) i (Some {| bu_iter := None; bu_buffer := None; bu_cursor := false |}))) by (rewrite length_list_set; reflexivity).
    assert (Q : forall x c, nth_error (list_set (ww_builders w) i (Some {| bu_iter := None; bu_buffer := None; bu_cursor := false |}) ++ [Some {| bu_iter := bu_iter b; bu_buffer := bu_buffer b; bu_cursor := bu_cursor b |}]) x = Some (Some c) -> (x = length (ww_builders w) /\ c = b) \/ (x = i /\ c = {| bu_iter := None; bu_buffer := None; bu_cursor := false |}) \/ (x <> i /\ in_place w x c)).
    { intros x c P. apply (in_snoc []) in P as [[-> P]|P]; [left; split; [auto|injection P as <-; destruct b; reflexivity]|]. right. apply (in_set []) in P as [[-> P]|P]; [left; split; congruence|right; exact P|exact L]. }
    split; cbn [ww_record].
    + apply F.
    + intros k n K. rewrite S, (wi_held _ I) by exact K. split.
      * intros (x & c & P & H). destruct (Nat.eq_dec x i) as [->|N].
        -- unfold in_place in *. rewrite A in P. injection P as <-. exists (length (ww_builders w)), b. split; [apply in_snoc; left; split; [exact LL|destruct b; reflexivity]|exact H].
        -- exists x, c. split; [apply in_snoc; right; apply (in_set []); [exact L|auto]|exact H].
      * intros (x & c & P & H). destruct (Q _ _ P) as [[-> ->]|[[-> ->]|[N P']]]; [exists i, b; auto| |exists x, c; auto]. destruct H as [[_ X]|[_ X]]; discriminate.
    + intros x y a c k n PX PY HA HC. destruct (Q _ _ PX) as [[-> ->]|[[-> ->]|[NX PX']]]; [|destruct HA as [[_ X]|[_ X]]; discriminate|]; destruct (Q _ _ PY) as [[-> ->]|[[-> ->]|[NY PY']]].
      * reflexivity.
      * destruct HC as [[_ X]|[_ X]]; discriminate.
      * exfalso. apply NY. exact (wi_once _ I _ _ _ _ _ _ PY' A HC HA).
      * exfalso. apply NX. exact (wi_once _ I _ _ _ _ _ _ PX' A HA HC).
      * destruct HC as [[_ X]|[_ X]]; discriminate.
      * exact (wi_once _ I _ _ _ _ _ _ PX' PY' HA HC).
    + intros x c P. destruct (Q _ _ P) as [[-> ->]|[[-> ->]|[N P']]]; [exact (wi_whole _ I _ _ A)|right; auto|exact (wi_whole _ I _ _ P')].
  - destruct (at_place w i) as [a| |] eqn:A; cbn [obind] in E; try discriminate. destruct (at_place w j) as [b| |] eqn:B; cbn [obind] in E; try discriminate. apply at_place_ok in A, B. pose proof (in_place_lt _ _ _ A) as LA. pose proof (in_place_lt _ _ _ B) as LB.
    unfold assign_builder in E. cbv beta iota zeta in E. injection E as <-. destruct (unwritten_frame (ww_record w) (bu_cursor a && bu_cursor b) (wi_good _ I)) as [F S]. cbn [ww_record]. split; [|apply (f_count _ _ _ F)].
    destruct (Nat.eqb_spec i j) as [->|NE].
    + split; cbn [ww_record]; [apply F| | |].
      * intros k n K. rewrite S. apply (wi_held _ I), K.
      * exact (wi_once _ I).
      * exact (wi_whole _ I).
    + assert (Q : forall x c, nth_error (list_set (list_set (ww_builders w) i (Some {| bu_iter := bu_iter b; bu_buffer := bu_buffer b; bu_cursor := bu_cursor b |})) j (Some {| bu_iter := bu_iter a; bu_buffer := bu_buffer a; bu_cursor := bu_cursor a |})) x = Some (Some c) <->
          (x = j /\ c = a) \/ (x = i /\ c = b) \/ (x <> i /\ x <> j /\ in_place w x c)).
      { intros x c. rewrite set_nth by (rewrite length_list_set; exact LB). rewrite set_nth by exact LA. split.
        - intros [[-> X]|[N [[-> X]|[N' X]]]]; [left; split; [reflexivity|injection X as <-; destruct a; reflexivity]|right; left; split; [reflexivity|injection X as <-; destruct b; reflexivity]|right; right; auto].
        - intros [[-> ->]|[[-> ->]|(N1 & N2 & X)]]; [left; destruct a; auto|right; split; [exact NE|left; destruct b; auto]|right; auto]. }
      set (m := fun x => if Nat.eq_dec x i then j else if Nat.eq_dec x j then i else x).
      assert (M : forall x c, in_place {| ww_record := if bu_cursor a && bu_cursor b then ww_record w else ww_record w ++ [Unwritten]; ww_builders := list_set (list_set (ww_builders w) i (Some {| bu_iter := bu_iter b; bu_buffer := bu_buffer b; bu_cursor := bu_cursor b |})) j (Some {| bu_iter := bu_iter a; bu_buffer := bu_buffer a; bu_cursor := bu_cursor a |}) |} x c <-> in_place w (m x) c).
      { intros x c. unfold in_place at 1. cbn [ww_builders]. rewrite Q. unfold m. destruct (Nat.eq_dec x i) as [->|N1]; [|destruct (Nat.eq_dec x j) as [->|N2]].
        - unfold in_place in *. rewrite B. split; [intros [[X _]|[[_ ->]|(X & _)]]; congruence|]. intros X. injection X as ->. auto.
        - unfold in_place in *. rewrite A. split; [intros [[_ ->]|[[X _]|(_ & X & _)]]; congruence|]. intros X. injection X as ->. auto.
        - split; [intros [[X _]|[[X _]|(_ & _ & X)]]; [congruence|congruence|exact X]|auto]. }
      assert (MM : forall x y, m x = m y -> x = y) by (intros x y; unfold m; destruct (Nat.eq_dec x i), (Nat.eq_dec x j), (Nat.eq_dec y i), (Nat.eq_dec y j); lia).
      assert (MV : forall x, m (m x) = x) by (intros x; unfold m; repeat (destruct (Nat.eq_dec _ _); try lia)).
      split; cbn [ww_record]; [apply F| | |].
      * intros k n K. rewrite S, (wi_held _ I) by exact K. split; intros (x & c & P & H); exists (m x), c; (split; [|exact H]); [apply M; rewrite MV; exact P|apply M, P].
      * intros x y c d k n PX PY HX HY. apply MM. apply M in PX, PY. exact (wi_once _ I _ _ _ _ _ _ PX PY HX HY).
      * intros x c P. apply M in P. exact (wi_whole _ I _ _ P).
  - destruct (at_place w i) as [b| |] eqn:A; cbn [obind] in E; try discriminate. apply at_place_ok in A. pose proof (in_place_lt _ _ _ A) as L.
    assert (K : exists tr b', work_layout (ww_record w) b breaking ps = Ok (tr, b') /\ frame (ww_record w) tr (cost breaking ps) /\ same_holds b b').
    { destruct (wi_whole _ I _ _ A) as [W|[E1 E2]].
      - destruct (layout_frame _ _ breaking ps (wi_good _ I) (holds_of _ _ _ I A) W) as (tr & b' & X & F & SH & _). exists tr, b'. auto.
      - assert (NT : texts ps = 0).
        { destruct (texts ps) eqn:T; [reflexivity|exfalso]. unfold work_layout in E. destruct (get (ww_record w) Algorithm) as [t a]. assert (U : forall t, work_paragraphs t b a breaking ps = UB).
          { revert T. clear - E2. intros T. assert (T' : texts ps <> 0) by lia. clear T. induction ps as [|p ps IH]; intros t; [cbn in T'; lia|]. cbn [work_paragraphs]. unfold texts in T'. cbn [filter] in T'. destruct (wp_empty p); cbn [negb] in T'.
            - apply IH. exact T'.
            - destruct (get (use (use t Algorithm a) Algorithm a) Paragraph). unfold work_build. rewrite E2. reflexivity. }
          rewrite U in E. discriminate. }
        assert (U : forall t a, work_paragraphs t b a breaking ps = Ok (fold_left (fun t _ => use t Algorithm a) ps t, b)).
        { clear - NT. revert NT. induction ps as [|p ps IH]; intros NT t a; [reflexivity|]. unfold texts in NT. cbn [filter] in NT. cbn [work_paragraphs fold_left]. destruct (wp_empty p); cbn [negb] in NT; [|discriminate]. apply IH, NT. }
        assert (CO : cost breaking ps = 0).
        { unfold cost, runs_of. unfold texts in NT. destruct (filter (fun p => negb (wp_empty p)) ps) eqn:FE; [|discriminate]. unfold texts. rewrite FE. cbn. destruct breaking; reflexivity. }
        unfold work_layout in *. destruct (get (ww_record w) Algorithm) as [t a] eqn:GA. rewrite U in E |- *. cbn [obind] in E |- *. do 2 eexists. split; [reflexivity|]. split; [|split; reflexivity]. rewrite CO.
        destruct (good_get _ _ _ _ (wi_good _ I) GA) as (G1 & L1 & S1 & C1). assert (EA : exists_now t Algorithm a) by (apply S1; auto).
        assert (FF : frame t (fold_left (fun t _ => use t Algorithm a) ps t) 0).
        { clear - G1 EA. revert t G1 EA. induction ps as [|p ps IH]; intros t G EA; [apply frame_refl, G|]. cbn [fold_left]. destruct (good_use _ _ _ G EA) as (G2 & F2 & S2). change 0 with (0 + 0). eapply frame_trans; [exact F2|]. apply IH; [exact G2|apply S2, EA]. }
        destruct (good_give _ Algorithm a (f_good _ _ _ FF)) as (G3 & S3 & C3); [apply (f_same _ _ _ FF); [discriminate|exact EA]|discriminate|]. split; [exact G3| |].
        + intros k n X. rewrite S3, (f_same _ _ _ FF), S1 by exact X. split; [intros [[Y|Y] N]; [contradiction|exact Y]|]. intros Y. split; [auto|]. intros [-> ->]. rewrite L1 in Y. exact (fresh_not _ _ (wi_good _ I) Y).
        + rewrite C3, (f_count _ _ _ FF), C1. cbn. lia. }
    destruct K as (tr & b' & EL & F & SH1 & SH2). rewrite EL in E. cbn [obind] in E. injection E as <-. cbn [ww_record]. split; [|apply (f_count _ _ _ F)].
    assert (HB : forall k n, held_by b' k n <-> held_by b k n) by (intros; unfold held_by; rewrite SH1, SH2; tauto).
    assert (Q : forall x c, nth_error (list_set (ww_builders w) i (Some b')) x = Some (Some c) -> exists d, in_place w x d /\ (forall k n, held_by c k n <-> held_by d k n) /\ bu_iter c = bu_iter d /\ bu_buffer c = bu_buffer d).
    { intros x c P. apply (in_set []) in P as [[-> P]|[N P]]; [|exists c; split; [exact P|split; [tauto|auto]]|exact L]. injection P as <-. exists b. auto. }
    split; cbn [ww_record]; [apply F| | |].
    + intros k n X. rewrite (f_same _ _ _ F), (wi_held _ I) by exact X. split.
      * intros (x & c & P & H). destruct (Nat.eq_dec x i) as [->|N].
        -- unfold in_place in *. rewrite A in P. injection P as <-. exists i, b'. split; [apply (in_set tr); [exact L|auto]|apply HB, H].
        -- exists x, c. split; [apply (in_set tr); [exact L|auto]|exact H].
      * intros (x & c & P & H). destruct (Q _ _ P) as (d & P' & HD & _). exists x, d. split; [exact P'|apply HD, H].
    + intros x y c d k n PX PY HX HY. destruct (Q _ _ PX) as (c' & PX' & HC & _). destruct (Q _ _ PY) as (d' & PY' & HD & _). exact (wi_once _ I _ _ _ _ _ _ PX' PY' (proj1 (HC _ _) HX) (proj1 (HD _ _) HY)).
    + intros x c P. destruct (Q _ _ P) as (d & P' & _ & E1 & E2). unfold whole. rewrite E1, E2. exact (wi_whole _ I _ _ P').
Qed.
Lemma steps_inv os : forall w w', winv w -> work_steps w os = Ok w' -> winv w' /\ blocks_made (ww_record w') = blocks_made (ww_record w) + list_sum (map op_cost os).
Proof.
  induction os as [|o os IH]; intros w w' I E; cbn [work_steps] in E; [injection E as <-; split; [exact I|cbn; lia]|].
  destruct (work_step w o) as [w1| |] eqn:S; cbn [obind] in E; try discriminate. destruct (step_inv _ _ _ I S) as [I1 C1]. destruct (IH _ _ I1 E) as [I2 C2]. split; [exact I2|]. rewrite C2, C1. cbn [map list_sum fold_right]. unfold list_sum. lia.
Qed.
