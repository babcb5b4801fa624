(** C116: double, triple and quadruple clicks. *)
From Coq Require Import Lqa Qabs.
From Verif Require Import UiModel Base FloatModel BaseFacts PackingModel PackingProofs LayoutModel LayoutSpec LayoutProofs LayoutCursorProofs LayoutHitProofs LayoutTableProofs
  LayoutProps CursorModel CursorSpec CursorProofs CursorProps TextBoxModel TextBoxLayoutProofs ClickSpec ClickProofs ClickProps KeyCaretSpec KeyCaretProofs KeyCaretProps
  MultiClickSpec.
Open Scope Z_scope.

Lemma default_valid c : cp_get_affinity c = ADefault -> cp_is_valid c = true.
Proof.
  intros H. unfold cp_is_valid. destruct (Z.eqb_spec c invalid_value) as [->|]; [|reflexivity]. vm_compute in H. discriminate.
Qed.

Lemma set_cursor_kept w al b c sel i : calc_cursor_pixel_pos (tb_layout b) w al c = Ok i ->
  exists b', set_cursor w al b c sel = Ok b' /\ tb_text b' = tb_text b /\ tb_ctrl b' = tb_ctrl b /\ tb_layout b' = tb_layout b /\ tb_focused b' = tb_focused b /\
    tb_cursor b' = c /\ tb_info b' = i /\ tb_anchor b' = if sel then (if cp_is_valid (tb_anchor b) then tb_anchor b else tb_cursor b) else invalid_value.
Proof. intros E. unfold set_cursor. cbn [with_cursor tb_layout]. rewrite E. cbn [obind]. eexists. split; [reflexivity|]. repeat split. Qed.

Section Words.
Variables (text : list Z) (B : Z -> Prop) (n : Z) (following preceding : Z -> Z) (decode : Z -> Z) (white : Z -> bool).
Hypothesis N : 0 <= n < 2 ^ 31.
Hypothesis SO : stops_ok B n.
Hypothesis F : follows_stops B following.
Hypothesis P : precedes_stops B preceding.
Hypothesis L : n < Z.of_nat (length text).

Lemma to_word_start s e z c : word B n decode white s e z -> s < cp_get_position c <= z -> cp_get_position c <= n ->
  exists r, prev_word text preceding decode white c = Ok r /\ cp_get_position r = s /\ cp_get_affinity r = ADefault.
Proof.
  intros (Bs & Be & Bz & R & LE & PW & BL & EN) Hp Hn.
  destruct (C37_prev_word text B n preceding decode white c N SO P ltac:(lia) Hn) as (r & E & H). cbv zeta in H.
  exists r. split; [exact E|]. destruct H as [[H ->]|(H1 & H2 & H3 & H4 & H5)]; [specialize (H _ Bs); lia|]. split; [|exact H3].
  assert (FS : first_of_word B decode white s) by (right; split; [apply (LE s Bs ltac:(lia))|exact PW]).
  assert (NF : forall b, B b -> s < b < z -> ~ first_of_word B decode white b).
  { intros b Hb Hbb. destruct (Z_lt_le_dec b e) as [Lt|Ge].
    - destruct (LE b Hb ltac:(lia)) as [W1 W2]. intros [W|[_ W]]; [exact (W2 W)|].
      destruct (P b) as [PS|[_ A]]; [destruct SO as (_ & _ & S3); destruct (S3 _ Hb); lia| |specialize (A _ Bs); lia].
      pose proof (W _ PS) as W3. destruct PS as (Q1 & Q2 & Q3). specialize (Q3 _ Bs ltac:(lia)). destruct (LE _ Q1 ltac:(lia)) as [W4 _]. congruence.
    - destruct (BL b Hb ltac:(lia)) as [W1 W2]. intros [W|[W _]]; [exact (W2 W)|congruence]. }
  destruct (Z.lt_trichotomy (cp_get_position r) s) as [Lt|[Eq|Gt]]; [exfalso; exact (H4 _ Bs ltac:(lia) FS)|exact Eq|exfalso].
  destruct H5 as [H5|H5]; [exact (NF _ H1 ltac:(lia) H5)|specialize (H5 _ Bs); lia].
Qed.

Lemma to_word_end s e z c : word B n decode white s e z -> cp_get_position c = s ->
  exists r, next_word text following decode white c = Ok r /\ cp_get_position r = z /\ cp_get_affinity r = ADefault.
Proof.
  intros (Bs & Be & Bz & R & LE & PW & BL & EN) Hp. pose proof SO as (S1 & S2 & S3). pose proof (S3 _ Bz) as Rz. pose proof (S3 _ Bs) as Rs.
  destruct (C37_next_word_partial text B n following decode white c N SO F L ltac:(lia)) as (r & E & H). cbv zeta in H. rewrite Hp in H.
  exists r. split; [exact E|]. destruct H as [[H ->]|(H1 & H2 & H3 & H4 & H5)]; [specialize (H _ Be); lia|]. split; [|exact H3].
  assert (PR : forall b, B b -> s < b -> exists p, B p /\ s <= p < b /\ forall q, B q -> q < b -> q <= p).
  { intros b Hb Hs. destruct (P b) as [(Q1 & Q2 & Q3)|[_ A]]; [lia| |specialize (A _ Bs); lia].
    exists (preceding b). specialize (Q3 _ Bs Hs) as Q4. split; [exact Q1|]. split; [lia|exact Q3]. }
  destruct (Z.lt_trichotomy (cp_get_position r) z) as [Lt|[Eq|Gt]]; [exfalso|exact Eq|exfalso].
  - destruct H5 as [H5|H5]; [|specialize (H5 _ Bz); lia]. destruct (Z_lt_le_dec (cp_get_position r) e) as [L1|L1].
    + destruct (LE _ H1 ltac:(lia)) as [W1 W2]. destruct H5 as [W|(_ & p & Hp' & Rp & _ & W)]; [exact (W2 W)|].
      assert (Bp : B p) by (destruct Hp' as [->|]; assumption). destruct (LE _ Bp ltac:(lia)) as [W3 _]. congruence.
    + destruct (BL _ H1 ltac:(lia)) as [W1 W2]. destruct H5 as [W|(W & _)]; [exact (W2 W)|congruence].
  - apply (H4 _ Bz ltac:(lia)). destruct EN as [->|[W|[W1 W2]]]; [destruct (S3 _ H1); lia|left; exact W|]. right. split; [exact W2|].
    destruct (PR z Bz ltac:(lia)) as (p & Bp & Rp & M). exists p. split; [right; exact Bp|]. split; [exact Rp|]. split; [intros; apply M; [assumption|lia]|].
    specialize (M _ Be W1). apply (BL p Bp ltac:(lia)).
Qed.
End Words.

(** ** C116 *)

(** A double click on a place of a word that is not before its first letter, or on the white
    space after the word, selects the word with that white space. *)
Theorem C116_word : forall w al build strip tall B following preceding decode white b clip d y x q sel m c s e z,
  let n := Z.of_nat (length (tb_ctrl b)) in
  doc_ok d -> stored d y (tb_layout b) -> d <> [] -> n < 2 ^ 31 -> stops_ok B n ->
  follows_stops B (following (tb_ctrl b)) -> precedes_stops B (preceding (tb_ctrl b)) ->
  tb_focused b = true -> m mod 4 = 1 -> closest_to_position (following (tb_ctrl b)) (tb_layout b) w al x q = Ok c ->
  word B n (decode (tb_ctrl b)) white s e z -> s < cp_get_position c <= z ->
  exists b', step w al build strip tall following preceding decode white (b, clip) (CPress x q sel m) = Ok (b', clip) /\ tb_text b' = tb_text b /\
    cp_is_valid (tb_anchor b') = true /\ cp_get_position (tb_anchor b') = s /\ cp_get_position (tb_cursor b') = z.
Proof.
  intros w al build strip tall B following preceding decode white b clip d y x q sel m c s e z n OKD ST NE N SO F P FO M E WD Hp.
  assert (RN : 0 <= n < 2 ^ 31) by (unfold n in *; lia).
  assert (CA : forall c, exists i, calc_cursor_pixel_pos (tb_layout b) w al c = Ok i)
    by (intros c'; destruct (caret_defined d y (tb_layout b) w al c' OKD ST NE) as (i & Ei & _); eauto).
  assert (LM : Z.of_nat (length (tb_ctrl b ++ [0])) = n + 1) by (unfold n; rewrite app_length; cbn; lia).
  assert (Zn : z <= n) by (destruct WD as (_ & _ & Bz & _); apply SO; exact Bz).
  cbn [step]. unfold press. rewrite FO. unfold move_mouse. rewrite E. cbn [obind].
  destruct (CA c) as (i1 & E1). destruct (set_cursor_kept w al b c sel i1 E1) as (b1 & G1 & T1 & K1 & L1 & F1 & C1 & _ & _). rewrite G1. cbn [obind]. rewrite M.
  unfold move_prev_word, ctrl_memory. rewrite K1, C1.
  destruct (to_word_start (tb_ctrl b ++ [0]) B n (preceding (tb_ctrl b)) (decode (tb_ctrl b)) white RN SO P ltac:(lia) s e z c WD Hp ltac:(lia)) as (r & E2 & E3 & E4).
  rewrite E2. cbn [obind]. destruct (CA r) as (i2 & E5). rewrite <- L1 in E5.
  destruct (set_cursor_kept w al b1 r false i2 E5) as (b2 & G2 & T2 & K2 & L2 & F2 & C2 & _ & A2). rewrite G2. cbn [obind].
  unfold move_next_word, ctrl_memory. rewrite K2, C2, K1.
  destruct (to_word_end (tb_ctrl b ++ [0]) B n (following (tb_ctrl b)) (preceding (tb_ctrl b)) (decode (tb_ctrl b)) white RN SO F P ltac:(lia) s e z r WD E3) as (t & E6 & E7 & E8).
  rewrite E6. cbn [obind]. destruct (CA t) as (i3 & E9). rewrite <- L1, <- L2 in E9.
  destruct (set_cursor_kept w al b2 t true i3 E9) as (b3 & G3 & T3 & K3 & L3 & F3 & C3 & _ & A3). rewrite G3. cbn [obind].
  rewrite A2 in A3. replace (cp_is_valid invalid_value) with false in A3 by reflexivity. rewrite C2 in A3.
  unfold gain_focus. cbn [with_focus tb_focused]. rewrite F3, F2, F1, FO. cbn [obind]. eexists. split; [reflexivity|].
  cbn [with_focus tb_text tb_anchor tb_cursor]. rewrite A3, C3, T3, T2, T1. split; [reflexivity|]. split; [exact (default_valid r E4)|]. split; [exact E3|exact E7].
Qed.
Print Assumptions C116_word.

(** A triple click selects the clicked line: the selection begins at its left edge and ends
    at its right edge. *)
Theorem C116_line : forall w al build strip tall B following preceding decode white b clip d y x q sel m,
  doc_ok d -> stored d y (tb_layout b) -> clear_text B d -> Forall (fun s => 0 <= sl_height s)%Q d -> walks B (following (tb_ctrl b)) ->
  tb_focused b = true -> m mod 4 = 2 -> (0 < q <= heights d)%Q ->
  exists k s, nth_error d k = Some s /\ (heights (firstn k d) < q <= heights (firstn k d) + sl_height s)%Q /\
    forall first last, nth_error (sl_runs s) 0 = Some first -> nth_error (sl_runs s) (length (sl_runs s) - 1) = Some last ->
    sr_rtl first = false \/ one_run_paragraph d k s -> sr_start last < sr_end last \/ length (sl_runs s) = 1%nat ->
    exists b' ia, step w al build strip tall following preceding decode white (b, clip) (CPress x q sel m) = Ok (b', clip) /\ tb_text b' = tb_text b /\
      calc_cursor_pixel_pos (tb_layout b) w al (tb_anchor b') = Ok ia /\ calc_cursor_pixel_pos (tb_layout b) w al (tb_cursor b') = Ok (tb_info b') /\
      caret_in d y k (align_x w al s + run_first_x first) ia /\ caret_in d y k (align_x w al s + sr_end_x last) (tb_info b').
Proof.
  intros w al build strip tall B following preceding decode white b clip d y x q sel m OKD ST CT HT W FO M Hq.
  pose proof CT as (J & NE & RO & BS & I & MX & ADJ & L & EM).
  destruct (C113_click B (following (tb_ctrl b)) d y w al x q (tb_layout b) OKD ST J NE HT W RO BS I MX ADJ L EM)
    as (c & i & s & r & X & E1 & E2 & E3 & _ & _ & E4 & _).
  exists (ci_line i), s. split; [exact E3|]. split; [exact (E4 Hq)|]. intros first last E5 E6 HF HL.
  cbn [step]. unfold press. rewrite FO. unfold move_mouse. rewrite E1. cbn [obind].
  destruct (set_cursor_moved w al b c sel i E2) as (b1 & G1 & (T1 & L1 & _) & C1 & I1). rewrite G1. cbn [obind]. rewrite M.
  assert (F1 : tb_focused b1 = true).
  { unfold set_cursor in G1. cbn [with_cursor tb_layout] in G1. rewrite E2 in G1. cbn [obind] in G1. injection G1 as <-. exact FO. }
  assert (K1 : tb_line b1 = ci_line i) by (unfold tb_line; rewrite I1; reflexivity).
  assert (ST1 : stored d y (tb_layout b1)) by (rewrite L1; exact ST). rewrite <- K1 in E3, HF.
  destruct (C114_home_end w al build strip tall B following preceding decode white b1 clip d y false s first last OKD ST1 CT E3 E5 E6) as [HH _].
  destruct (HH HF) as (b2 & G2 & (T2 & L2 & A2 & _) & CI2). cbn [key] in G2.
  destruct (move_line_start w al b1 false) as [b2'| |] eqn:MS; cbn [obind] in G2; try discriminate. injection G2 as ->. cbn [obind].
  assert (K2 : tb_line b2 = tb_line b1) by (destruct CI2 as (? & _ & Y & _); exact Y).
  assert (ST2 : stored d y (tb_layout b2)) by (rewrite L2; exact ST1). rewrite <- K2 in E3.
  destruct (C114_home_end w al build strip tall B following preceding decode white b2 clip d y true s first last OKD ST2 CT E3 E5 E6) as [_ HE].
  destruct (HE HL) as (b3 & G3 & (T3 & L3 & _ & A3) & CI3). cbn [key] in G3.
  destruct (move_line_end w al b2 true) as [b3'| |] eqn:ME; cbn [obind] in G3; try discriminate. injection G3 as ->. cbn [obind].
  specialize (A3 eq_refl). rewrite (A2 eq_refl) in A3.
  unfold move_line_start in MS. destruct (get_line_start_position (tb_layout b1) (tb_line b1)) as [p| |]; cbn [obind] in MS; try discriminate.
  unfold set_cursor in MS. cbn [with_cursor tb_layout] in MS. destruct (calc_cursor_pixel_pos (tb_layout b1) w al p) as [ip| |] eqn:CP; cbn [obind] in MS; try discriminate.
  injection MS as MS.
  assert (F2 : tb_focused b2 = true) by (rewrite <- MS; exact F1).
  assert (C2 : tb_cursor b2 = p) by (rewrite <- MS; reflexivity). assert (I2 : tb_info b2 = ip) by (rewrite <- MS; reflexivity).
  unfold move_line_end in ME. destruct (get_line_end_position (tb_layout b2) (tb_line b2)) as [p'| |]; cbn [obind] in ME; try discriminate.
  unfold set_cursor in ME. cbn [with_cursor tb_layout] in ME. destruct (calc_cursor_pixel_pos (tb_layout b2) w al p') as [ip'| |] eqn:CP'; cbn [obind] in ME; try discriminate.
  injection ME as ME.
  assert (F3 : tb_focused b3 = true) by (rewrite <- ME; exact F2).
  assert (C3 : tb_cursor b3 = p') by (rewrite <- ME; reflexivity). assert (I3 : tb_info b3 = ip') by (rewrite <- ME; reflexivity).
  unfold gain_focus. cbn [with_focus tb_focused]. rewrite F3. cbn [obind]. exists (with_focus b3 true true), ip.
  split; [reflexivity|]. cbn [with_focus tb_text tb_anchor tb_cursor tb_info].
  split; [congruence|]. rewrite A3, C2, C3, I3. split; [rewrite <- L1; exact CP|]. split; [rewrite <- L1, <- L2; exact CP'|].
  rewrite K1 in *. rewrite I2 in CI2. rewrite K2, I3 in CI3. split; [exact CI2|exact CI3].
Qed.
Print Assumptions C116_line.

(** The fourth click selects all. *)
Theorem C116_all : forall w al build strip tall following preceding decode white b clip d y x q sel m c,
  let n := Z.of_nat (length (tb_ctrl b)) in
  doc_ok d -> stored d y (tb_layout b) -> d <> [] -> n < 2 ^ 31 -> tb_focused b = true -> m mod 4 = 3 ->
  closest_to_position (following (tb_ctrl b)) (tb_layout b) w al x q = Ok c ->
  exists b', step w al build strip tall following preceding decode white (b, clip) (CPress x q sel m) = Ok (b', clip) /\ tb_text b' = tb_text b /\
    cp_is_valid (tb_anchor b') = true /\ cp_get_position (tb_anchor b') = 0 /\ cp_get_position (tb_cursor b') = n.
Proof.
  intros w al build strip tall following preceding decode white b clip d y x q sel m c n OKD ST NE N FO M E.
  assert (CA : forall c, exists i, calc_cursor_pixel_pos (tb_layout b) w al c = Ok i)
    by (intros c'; destruct (caret_defined d y (tb_layout b) w al c' OKD ST NE) as (i & Ei & _); eauto).
  cbn [step]. unfold press. rewrite FO. unfold move_mouse. rewrite E. cbn [obind].
  destruct (CA c) as (i1 & E1). destruct (set_cursor_kept w al b c sel i1 E1) as (b1 & G1 & T1 & K1 & L1 & F1 & C1 & _ & _). rewrite G1. cbn [obind]. rewrite M.
  unfold move_text_start. destruct (CA 0) as (i2 & E5). rewrite <- L1 in E5.
  destruct (set_cursor_kept w al b1 0 false i2 E5) as (b2 & G2 & T2 & K2 & L2 & F2 & C2 & _ & A2). rewrite G2. cbn [obind].
  unfold move_text_end. rewrite K2, K1. destruct (CA (cp_make (Z.of_nat (length (tb_ctrl b))))) as (i3 & E9). rewrite <- L1, <- L2 in E9.
  destruct (set_cursor_kept w al b2 _ true i3 E9) as (b3 & G3 & T3 & K3 & L3 & F3 & C3 & _ & A3). rewrite G3. cbn [obind].
  rewrite A2 in A3. replace (cp_is_valid invalid_value) with false in A3 by reflexivity. rewrite C2 in A3.
  unfold gain_focus. cbn [with_focus tb_focused]. rewrite F3, F2, F1, FO. cbn [obind]. eexists. split; [reflexivity|].
  cbn [with_focus tb_text tb_anchor tb_cursor]. rewrite A3, C3, T3, T2, T1. split; [reflexivity|]. split; [reflexivity|]. split; [reflexivity|].
  apply make_position. fold n. unfold n in *. lia.
Qed.
Print Assumptions C116_all.

(** "ab cd" in one line, ten pixels for each character. *)
Definition words_sample : sdoc := [mkline [mkrun 0 5 0 false [gl 10 0 0; gl 11 1 10; gl 3 2 20; gl 12 3 30; gl 13 4 40] 50] 12].
Definition words_next (x : Z) : Z := if x <? 5 then x + 1 else -1.
Definition words_prev (x : Z) : Z := if x <=? 0 then -1 else if x <=? 5 then x - 1 else 5.
Definition words_decode (c : Z) : Z := nth (Z.to_nat c) [97; 98; 32; 99; 100; 0] 0.
Definition words_box : box :=
  {| tb_text := [97; 98; 32; 99; 100]; tb_content := []; tb_cursor := 0; tb_anchor := invalid_value; tb_focused := true; tb_editable := true; tb_rich := false; tb_multi := true;
     tb_selectable := true; tb_font := true; tb_drag := false; tb_layout := layout_of words_sample 0; tb_ctrl := [97; 98; 32; 99; 100]; tb_info := no_info; tb_timer := f32_0; tb_flash := 0 |}.
Definition words_press (x : Q) (m : Z) :=
  step 100 XLeft (fun _ _ => lo_empty) (fun t => t) 12%Q (fun _ => words_next) (fun _ => words_prev) (fun _ => words_decode) (fun c => c =? 32) (words_box, None) (CPress x 5 false m).
Definition sample_word := word (fun c => 0 <= c <= 5) 5 words_decode (fun c => c =? 32).
Lemma sample_stops : stops_ok (fun c => 0 <= c <= 5) 5 /\ follows_stops (fun c => 0 <= c <= 5) words_next /\ precedes_stops (fun c => 0 <= c <= 5) words_prev.
Proof.
  split; [split; [lia|split; [lia|auto]]|]. split.
  { intros x Hx. unfold words_next. destruct (Z.ltb_spec x 5); [left; split; [lia|split; [lia|intros; lia]]|right; split; [reflexivity|intros; lia]]. }
  intros x Hx. unfold words_prev. destruct (Z.leb_spec x 0); [right; split; [reflexivity|intros; lia]|].
  destruct (Z.leb_spec x 5); left; (split; [lia|split; [lia|intros; lia]]).
Qed.
Lemma sample_words : sample_word 0 2 3 /\ sample_word 3 5 5.
Proof.
  assert (C : forall b, 0 <= b <= 5 -> b = 0 \/ b = 1 \/ b = 2 \/ b = 3 \/ b = 4 \/ b = 5) by lia.
  split; (split; [lia|]; split; [lia|]; split; [lia|]; split; [lia|]; split; [|split; [|split]]).
  1, 5: intros b H1 H2; destruct (C b H1) as [-> | [-> | [-> | [-> | [-> | ->]]]]]; try lia; (split; [reflexivity|intros [H|[H|[H|H]]]; discriminate H]).
  2, 5: intros b H1 H2; destruct (C b H1) as [-> | [-> | [-> | [-> | [-> | ->]]]]]; try lia; (split; [reflexivity|intros [H|[H|[H|H]]]; discriminate H]).
  - intros b (H1 & H2 & _). lia.
  - right. right. split; [lia|reflexivity].
  - intros b (H1 & H2 & H3). specialize (H3 2 ltac:(lia) ltac:(lia)). assert (b = 2) by lia. subst b. reflexivity.
  - left. reflexivity.
Qed.
(** Between "c" and "d" "cd" is selected, after "b" "ab "; the third click selects the line,
    the fourth everything. *)
Example C116_used : doc_ok words_sample /\ clear_text (fun c => 0 <= c <= 5) words_sample /\ walks (fun c => 0 <= c <= 5) words_next /\
  closest_to_position words_next (layout_of words_sample 0) 100 XLeft 41 5 = Ok 4 /\
  (exists b, words_press 41 1 = Ok (b, None) /\ tb_anchor b = 3 /\ tb_cursor b = 5) /\ (exists b, words_press 19 1 = Ok (b, None) /\ tb_anchor b = 0 /\ tb_cursor b = 3) /\
  (exists b, words_press 19 2 = Ok (b, None) /\ tb_anchor b = 0 /\ cp_get_position (tb_cursor b) = 5) /\ (exists b, words_press 19 3 = Ok (b, None) /\ tb_anchor b = 0 /\ tb_cursor b = 5).
Proof.
  split; [repeat constructor; discriminate|]. split.
  { split; [intros [|i] r q Er Eq; cbn in Eq; try discriminate Eq; destruct i; discriminate Eq|]. split; [discriminate|].
    split; [unfold words_sample, doc_runs, run_ok; cbn -[Z.pow]; repeat constructor; cbn -[Z.pow]; lia|].
    split; [unfold words_sample, doc_runs, begins_at_stops; cbn; repeat constructor; cbn; lia|].
    split; [unfold words_sample, doc_runs; cbn; repeat constructor; cbn; lia|].
    split; [unfold words_sample, doc_runs; cbn; repeat constructor; cbn; discriminate|].
    split; [unfold words_sample; repeat constructor; cbn; repeat split; reflexivity|]. split.
    - intros [|k] s E; [|destruct k; discriminate]. injection E as <-. left. split; [intros [|j] r q _ Eq; cbn in Eq; [discriminate|destruct j; discriminate]|].
      intros r E. injection E as <-. reflexivity.
    - intros [|i] r q Er Eq; cbn in Eq; try discriminate Eq; destruct i; discriminate Eq. }
  split.
  { intros c Hc. unfold words_next. destruct (Z.ltb_spec c 5); [right; split; [lia|split; [lia|intros; lia]]|left; split; [reflexivity|intros; lia]]. }
  split; [vm_compute; reflexivity|].
  repeat apply conj; (eexists; split; [vm_compute; reflexivity|]; split; reflexivity).
Qed.

(** A double click on the left half of the first letter of a word selects the word before:
    in "ab cd" at 31, one pixel into the "c", it selects "ab ". *)
Theorem C116_first_letter_refuted : exists b, sample_word 3 5 5 /\ closest_to_position words_next (layout_of words_sample 0) 100 XLeft 31 5 = Ok 3 /\
  words_press 31 1 = Ok (b, None) /\ tb_anchor b = 0 /\ tb_cursor b = 3.
Proof. eexists. split; [exact (proj2 sample_words)|]. split; [vm_compute; reflexivity|]. split; [vm_compute; reflexivity|]. split; reflexivity. Qed.
Print Assumptions C116_first_letter_refuted.

(** A double click on a box that does not have the focus selects nothing: the press that gives
    it the focus is not counted, so the second one is the first (sample/text_box.cpp:20-24,
    44-49). *)
Definition two_presses (x t2 : Q) :=
  let build := fun (_ : bool) (_ : list Z) => layout_of words_sample 0 in
  let press st m := step 100 XLeft build (fun t => t) 12%Q (fun _ => words_next) (fun _ => words_prev) (fun _ => words_decode) (fun c => c =? 32) st (CPress x 5 false m) in
  let b := with_focus words_box false false in
  (* the answer of [text_box_click] to the second press, the only one that asks *)
  do st <- press (b, None) 0; let n := snd (text_box_click ui_start (tb_cursor (fst st)) t2) in
  do st <- press st n; Ok (n, fst st).
Theorem C116_unfocused_refuted : forall t2, exists b, two_presses 41 t2 = Ok (0, b) /\ cp_is_valid (tb_anchor b) = false /\ tb_cursor b = 4.
Proof. intros t2. eexists. split; [vm_compute; reflexivity|]. split; reflexivity. Qed.
Print Assumptions C116_unfocused_refuted.
