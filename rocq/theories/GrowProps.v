(** C120: typing at the end of a text and the fonts before it. *)
From Verif Require Import Base BaseFacts BuilderModel BuilderSpec FontModel FontSpec FontProofs FontHistProofs FontFallProofs FontProps VariantProps GrowSpec.
Open Scope Z_scope.

Lemma first_bad {A} (P : A -> Prop) a x b a' x' b' : a ++ x :: b = a' ++ x' :: b' -> Forall P a -> ~ P x -> Forall P a' -> ~ P x' -> x = x'.
Proof.
  revert a'. induction a as [|y a IH]; intros [|z a'] E F N F' N'; cbn in E; injection E as E1 E2; subst.
  - reflexivity.
  - inversion F'; subst. contradiction.
  - inversion F; subst. contradiction.
  - inversion F; subst. inversion F'; subst. eapply IH; eauto.
Qed.
Lemma bad_in_more {A} (P : A -> Prop) post more a x b : post ++ more = a ++ x :: b -> Forall P post -> ~ P x -> In x more.
Proof.
  intros E F N. assert (In x (post ++ more)) as I by (rewrite E; apply in_elt). apply in_app_or in I. destruct I as [I|I]; [|exact I].
  rewrite Forall_forall in F. exfalso. apply N, F, I.
Qed.

Section Grow.
Context (limit : nat) (map_file : nat -> name -> option Z) (loads : Z -> bool) (covers : Z -> Z -> bool) (combining lower : Z -> bool).
Context (ds : list family_desc) (r : registry) (es : list reg_result) (d : family_desc) (fam g : family) (base : face_handle) (w s size script : Z) (sb sp : bool).
Context (E : reached limit map_file ds r es) (D : documented ds es) (SU : succeeded ds es d) (Hw : 0 <= w < 9) (Hs : 0 <= s < 2) (Sc : 0 <= script < Z.of_nat limit).
Context (G : get_fam r (get_family r (fy_name d)) = Ok fam) (SV : serves_script r fam script g) (SL : slot (fa_lookup g) w s = Ok base) (LB : loads (fh_handle base) = true).
Notation sub := (get_sub_font loads covers combining lower r (get_family r (fy_name d)) w s size).
Notation drawn c := (exists f, In f (base :: faces_of r (fa_fallback fam) w s) /\ draws loads covers f c).

Lemma font_fields chars off lim font off' : sub chars off lim script false sb sp = Ok (font, off') ->
  font = {| sf_face := sf_face font; sf_size := size; sf_weight := w; sf_style := s; sf_sub := sb; sf_super := sp; sf_small := false;
            sf_syn_sub := sb; sf_syn_super := sp; sf_syn_small := false |}.
Proof.
  unfold get_sub_font. intros H. repeat match type of H with context [obind ?x _] => destruct x as [?| |]; cbn [obind] in H; try discriminate end.
  match type of H with match ?o with _ => _ end = _ => destruct o as [[? ?]|] end; injection H as <- _; reflexivity.
Qed.

Lemma grow_once chars more off lim lim' font e font' e' : off < lim -> lim <= lim' -> decoded chars (lim - off) -> Forall (fun p => drawn (snd p)) chars ->
  Forall (fun p => lim <= off + fst p) more ->
  sub chars off lim script false sb sp = Ok (font, e) -> sub (chars ++ more) off lim' script false sb sp = Ok (font', e') ->
  font' = font /\ (e' = e \/ e = lim /\ lim <= e').
Proof.
  intros LT LE DE DR MO E1 E2. rewrite (font_fields _ _ _ _ _ E1), (font_fields _ _ _ _ _ E2).
  pose proof (C40_choice limit map_file loads covers combining lower ds r es d fam g base w s size chars off lim script sb sp font e E D SU Hw Hs Sc E1 G SV SL LB) as C1.
  pose proof (C40_choice limit map_file loads covers combining lower ds r es d fam g base w s size (chars ++ more) off lim' script sb sp font' e' E D SU Hw Hs Sc E2 G SV SL LB) as C2.
  cbv zeta in C1, C2. destruct chars as [|[i0 c0] cs]; [unfold decoded in DE; cbn in DE; lia|]. inversion DR as [|? ? DR1 DR2]; subst. cbn [snd] in DR1.
  destruct C1 as [(pre & i & c & post & CE & NP & FO & X)|(NP & _)]; [|inversion NP; subst; cbn [snd] in *; contradiction].
  destruct C2 as [(pre' & i' & c' & post' & CE' & NP' & FO' & X')|(NP' & _)]; [|cbn [app] in NP'; inversion NP'; subst; cbn [snd] in *; contradiction].
  destruct pre as [|p pre]; [|cbn [app] in CE; injection CE as <- _; inversion NP; subst; cbn [snd] in *; contradiction].
  destruct pre' as [|p pre']; [|cbn [app] in CE'; injection CE' as <- _; inversion NP'; subst; cbn [snd] in *; contradiction].
  cbn [app] in CE, CE'. injection CE as -> -> ->. injection CE' as -> -> <-.
  rewrite (first_of_unique _ _ _ _ FO' FO) in *. split; [reflexivity|].
  assert (NC : forall y, covers (fh_handle (sf_face font)) (snd y) = false -> ~ covers (fh_handle (sf_face font)) (@snd Z Z y) = true) by (intros y; congruence).
  destruct X as [(A & ->)|(a & j & y & b & -> & A & N & ->)].
  - right. split; [reflexivity|]. destruct X' as [(_ & ->)|(a' & j' & y' & b' & PE & A' & N' & ->)]; [exact LE|].
    pose proof (bad_in_more (fun p : Z * Z => covers (fh_handle (sf_face font)) (snd p) = true) post more a' (j', y') b' PE A (NC (j', y') N')) as I.
    rewrite Forall_forall in MO. exact (MO _ I).
  - left. destruct X' as [(A' & _)|(a' & j' & y' & b' & PE & A' & N' & ->)].
    + rewrite Forall_forall in A'. specialize (A' (j, y)). cbn [snd] in A'. rewrite A' in N; [discriminate|]. apply in_or_app. left. apply in_elt.
    + rewrite <- app_assoc in PE. cbn [app] in PE.
      pose proof (first_bad (fun p : Z * Z => covers (fh_handle (sf_face font)) (snd p) = true) _ _ _ _ _ _ PE A (NC (j, y) N) A' (NC (j', y') N')) as EQ. injection EQ as -> ->. reflexivity.
Qed.

Section Pieces.
Context (text : Z -> Z -> list (Z * Z)) (off lim lim' : Z).
Context (T : forall a b, a < b -> decoded (text a b) (b - a)) (GR : grows text off lim lim') (DR : forall a p, off <= a < lim -> In p (text a lim) -> drawn (snd p)).
Notation pieces n o l := (sub_fonts loads covers combining lower n r (get_family r (fy_name d)) w s size text o l script false sb sp).
Lemma grow_all n : forall n' o ps ps', off <= o <= lim -> pieces n o lim = Ok ps -> pieces n' o lim' = Ok ps' -> keeps_fonts lim ps ps'.
Proof.
  destruct GR as (LE & MO). induction n as [|n IH]; intros n' o ps ps' O P P'; [discriminate|]. cbn [sub_fonts] in P.
  destruct (Z.ltb_spec o lim) as [LT|]; [|injection P as <-; intros ? ? ? []].
  destruct n' as [|n']; [discriminate|]. cbn [sub_fonts] in P'. destruct (Z.ltb_spec o lim') as [LT'|]; [|lia].
  destruct (sub (text o lim) o lim script false sb sp) as [[font e]| |] eqn:E1; cbn [obind] in P; try discriminate.
  destruct (sub (text o lim') o lim' script false sb sp) as [[font' e']| |] eqn:E2; cbn [obind] in P'; try discriminate.
  destruct (pieces n e lim) as [rest| |] eqn:R1; cbn [obind] in P; try discriminate. injection P as <-.
  destruct (pieces n' e' lim') as [rest'| |] eqn:R2; cbn [obind] in P'; try discriminate. injection P' as <-.
  destruct (C40_advances limit map_file loads covers combining lower ds r es d w s size (text o lim) o lim script false sb sp E D SU Hw Hs Sc LT (T o lim LT)) as (f1 & e1 & F1 & B1 & _).
  rewrite E1 in F1. injection F1 as <- <-. destruct (MO o ltac:(lia)) as (more & TE & MB). rewrite TE in E2.
  destruct (grow_once (text o lim) more o lim lim' font e font' e' LT LE (T o lim LT)) as (-> & EE);
    [apply Forall_forall; intros p I; apply (DR o); [lia|exact I]|exact MB|exact E1|exact E2|].
  intros st en fo [H|H].
  - injection H as <- <- <-. exists e'. split; [left; reflexivity|exact EE].
  - destruct EE as [->|(-> & _)].
    + destruct (IH n' e rest rest' ltac:(lia) R1 R2 st en fo H) as (en' & I & X). exists en'. split; [right; exact I|exact X].
    + destruct n as [|n]; [discriminate|]. cbn [sub_fonts] in R1. rewrite Z.ltb_irrefl in R1. injection R1 as <-. destruct H.
Qed.
End Pieces.
End Grow.

(** ** C120 *)

(** Full statement: the fonts chosen for a text stay when more is typed after it, in the same
    run of script and style.  Proved: when every character before can be drawn by some font of
    the family or its fallbacks.  Missing: characters no font has, which take the font of the
    first character after them that one has ([C120_missing_refuted]), and small capitals. *)
Theorem C120_typing_partial : forall limit map_file loads covers combining lower ds r es d fam g base w s size text off lim lim' script sb sp,
  reached limit map_file ds r es -> documented ds es -> succeeded ds es d -> 0 <= w < 9 -> 0 <= s < 2 -> 0 <= script < Z.of_nat limit -> off <= lim ->
  (forall a b, a < b -> decoded (text a b) (b - a)) ->
  get_fam r (get_family r (fy_name d)) = Ok fam -> serves_script r fam script g -> slot (fa_lookup g) w s = Ok base -> loads (fh_handle base) = true ->
  grows text off lim lim' ->
  (forall a i c, off <= a < lim -> In (i, c) (text a lim) -> exists f, In f (base :: faces_of r (fa_fallback fam) w s) /\ draws loads covers f c) ->
  let pieces l := sub_fonts loads covers combining lower (S (Z.to_nat (l - off))) r (get_family r (fy_name d)) w s size text off l script false sb sp in
  exists before after, pieces lim = Ok before /\ pieces lim' = Ok after /\ tiled off before lim /\ tiled off after lim' /\ keeps_fonts lim before after.
Proof.
  intros limit map_file loads covers combining lower ds r es d fam g base w s size text off lim lim' script sb sp E D S Hw Hs Sc LE T G SV SL LB GR DR pieces.
  destruct (C40_tiles limit map_file loads covers combining lower ds r es d w s size text off lim script false sb sp E D S Hw Hs Sc LE T) as (before & E1 & T1 & _).
  assert (LE' : off <= lim') by (destruct GR; lia).
  destruct (C40_tiles limit map_file loads covers combining lower ds r es d w s size text off lim' script false sb sp E D S Hw Hs Sc LE' T) as (after & E2 & T2 & _).
  exists before, after. split; [exact E1|]. split; [exact E2|]. split; [exact T1|]. split; [exact T2|].
  eapply (grow_all limit map_file loads covers combining lower ds r es d fam g base w s size script sb sp E D S Hw Hs Sc G SV SL LB text off lim lim' T GR);
    [intros a [i c] A I; exact (DR a i c A I)|split; [apply Z.le_refl|exact LE]|exact E1|exact E2].
Qed.
Print Assumptions C120_typing_partial.

(** A character no font has is shown with the family's own font (its missing glyph); when a
    character that only a fallback has is typed after it, it is shown with the fallback's. *)
Definition only_160 (h c : Z) : bool := (h =? 6) && (c =? 160).
Theorem C120_missing_refuted : exists before after, pieces_of only_160 [(0, 300); (2, 160)] 2 = Ok before /\ pieces_of only_160 [(0, 300); (2, 160)] 4 = Ok after /\
  grows (part [(0, 300); (2, 160)]) 0 2 4 /\ map (fun p => fh_handle (sf_face (snd p))) before = [0] /\ map (fun p => (fst p, fh_handle (sf_face (snd p)))) after = [((0, 4), 6)] /\
  ~ keeps_fonts 2 before after.
Proof.
  eexists. eexists. split; [vm_compute; reflexivity|]. split; [vm_compute; reflexivity|]. split.
  - split; [lia|]. intros a A. assert (a = 0 \/ a = 1) as [-> | ->] by lia.
    + exists [(2, 160)]. split; [reflexivity|]. constructor; [cbn; lia|constructor].
    + exists [(1, 160)]. split; [reflexivity|]. constructor; [cbn; lia|constructor].
  - split; [reflexivity|]. split; [reflexivity|]. intros K. destruct (K _ _ _ (or_introl eq_refl)) as (e' & [H|[]] & _). discriminate.
Qed.
Print Assumptions C120_missing_refuted.

(** "a" and U+00A0, then a second "a": three pieces, of which the first two were there. *)
Definition two_fonts (h c : Z) : bool := (h =? 0) && (c =? 97) || (h =? 6) && (c =? 160).
Example C120_used : exists before after, pieces_of two_fonts [(0, 97); (1, 160); (3, 97)] 3 = Ok before /\ pieces_of two_fonts [(0, 97); (1, 160); (3, 97)] 4 = Ok after /\
  map (fun p => (fst p, fh_handle (sf_face (snd p)))) before = [((0, 1), 0); ((1, 3), 6)] /\
  map (fun p => (fst p, fh_handle (sf_face (snd p)))) after = [((0, 1), 0); ((1, 3), 6); ((3, 4), 0)] /\ keeps_fonts 3 before after.
Proof.
  eexists. eexists. split; [vm_compute; reflexivity|]. split; [vm_compute; reflexivity|]. split; [reflexivity|]. split; [reflexivity|].
  intros s e f [H|[H|[]]]; injection H as <- <- <-; eexists; (split; [|left; reflexivity]); cbn; auto.
Qed.

(** An endless text of "a" and "b" is decoded from everywhere and grows everywhere. *)
Definition ab_text (a b : Z) : list (Z * Z) := map (fun k => (Z.of_nat k, if Z.even (a + Z.of_nat k) then 97 else 98)) (seq 0 (Z.to_nat (b - a))).
Example C120_text : (forall a b, a < b -> decoded (ab_text a b) (b - a)) /\ forall off lim lim', lim <= lim' -> grows ab_text off lim lim'.
Proof.
  split.
  - intros a b L. unfold decoded, ab_text.
    assert (H : forall n i, increasing_from (Z.of_nat i) (map (fun k => (Z.of_nat k, if Z.even (a + Z.of_nat k) then 97 else 98)) (seq i n)) (Z.of_nat i + Z.of_nat n)).
    { induction n as [|n IH]; intros i; cbn [seq map increasing_from]; [lia|]. split; [reflexivity|]. exists (Z.of_nat (S i)). split; [lia|].
      replace (Z.of_nat i + Z.of_nat (S n)) with (Z.of_nat (S i) + Z.of_nat n) by lia. apply IH. }
    specialize (H (Z.to_nat (b - a)) 0%nat). rewrite Z2Nat.id in H by lia. exact H.
  - intros off lim lim' L. split; [exact L|]. intros a A. exists (map (fun k => (Z.of_nat k, if Z.even (a + Z.of_nat k) then 97 else 98)) (seq (Z.to_nat (lim - a)) (Z.to_nat (lim' - lim)))).
    split.
    + unfold ab_text. replace (Z.to_nat (lim' - a)) with (Z.to_nat (lim - a) + Z.to_nat (lim' - lim))%nat by lia. rewrite seq_app, map_app. reflexivity.
    + apply Forall_forall. intros p I. apply in_map_iff in I. destruct I as (k & <- & I). apply in_seq in I. cbn [fst]. lia.
Qed.
