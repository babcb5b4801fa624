From Verif Require Import Base BaseFacts ValueRunsModel ValueRunsSpec RunBuilderModel FloatModel ColorModel
  PackingProofs FormattingModel FormattingSpec FormattingLexProofs.
Open Scope Z_scope.
Transparent code.

(** ** Weights *)

Lemma lower_eq c : lower c = to_lower c.
Proof. reflexivity. Qed.

Lemma strcmp_ok name : forall buf, (List.length name < List.length buf)%nat ->
  exists b, strcmp_eq buf name = Ok b /\ (b = true <-> exists junk, buf = name ++ ch 0 :: junk).
Proof.
  induction name as [|c name IH]; intros [|x buf] L; cbn in L; try lia; cbn [strcmp_eq app].
  - eexists. split; [reflexivity|]. rewrite eqc_true. split.
    + intros ->. eauto.
    + intros (j & [= -> ->]). reflexivity.
  - destruct (x =c c) eqn:E.
    + apply eqc_true in E. subst x. destruct (IH buf ltac:(lia)) as (b & -> & H).
      exists b. split; auto. rewrite H. split; intros (j & Hj); exists j; congruence.
    + exists false. split; auto. split; [discriminate|]. intros (j & [= -> ->]).
      now rewrite eqc_refl in E.
Qed.

Lemma nul_tail m name k : Forall (fun c => c <> ch 0) name -> (0 < k)%nat ->
  (exists junk, m ++ repeat (ch 0) k = name ++ ch 0 :: junk) <->
  (m = name \/ exists junk, m = name ++ ch 0 :: junk).
Proof.
  intros F Hk. revert m. induction F as [|c name Hc F IH]; intros m; cbn [app].
  - destruct m as [|x m]; cbn [app].
    + split; auto. intros _. destruct k as [|k]; [lia|]. cbn [repeat]. eauto.
    + split.
      * intros (j & [= -> Hj]). right. eauto.
      * intros [H|(j & [= -> ->])]; [discriminate|]. eauto.
  - destruct m as [|x m]; cbn [app].
    + split.
      * intros (j & Hj). destruct k as [|k]; [lia|]. cbn [repeat] in Hj. injection Hj as Hx Hj. congruence.
      * intros [H|(j & H)]; discriminate.
    + specialize (IH m). split.
      * intros (j & [= -> Hj]). destruct (proj1 IH (ex_intro _ _ Hj)) as [->|(j' & ->)]; eauto.
      * intros H. assert (x = c /\ (m = name \/ exists j, m = name ++ ch 0 :: j)) as [-> Hm].
        { destruct H as [[= -> ->]|(j & [= -> ->])]; eauto. }
        destruct (proj2 IH Hm) as (j & ->). eauto.
Qed.

Lemma named_weight_ok buf names : Forall (fun nw => (List.length (fst nw : bytes) < List.length buf)%nat) names ->
  exists o, named_weight buf names = Ok o /\
    (forall w, o = Some w -> exists n junk, In (n, w) names /\ buf = n ++ ch 0 :: junk) /\
    (o = None -> forall n w junk, In (n, w) names -> buf <> n ++ ch 0 :: junk).
Proof.
  induction 1 as [|[n w] names L F IH]; cbn [named_weight].
  - exists None. splits; auto; try discriminate.
  - cbn [fst] in L. destruct (strcmp_ok n buf L) as (b & -> & Hb). cbn [obind]. destruct b.
    + exists (Some w). splits; auto; try discriminate. intros w' [= <-].
      destruct (proj1 Hb eq_refl) as (junk & E). exists n, junk. split; [now left|auto].
    + destruct IH as (o & -> & H1 & H2). exists o. splits; auto.
      * intros w' Hw. destruct (H1 w' Hw) as (n' & j & I & E). exists n', j. split; [now right|auto].
      * intros Ho n' w' j [[= <- <-]|I].
        -- intros E. assert (false = true) by (apply Hb; eauto). discriminate.
        -- eauto.
Qed.

Lemma weight_names_spec n w : In (n, w) weight_names <-> weight_name w n.
Proof.
  unfold weight_names, weight_name. cbn [In]. split; intros H;
  repeat (destruct H as [H|H]; [injection H as <- <-; tauto|]); destruct H.
Qed.

Lemma weight_names_no_nul n w : In (n, w) weight_names -> Forall (fun c => c <> ch 0) n.
Proof.
  unfold weight_names. cbn [In]. intros H.
  repeat (destruct H as [H|H]; [injection H as <- <-; repeat constructor; discriminate|]). destruct H.
Qed.

Lemma weight_names_len n w : In (n, w) weight_names -> (List.length n < 16)%nat.
Proof.
  unfold weight_names. cbn [In]. intros H.
  repeat (destruct H as [H|H]; [injection H as <- <-; vm_compute; lia|]). destruct H.
Qed.

Lemma weight_names_head n w : In (n, w) weight_names -> exists c n', n = c :: n' /\ ~ decimal c /\ 0 <= w <= 8.
Proof.
  unfold weight_names, decimal. cbn [In]. intros H.
  repeat (destruct H as [H|H]; [injection H as <- <-;
    eexists _, _; split; [reflexivity|split; [vm_compute; intros [? ?]; congruence|lia]]|]). destruct H.
Qed.

(** The names that start like another one never clash. *)
Lemma weight_names_unique n w n' w' j j' : In (n, w) weight_names -> In (n', w') weight_names ->
  n ++ ch 0 :: j = n' ++ ch 0 :: j' -> w = w'.
Proof.
  unfold weight_names. cbn [In]. intros H H' E.
  repeat (destruct H as [H|H]; [injection H as <- <-;
    repeat (destruct H' as [H'|H']; [injection H' as <- <-; (reflexivity || discriminate E)|]); destruct H'|]).
  destruct H.
Qed.

Lemma lower_decimal c : decimal c -> decimal (to_lower c).
Proof.
  unfold decimal, to_lower. intros H. replace ((65 <=? code c) && (code c <=? 90)) with false by lia. auto.
Qed.

Lemma uint_head bound s v : uint_syntax bound s v -> exists c s', s = c :: s' /\ decimal c.
Proof.
  intros (ds & junk & -> & N & F & _). destruct F as [|c ds D F]; [congruence|].
  exists c, (ds ++ junk). auto.
Qed.

Lemma uint_det bound s v v' : uint_syntax bound s v -> uint_syntax bound s v' -> v = v'.
Proof. rewrite <- !from_chars_10_some. congruence. Qed.

Lemma named_not_number bound s n w junk : In (n, w) weight_names ->
  (map to_lower s = n \/ map to_lower s = n ++ ch 0 :: junk) -> forall v, ~ uint_syntax bound s v.
Proof.
  intros I H v U. destruct (uint_head _ _ _ U) as (c & s' & -> & D).
  destruct (weight_names_head _ _ I) as (d & n' & -> & Nd & _).
  apply lower_decimal in D.
  destruct H as [H|H]; cbn [map app] in H; injection H as H1 H2; congruence.
Qed.

Lemma parse_attribute_weight_sound name old l : plain_word name ->
  (parse_attribute_weight name old l = UB /\
     exists v post, fst l = name ++ v ++ c_quote :: post /\ quotable v /\ (16 < List.length v)%nat) \/
  exists w l', parse_attribute_weight name old l = Ok (w, l') /\ fwd l l' /\
    (snd l' = false -> exists s, quotable s /\ weight_syntax s w /\ fst l = name ++ s ++ c_quote :: fst l').
Proof.
  intros Hn. unfold parse_attribute_weight. destruct (parse_attribute name l) as [a l1] eqn:E.
  destruct (parse_attribute_sound _ _ _ _ Hn E) as [F1 H1].
  destruct (le_lt_dec (List.length a) 16) as [L|L].
  2:{ (* too long: only a value actually read can be that long *)
    left. replace (List.length a <=? 16)%nat with false by lia. cbn [obind]. split; auto.
    unfold parse_attribute in E. destruct (consume_word name l) as [ok l2] eqn:E2.
    destruct (consume_word_sound _ Hn _ _ _ E2) as [F2 H2]. destruct ok.
    - destruct (read_quoted (fst l2)) as [o r] eqn:Er.
      destruct (read_quoted_sound _ _ _ Er) as [S3 H3]. destruct o as [v|]; injection E as <- <-.
      + destruct (H3 _ eq_refl) as [Q R]. exists v, r. destruct H2 as [A _]. rewrite A, R. auto.
      + cbn in L. lia.
    - injection E as <- <-. cbn in L. lia. }
  right. replace (List.length a <=? 16)%nat with true by lia. cbn [obind].
  set (l2 := if (16 <=? List.length a)%nat then raise_lx l1 else l1).
  assert (F2 : fwd l l2) by (unfold l2; destruct (16 <=? List.length a)%nat; auto using fwd_raise).
  assert (E2 : snd l2 = false -> (List.length a < 16)%nat /\ snd l1 = false /\ fst l2 = fst l1).
  { unfold l2. destruct (16 <=? List.length a)%nat eqn:El; [discriminate|]. intros ->. repeat split; lia. }
  destruct (fst (from_chars 10 (2 ^ 32) a)) as [v|] eqn:Ev.
  - destruct ((100 <=? v) && (v <=? 900) && (v mod 100 =? 0)) eqn:Ec.
    + eexists _, l2. split; [reflexivity|]. split; auto. intros Hf.
      destruct (E2 Hf) as (La & Hf1 & Hl2). destruct (H1 Hf1) as [Q R].
      exists a. splits; auto.
      * unfold weight_syntax. split; auto. left.
        assert (Hw : 100 * (v / 100 - 1 + 1) = v) by lia. rewrite Hw. split; [lia|].
        now apply from_chars_10_some.
      * now rewrite R, Hl2.
    + exists old, (raise_lx l2). split; auto. split; [now apply fwd_raise|discriminate].
  - set (buf := map lower a ++ repeat (ch 0) (16 - List.length a)).
    assert (Lb : List.length buf = 16%nat) by (unfold buf; rewrite app_length, map_length, repeat_length; lia).
    destruct (named_weight_ok buf weight_names) as (o & -> & Ho1 & Ho2).
    { apply Forall_forall. intros [n w] I. rewrite Lb. eapply weight_names_len; exact I. }
    cbn [obind]. destruct o as [w|].
    + exists w, l2. split; auto. split; auto. intros Hf.
      destruct (E2 Hf) as (La & Hf1 & Hl2). destruct (H1 Hf1) as [Q R].
      exists a. splits; auto; [|now rewrite R, Hl2].
      split; auto. right. destruct (Ho1 _ eq_refl) as (n & junk & I & Eb).
      exists n. split; [now apply weight_names_spec|].
      apply (nul_tail (map lower a) n (16 - List.length a)); [eapply weight_names_no_nul; exact I|lia|].
      exists junk. exact Eb.
    + exists old, (raise_lx l2). split; auto. split; [now apply fwd_raise|discriminate].
Qed.

Lemma parse_attribute_weight_complete name old s w r e : quotable s -> weight_syntax s w ->
  parse_attribute_weight name old (name ++ s ++ c_quote :: r, e) = Ok (w, (r, e)).
Proof.
  intros Q [L H]. unfold parse_attribute_weight. rewrite parse_attribute_complete by auto.
  replace (16 <=? List.length s)%nat with false by lia.
  replace (List.length s <=? 16)%nat with true by lia. cbn [obind].
  destruct H as [[Rw U]|(n & Hn & H)].
  - rewrite (proj2 (from_chars_10_some _ _ _) U).
    replace ((100 <=? 100 * (w + 1)) && (100 * (w + 1) <=? 900) && ((100 * (w + 1)) mod 100 =? 0)) with true by lia.
    do 2 f_equal. lia.
  - apply weight_names_spec in Hn.
    destruct (fst (from_chars 10 (2 ^ 32) s)) as [v|] eqn:Ev.
    { exfalso. apply from_chars_10_some in Ev. destruct H as [H|(j & H)].
      - eapply (named_not_number (2^32) s n w []); eauto.
      - eapply (named_not_number (2^32) s n w j); eauto. }
    set (buf := map lower s ++ repeat (ch 0) (16 - List.length s)).
    assert (Lb : List.length buf = 16%nat) by (unfold buf; rewrite app_length, map_length, repeat_length; lia).
    destruct (named_weight_ok buf weight_names) as (o & -> & Ho1 & Ho2).
    { apply Forall_forall. intros [n' w'] I. rewrite Lb. eapply weight_names_len; exact I. }
    assert (Eb : exists junk, buf = n ++ ch 0 :: junk).
    { apply (nul_tail (map lower s) n (16 - List.length s)); [eapply weight_names_no_nul; exact Hn|lia|].
      exact H. }
    destruct Eb as (junk & Eb). cbn [obind]. destruct o as [w'|].
    + destruct (Ho1 _ eq_refl) as (n' & j' & I' & E').
      rewrite (weight_names_unique n w n' w' junk j'); auto. congruence.
    + exfalso. eapply Ho2; eauto.
Qed.

Section A.
Variable get_family : bytes -> Z.
Variable ff : bytes -> option f32.

(** ** Font attributes *)

(** The effect of an attribute on the parser's accumulator. *)
Definition fa_apply (a : font_attrs) (x : font_attr) : font_attrs :=
  match x with
  | FASpace => a
  | FAColor _ r g b => {| fa_family := fa_family a; fa_size := fa_size a; fa_color := rgb_color r g b f32_1;
             fa_weight := fa_weight a; fa_color_change := true;
             fa_size_change := fa_size_change a; fa_weight_change := fa_weight_change a |}
  | FAFace n => {| fa_family := get_family n; fa_size := fa_size a; fa_color := fa_color a;
             fa_weight := fa_weight a; fa_color_change := fa_color_change a;
             fa_size_change := fa_size_change a; fa_weight_change := fa_weight_change a |}
  | FASize _ v => {| fa_family := fa_family a; fa_size := v; fa_color := fa_color a;
             fa_weight := fa_weight a; fa_color_change := fa_color_change a;
             fa_size_change := true; fa_weight_change := fa_weight_change a |}
  | FAWeight _ w => {| fa_family := fa_family a; fa_size := fa_size a; fa_color := fa_color a;
             fa_weight := w; fa_color_change := fa_color_change a;
             fa_size_change := fa_size_change a; fa_weight_change := true |}
  end.

Definition bad (r : bytes) : Prop := long_weight r \/ three_digit_channel r.
Lemma bad_suffix r' r : suffix r' r -> bad r' -> bad r.
Proof.
  intros (p & ->) [(pre & v & post & -> & H)|(pre & mid & d1 & d2 & d3 & post & -> & H)].
  - left. exists (p ++ pre), v, post. rewrite <- app_assoc. auto.
  - right. exists (p ++ pre), mid, d1, d2, d3, post. rewrite <- app_assoc. auto.
Qed.

Lemma parse_font_face_sound a l a' l' : parse_font_face get_family a l = (a', l') ->
  fwd l l' /\ (snd l' = false -> exists n, font_attr_wf get_family (FAFace n) /\ a' = fa_apply a (FAFace n) /\
     fst l = bs "ace=""" ++ n ++ c_quote :: fst l').
Proof.
  unfold parse_font_face. destruct (parse_attribute (bs "ace=""") l) as [n l1] eqn:E.
  destruct (parse_attribute_sound (bs "ace=""") _ _ _ ltac:(plain) E) as [F1 H1].
  destruct n as [|c n]; intros [= <- <-].
  - split; [now apply fwd_raise|discriminate].
  - destruct (family_ok (get_family (c :: n))) eqn:Ef.
    + split; auto. intros Hf. destruct (H1 Hf) as [Q R]. exists (c :: n). splits; auto.
      cbn. splits; auto; try discriminate. unfold family_ok, INVALID_FAMILY in Ef. lia.
    + split; [now apply fwd_raise|discriminate].
Qed.

Definition flat_text (l : list font_attr) := flat_map font_attr_text l.

Lemma c_quote_lit : """"%char = c_quote. Proof. reflexivity. Qed.

Lemma font_attributes_sound : forall n a l, (List.length (fst l) < n)%nat ->
  (parse_font_attributes get_family n a l = UB /\ bad (fst l)) \/
  exists a' l', parse_font_attributes get_family n a l = Ok (a', l') /\ fwd l l' /\
    (snd l' = false -> exists ats, Forall (font_attr_wf get_family) ats /\ a' = fold_left fa_apply ats a /\
       fst l = flat_map font_attr_text ats ++ c_gt :: fst l').
Proof.
  induction n as [|n IH]; intros a l L; [lia|]. cbn [parse_font_attributes].
  destruct (next_char (fst l)) as [c r] eqn:E.
  pose proof (next_char_suffix _ _ _ E) as Sc.
  assert (Fc : fwd l (r, snd l)) by (split; auto).
  (* one more attribute, then the rest of the loop *)
  assert (Step : forall a1 l1 x, fwd (r, snd l) l1 -> (List.length r < List.length (fst l))%nat ->
     (snd l1 = false -> font_attr_wf get_family x /\ a1 = fa_apply a x /\ fst l = font_attr_text x ++ fst l1) ->
     (parse_font_attributes get_family n a1 l1 = UB /\ bad (fst l)) \/
     exists a' l', parse_font_attributes get_family n a1 l1 = Ok (a', l') /\ fwd l l' /\
       (snd l' = false -> exists ats, Forall (font_attr_wf get_family) ats /\ a' = fold_left fa_apply ats a /\
          fst l = flat_map font_attr_text ats ++ c_gt :: fst l')).
  { intros a1 l1 x F1 Lr H1.
    pose proof (suffix_length _ _ (proj1 F1)) as Ls. cbn [fst] in Ls.
    assert (G1 : fwd l l1) by (eapply fwd_trans; eauto).
    destruct (IH a1 l1 ltac:(eapply Nat.le_lt_trans; [exact Ls|eapply Nat.lt_le_trans; [exact Lr|apply Nat.lt_succ_r; exact L]])) as [[H B]|(a' & l' & H & F2 & H2)].
    - left. split; auto. eapply bad_suffix; [apply G1|auto].
    - right. exists a', l'. split; auto. split; [eapply fwd_trans; eauto|]. intros Hf.
      destruct (H2 Hf) as (ats & W & A & R).
      assert (Hf1 : snd l1 = false) by (destruct (snd l1) eqn:Es; auto; rewrite (proj2 F2 Es) in Hf; discriminate).
      destruct (H1 Hf1) as (W1 & A1 & R1).
      exists (x :: ats). splits.
      + now constructor.
      + cbn [fold_left]. now rewrite <- A1.
      + cbn [flat_map]. rewrite <- app_assoc, <- R. exact R1. }
  (* an attribute that raised an error: continue whatever it was *)
  assert (Hcons : c <> SENTINEL -> fst l = c :: r) by (apply next_char_cons; auto).
  assert (Hlen : c <> SENTINEL -> (List.length r < List.length (fst l))%nat)
    by (intros N; rewrite (Hcons N); cbn; lia).
  destruct (c =c "c"%char) eqn:E1.
  { apply eqc_true in E1. subst c. specialize (Hcons ltac:(discriminate)). specialize (Hlen ltac:(discriminate)).
    destruct (parse_attribute_color_sound (bs "olor=""") (fa_color a) (r, snd l) ltac:(plain))
      as [[-> H]|(v & l1 & -> & F1 & H1)]; cbn [obind].
    - left. split; auto. eapply bad_suffix; [|right; exact H]. exact Sc.
    - destruct (snd l1) eqn:Es.
      + apply (Step _ l1 FASpace F1 Hlen). rewrite Es. discriminate.
      + destruct (H1 eq_refl) as (s & r1 & g & b & C & -> & R).
        apply (Step _ l1 (FAColor s r1 g b) F1 Hlen). intros _. splits; auto.
        cbn [fst] in R. rewrite Hcons, R. cbn. rewrite <- app_assoc. reflexivity. }
  destruct (c =c "f"%char) eqn:E2.
  { apply eqc_true in E2. subst c. specialize (Hcons ltac:(discriminate)). specialize (Hlen ltac:(discriminate)).
    destruct (parse_font_face get_family a (r, snd l)) as [a1 l1] eqn:Ef.
    destruct (parse_font_face_sound _ _ _ _ Ef) as [F1 H1].
    destruct (snd l1) eqn:Es.
    - apply (Step _ l1 FASpace F1 Hlen). rewrite Es. discriminate.
    - destruct (H1 eq_refl) as (nm & W & -> & R).
      apply (Step _ l1 (FAFace nm) F1 Hlen). intros _. splits; auto.
      cbn [fst] in R. rewrite Hcons, R. cbn. rewrite <- app_assoc. reflexivity. }
  destruct (c =c "s"%char) eqn:E3.
  { apply eqc_true in E3. subst c. specialize (Hcons ltac:(discriminate)). specialize (Hlen ltac:(discriminate)).
    destruct (parse_attribute_uint (2 ^ 32) (bs "ize=""") (fa_size a) (r, snd l)) as [v l1] eqn:Ef.
    destruct (parse_attribute_uint_sound _ (bs "ize=""") _ _ _ _ ltac:(plain) Ef) as [F1 H1].
    destruct (snd l1) eqn:Es.
    - apply (Step _ l1 FASpace F1 Hlen). rewrite Es. discriminate.
    - destruct (H1 eq_refl) as (s & Q & U & R).
      apply (Step _ l1 (FASize s v) F1 Hlen). intros _. splits; auto.
      + split; auto.
      + cbn [fst] in R. rewrite Hcons, R. cbn. rewrite <- app_assoc. reflexivity. }
  destruct (c =c "w"%char) eqn:E4.
  { apply eqc_true in E4. subst c. specialize (Hcons ltac:(discriminate)). specialize (Hlen ltac:(discriminate)).
    destruct (parse_attribute_weight_sound (bs "eight=""") (fa_weight a) (r, snd l) ltac:(plain))
      as [[-> (v & post & R & Q & Lv)]|(v & l1 & -> & F1 & H1)]; cbn [obind].
    - left. split; auto. left. exists [], v, post. cbn [fst] in R. rewrite Hcons, R. splits; auto.
      cbn. rewrite <- app_assoc. reflexivity.
    - destruct (snd l1) eqn:Es.
      + apply (Step _ l1 FASpace F1 Hlen). rewrite Es. discriminate.
      + destruct (H1 eq_refl) as (s & Q & W & R).
        apply (Step _ l1 (FAWeight s v) F1 Hlen). intros _. splits; auto.
        * split; auto.
        * cbn [fst] in R. rewrite Hcons, R. cbn. rewrite <- app_assoc. reflexivity. }
  destruct (c =c " "%char) eqn:E5.
  { apply eqc_true in E5. subst c. specialize (Hcons ltac:(discriminate)). specialize (Hlen ltac:(discriminate)).
    apply (Step _ (r, snd l) FASpace (fwd_refl _) Hlen). intros _. splits; cbn; auto. }
  destruct (c =c c_gt) eqn:E6.
  { apply eqc_true in E6. subst c. right. exists a, (r, snd l). split; auto. split; auto. intros _.
    exists []. splits; auto. cbn. apply Hcons. discriminate. }
  right. exists a, (raise_lx (r, snd l)). split; auto. split; [now apply fwd_raise|discriminate].
Qed.

Lemma quoted_app (p q : bytes) s r : (p ++ quoted s) ++ r = (p ++ [c_quote]) ++ s ++ c_quote :: r.
Proof. unfold quoted. rewrite <- !app_assoc. reflexivity. Qed.

Lemma font_attributes_complete ats : Forall (font_attr_wf get_family) ats -> forall n a r e,
  (List.length (flat_map font_attr_text ats ++ c_gt :: r) < n)%nat ->
  parse_font_attributes get_family n a (flat_map font_attr_text ats ++ c_gt :: r, e)
  = Ok (fold_left fa_apply ats a, (r, e)).
Proof.
  induction 1 as [|x ats W F IH]; intros n a r e L.
  - destruct n as [|n]; [cbn in L; lia|]. cbn. reflexivity.
  - destruct n as [|n]; [lia|]. cbn [flat_map] in *. rewrite <- app_assoc in *.
    set (tl := flat_map font_attr_text ats ++ c_gt :: r) in *.
    assert (L2 : (List.length tl < n)%nat).
    { rewrite app_length in L. destruct x; cbn in L; lia. }
    cbn [fold_left].
    destruct x as [|s rr g b|nm|s v|s w]; cbn [font_attr_text].
    + cbn [parse_font_attributes app bs list_ascii_of_string fst snd next_char]. apply IH. exact L2.
    + change ((bs "color=" ++ quoted s) ++ tl) with ("c"%char :: (bs "olor=" ++ quoted s) ++ tl).
      cbn [parse_font_attributes fst snd next_char]. rewrite eqc_refl.
      rewrite (quoted_app (bs "olor=") []). change (bs "olor=" ++ [c_quote]) with (bs "olor=""").
      rewrite (parse_attribute_color_complete _ _ _ _ _ _ _ _ W). cbn [obind]. apply IH. exact L2.
    + change ((bs "face=" ++ quoted nm) ++ tl) with ("f"%char :: (bs "ace=" ++ quoted nm) ++ tl).
      cbn [parse_font_attributes fst snd next_char]. change ("f" =c "c")%char with false. rewrite eqc_refl.
      destruct W as (Q & N & G). unfold parse_font_face.
      rewrite (quoted_app (bs "ace=") []). change (bs "ace=" ++ [c_quote]) with (bs "ace=""").
      rewrite parse_attribute_complete by auto. destruct nm as [|c0 nm]; [congruence|].
      replace (family_ok (get_family (c0 :: nm))) with true by (unfold family_ok, INVALID_FAMILY; lia).
      apply IH. exact L2.
    + change ((bs "size=" ++ quoted s) ++ tl) with ("s"%char :: (bs "ize=" ++ quoted s) ++ tl).
      cbn [parse_font_attributes fst snd next_char]. change ("s" =c "c")%char with false.
      change ("s" =c "f")%char with false. rewrite eqc_refl. destruct W as (Q & U).
      rewrite (quoted_app (bs "ize=") []). change (bs "ize=" ++ [c_quote]) with (bs "ize=""").
      rewrite (parse_attribute_uint_complete _ _ _ _ _ _ _ Q U). apply IH. exact L2.
    + change ((bs "weight=" ++ quoted s) ++ tl) with ("w"%char :: (bs "eight=" ++ quoted s) ++ tl).
      cbn [parse_font_attributes fst snd next_char]. change ("w" =c "c")%char with false.
      change ("w" =c "f")%char with false. change ("w" =c "s")%char with false. rewrite eqc_refl.
      destruct W as (Q & U).
      rewrite (quoted_app (bs "eight=") []). change (bs "eight=" ++ [c_quote]) with (bs "eight=""").
      rewrite (parse_attribute_weight_complete _ _ _ _ _ _ Q U). cbn [obind]. apply IH. exact L2.
Qed.

(** What the accumulator says about the style. *)
Lemma font_attrs_meaning ats cur col : Forall (font_attr_wf get_family) ats ->
  let a := fold_left fa_apply ats fa_empty in
  let f := fold_left (font_attr_font get_family) ats cur in
  f_family f = (if family_ok (fa_family a) then fa_family a else f_family cur) /\
  f_weight f = (if fa_weight_change a then fa_weight a else f_weight cur) /\
  f_style f = f_style cur /\
  f_size f = (if fa_size_change a then fa_size a else f_size cur) /\
  fold_left font_attr_color ats col = (if fa_color_change a then fa_color a else col).
Proof.
  intros F. cbn zeta.
  assert (G : forall a f c,
    f_family f = (if family_ok (fa_family a) then fa_family a else f_family cur) ->
    f_weight f = (if fa_weight_change a then fa_weight a else f_weight cur) ->
    f_style f = f_style cur ->
    f_size f = (if fa_size_change a then fa_size a else f_size cur) ->
    c = (if fa_color_change a then fa_color a else col) ->
    let a' := fold_left fa_apply ats a in
    let f' := fold_left (font_attr_font get_family) ats f in
    f_family f' = (if family_ok (fa_family a') then fa_family a' else f_family cur) /\
    f_weight f' = (if fa_weight_change a' then fa_weight a' else f_weight cur) /\
    f_style f' = f_style cur /\
    f_size f' = (if fa_size_change a' then fa_size a' else f_size cur) /\
    fold_left font_attr_color ats c = (if fa_color_change a' then fa_color a' else col)).
  2:{ apply G; reflexivity. }
  induction F as [|x ats W F IH]; intros a f c H1 H2 H3 H4 H5; cbn zeta.
  - cbn. auto.
  - cbn [fold_left]. apply IH; destruct x; cbn; auto.
    destruct W as (_ & _ & G). replace (family_ok (get_family name)) with true; auto.
    unfold family_ok, INVALID_FAMILY. lia.
Qed.

(** ** Stroke attributes *)

Lemma bytes_eqb_eq a b : bytes_eqb a b = true <-> a = b.
Proof.
  revert b. induction a as [|x a IH]; intros [|y b]; cbn; split; try discriminate; auto.
  - intros H. apply andb_true_iff in H. destruct H as [H1 H2]. apply eqc_true in H1. apply IH in H2. congruence.
  - intros [= -> ->]. rewrite eqc_refl. now apply IH.
Qed.

Lemma joins_name_spec v j : joins_name v = Some j <-> j <> ST_NONE /\ v = joins_text j.
Proof.
  unfold joins_name. split.
  - destruct (bytes_eqb v (bs "round")) eqn:E1.
    { intros [= <-]. apply bytes_eqb_eq in E1. split; [discriminate|auto]. }
    destruct (bytes_eqb v (bs "bevel")) eqn:E2.
    { intros [= <-]. apply bytes_eqb_eq in E2. split; [discriminate|auto]. }
    destruct (bytes_eqb v (bs "miter")) eqn:E3; [|discriminate].
    intros [= <-]. apply bytes_eqb_eq in E3. split; [discriminate|auto].
  - intros [N ->]. destruct j; [congruence|reflexivity|reflexivity|reflexivity].
Qed.

Lemma joins_quotable j : quotable (joins_text j).
Proof. destruct j; repeat constructor; discriminate. Qed.

Lemma parse_stroke_joins_sound k l k' l' : parse_stroke_joins k l = (k', l') ->
  fwd l l' /\ (snd l' = false -> exists j, j <> ST_NONE /\
     k' = {| k_color := k_color k; k_thickness := k_thickness k; k_joins := j |} /\
     fst l = bs "oins=""" ++ joins_text j ++ c_quote :: fst l').
Proof.
  unfold parse_stroke_joins. destruct (consume_word (bs "oins=""") l) as [ok l1] eqn:E.
  destruct (consume_word_sound (bs "oins=""") ltac:(plain) _ _ _ E) as [F1 H1]. destruct ok.
  2:{ intros [= <- <-]. split; auto. congruence. }
  destruct (read_quoted (fst l1)) as [o r] eqn:Er. destruct (read_quoted_sound _ _ _ Er) as [S2 H2].
  assert (G : forall e, (snd l1 = true -> e = true) -> fwd l (r, e)).
  { intros e He. eapply fwd_trans; [exact F1|]. split; auto. }
  destruct o as [v|].
  - destruct (H2 _ eq_refl) as [Q R]. destruct (joins_name v) as [j|] eqn:Ej; intros [= <- <-].
    + split; [apply G; auto|]. intros _. apply joins_name_spec in Ej. destruct Ej as [N ->].
      exists j. splits; auto. cbn [fst]. destruct H1 as [A _]. now rewrite A, R.
    + split; [apply G; auto|discriminate].
  - intros [= <- <-]. split; [apply G; auto|discriminate].
Qed.

Lemma stroke_attributes_sound : forall n k l, (List.length (fst l) < n)%nat ->
  (parse_stroke_attributes ff n k l = UB /\ bad (fst l)) \/
  exists k' l', parse_stroke_attributes ff n k l = Ok (k', l') /\ fwd l l' /\
    (snd l' = false -> exists ats, Forall (stroke_attr_wf ff) ats /\ k' = fold_left stroke_attr_stroke ats k /\
       fst l = flat_map stroke_attr_text ats ++ c_gt :: fst l').
Proof.
  induction n as [|n IH]; intros a l L; [lia|]. cbn [parse_stroke_attributes].
  destruct (next_char (fst l)) as [c r] eqn:E.
  pose proof (next_char_suffix _ _ _ E) as Sc.
  assert (Fc : fwd l (r, snd l)) by (split; auto).
  assert (Step : forall a1 l1 x, fwd (r, snd l) l1 -> (List.length r < List.length (fst l))%nat ->
     (snd l1 = false -> stroke_attr_wf ff x /\ a1 = stroke_attr_stroke a x /\ fst l = stroke_attr_text x ++ fst l1) ->
     (parse_stroke_attributes ff n a1 l1 = UB /\ bad (fst l)) \/
     exists a' l', parse_stroke_attributes ff n a1 l1 = Ok (a', l') /\ fwd l l' /\
       (snd l' = false -> exists ats, Forall (stroke_attr_wf ff) ats /\ a' = fold_left stroke_attr_stroke ats a /\
          fst l = flat_map stroke_attr_text ats ++ c_gt :: fst l')).
  { intros a1 l1 x F1 Lr H1.
    pose proof (suffix_length _ _ (proj1 F1)) as Ls. cbn [fst] in Ls.
    assert (G1 : fwd l l1) by (eapply fwd_trans; eauto).
    destruct (IH a1 l1 ltac:(eapply Nat.le_lt_trans; [exact Ls|eapply Nat.lt_le_trans; [exact Lr|apply Nat.lt_succ_r; exact L]])) as [[H B]|(a' & l' & H & F2 & H2)].
    - left. split; auto. eapply bad_suffix; [apply G1|auto].
    - right. exists a', l'. split; auto. split; [eapply fwd_trans; eauto|]. intros Hf.
      destruct (H2 Hf) as (ats & W & A & R).
      assert (Hf1 : snd l1 = false) by (destruct (snd l1) eqn:Es; auto; rewrite (proj2 F2 Es) in Hf; discriminate).
      destruct (H1 Hf1) as (W1 & A1 & R1).
      exists (x :: ats). splits.
      + now constructor.
      + cbn [fold_left]. now rewrite <- A1.
      + cbn [flat_map]. rewrite <- app_assoc, <- R. exact R1. }
  assert (Hcons : c <> SENTINEL -> fst l = c :: r) by (apply next_char_cons; auto).
  assert (Hlen : c <> SENTINEL -> (List.length r < List.length (fst l))%nat)
    by (intros N; rewrite (Hcons N); cbn; lia).
  destruct (c =c "c"%char) eqn:E1.
  { apply eqc_true in E1. subst c. specialize (Hcons ltac:(discriminate)). specialize (Hlen ltac:(discriminate)).
    destruct (parse_attribute_color_sound (bs "olor=""") color_zero (r, snd l) ltac:(plain))
      as [[-> H]|(v & l1 & -> & F1 & H1)]; cbn [obind].
    - left. split; auto. eapply bad_suffix; [|right; exact H]. exact Sc.
    - destruct (snd l1) eqn:Es.
      + apply (Step _ l1 SASpace F1 Hlen). rewrite Es. discriminate.
      + destruct (H1 eq_refl) as (s & r1 & g & b & C & -> & R).
        apply (Step _ l1 (SAColor s r1 g b) F1 Hlen). intros _. splits; auto.
        cbn [fst] in R. rewrite Hcons, R. cbn. rewrite <- app_assoc. reflexivity. }
  destruct (c =c "j"%char) eqn:E2.
  { apply eqc_true in E2. subst c. specialize (Hcons ltac:(discriminate)). specialize (Hlen ltac:(discriminate)).
    destruct (parse_stroke_joins a (r, snd l)) as [a1 l1] eqn:Ef.
    destruct (parse_stroke_joins_sound _ _ _ _ Ef) as [F1 H1].
    destruct (snd l1) eqn:Es.
    - apply (Step _ l1 SASpace F1 Hlen). rewrite Es. discriminate.
    - destruct (H1 eq_refl) as (j & W & -> & R).
      apply (Step _ l1 (SAJoins j) F1 Hlen). intros _. splits; auto.
      cbn [fst] in R. rewrite Hcons, R. cbn. rewrite <- app_assoc. reflexivity. }
  destruct (c =c "t"%char) eqn:E3.
  { apply eqc_true in E3. subst c. specialize (Hcons ltac:(discriminate)). specialize (Hlen ltac:(discriminate)).
    cbn [fst snd]. destruct (next_char r) as [c2 r2] eqn:E2c.
    pose proof (next_char_suffix _ _ _ E2c) as Sc2.
    assert (F2 : fwd (r, snd l) (r2, snd l)) by (split; auto).
    assert (Hcons2 : c2 <> SENTINEL -> r = c2 :: r2) by (apply next_char_cons; auto).
    destruct (c2 =c "h"%char) eqn:Eh.
    { apply eqc_true in Eh. subst c2. specialize (Hcons2 ltac:(discriminate)).
      destruct (parse_attribute_uint 256 (bs "ickness=""") (k_thickness a) (r2, snd l)) as [v l1] eqn:Ef.
      destruct (parse_attribute_uint_sound _ (bs "ickness=""") _ _ _ _ ltac:(plain) Ef) as [F1 H1].
      assert (G1 : fwd (r, snd l) l1) by (eapply fwd_trans; eauto).
      destruct (snd l1) eqn:Es.
      - apply (Step _ l1 SASpace G1 Hlen). rewrite Es. discriminate.
      - destruct (H1 eq_refl) as (s & Q & U & R).
        apply (Step _ l1 (SAThickness s v) G1 Hlen). intros _. splits; auto.
        + split; auto.
        + cbn [fst] in R. rewrite Hcons, Hcons2, R. cbn. rewrite <- app_assoc. reflexivity. }
    destruct (c2 =c "r"%char) eqn:Er.
    { apply eqc_true in Er. subst c2. specialize (Hcons2 ltac:(discriminate)).
      destruct (parse_attribute_float ff (bs "ansparency=""") (c_a (k_color a)) (r2, snd l)) as [v l1] eqn:Ef.
      destruct (parse_attribute_float_sound _ (bs "ansparency=""") _ _ _ _ ltac:(plain) Ef) as [F1 H1].
      assert (G1 : fwd (r, snd l) l1) by (eapply fwd_trans; eauto).
      destruct (snd l1) eqn:Es.
      - apply (Step _ l1 SASpace G1 Hlen). rewrite Es. discriminate.
      - destruct (H1 eq_refl) as (s & Q & U & R).
        apply (Step _ l1 (SATransparency s v) G1 Hlen). intros _. splits; auto.
        + split; auto.
        + cbn [fst] in R. rewrite Hcons, Hcons2, R. cbn. rewrite <- app_assoc. reflexivity. }
    apply (Step _ _ SASpace (fwd_raise _ _ F2) Hlen). discriminate. }
  destruct (c =c " "%char) eqn:E5.
  { apply eqc_true in E5. subst c. specialize (Hcons ltac:(discriminate)). specialize (Hlen ltac:(discriminate)).
    apply (Step _ (r, snd l) SASpace (fwd_refl _) Hlen). intros _. splits; cbn; auto. }
  destruct (c =c c_gt) eqn:E6.
  { apply eqc_true in E6. subst c. right. exists a, (r, snd l). split; auto. split; auto. intros _.
    exists []. splits; auto. cbn. apply Hcons. discriminate. }
  right. exists a, (raise_lx (r, snd l)). split; auto. split; [now apply fwd_raise|discriminate].
Qed.

Lemma stroke_attributes_complete ats : Forall (stroke_attr_wf ff) ats -> forall n a r e,
  (List.length (flat_map stroke_attr_text ats ++ c_gt :: r) < n)%nat ->
  parse_stroke_attributes ff n a (flat_map stroke_attr_text ats ++ c_gt :: r, e)
  = Ok (fold_left stroke_attr_stroke ats a, (r, e)).
Proof.
  induction 1 as [|x ats W F IH]; intros n a r e L.
  - destruct n as [|n]; [cbn in L; lia|]. cbn. reflexivity.
  - destruct n as [|n]; [lia|]. cbn [flat_map] in *. rewrite <- app_assoc in *.
    set (tl := flat_map stroke_attr_text ats ++ c_gt :: r) in *.
    assert (L2 : (List.length tl < n)%nat).
    { rewrite app_length in L. destruct x; cbn in L; lia. }
    cbn [fold_left].
    destruct x as [|s rr g b|j|s v|s v]; cbn [stroke_attr_text].
    + cbn [parse_stroke_attributes app bs list_ascii_of_string fst snd next_char]. apply IH. exact L2.
    + change ((bs "color=" ++ quoted s) ++ tl) with ("c"%char :: (bs "olor=" ++ quoted s) ++ tl).
      cbn [parse_stroke_attributes fst snd next_char]. rewrite eqc_refl.
      rewrite (quoted_app (bs "olor=") []). change (bs "olor=" ++ [c_quote]) with (bs "olor=""").
      rewrite (parse_attribute_color_complete _ _ _ _ _ _ _ _ W). cbn [obind]. apply IH. exact L2.
    + change ((bs "joins=" ++ quoted (joins_text j)) ++ tl) with ("j"%char :: (bs "oins=" ++ quoted (joins_text j)) ++ tl).
      cbn [parse_stroke_attributes fst snd next_char]. change ("j" =c "c")%char with false. rewrite eqc_refl.
      unfold parse_stroke_joins.
      rewrite (quoted_app (bs "oins=") []). change (bs "oins=" ++ [c_quote]) with (bs "oins=""").
      rewrite consume_word_complete. cbn [fst snd].
      rewrite read_quoted_complete by apply joins_quotable.
      rewrite (proj2 (joins_name_spec _ j)) by (split; auto).
      apply IH. exact L2.
    + change ((bs "thickness=" ++ quoted s) ++ tl) with ("t"%char :: "h"%char :: (bs "ickness=" ++ quoted s) ++ tl).
      cbn [parse_stroke_attributes fst snd next_char]. change ("t" =c "c")%char with false.
      change ("t" =c "j")%char with false. rewrite !eqc_refl. destruct W as (Q & U).
      rewrite (quoted_app (bs "ickness=") []). change (bs "ickness=" ++ [c_quote]) with (bs "ickness=""").
      rewrite (parse_attribute_uint_complete _ _ _ _ _ _ _ Q U). apply IH. exact L2.
    + change ((bs "transparency=" ++ quoted s) ++ tl) with ("t"%char :: "r"%char :: (bs "ansparency=" ++ quoted s) ++ tl).
      cbn [parse_stroke_attributes fst snd next_char]. change ("t" =c "c")%char with false.
      change ("t" =c "j")%char with false. change ("r" =c "h")%char with false. rewrite !eqc_refl.
      destruct W as (Q & U).
      rewrite (quoted_app (bs "ansparency=") []). change (bs "ansparency=" ++ [c_quote]) with (bs "ansparency=""").
      rewrite (parse_attribute_float_complete _ _ _ _ _ _ _ Q U). apply IH. exact L2.
Qed.

(** ** Comments *)

Lemma comment_loop_sound r : forall e l', comment_loop r e = l' ->
  fwd (r, e) l' /\ (snd l' = false -> exists body, Forall (fun c => c <> "-"%char /\ code c <> 255) body /\
     r = body ++ bs "-->" ++ fst l').
Proof.
  induction r as [|c r IH]; intros e l'; cbn [comment_loop].
  - intros <-. split; [split; auto with sfx|discriminate].
  - destruct (c =c SENTINEL) eqn:E1.
    { intros <-. split; [split; cbn; auto with sfx|discriminate]. }
    destruct (c =c "-"%char) eqn:E2.
    + apply eqc_true in E2. subst c. destruct (consume_char "-"%char (r, e)) as [ok l1] eqn:E3.
      destruct (consume_char_sound "-"%char _ _ _ ltac:(discriminate) E3) as [F1 H1].
      assert (F0 : fwd ("-"%char :: r, e) (r, e)) by (split; cbn; auto with sfx).
      destruct ok.
      * destruct (consume_char c_gt l1) as [ok2 l2] eqn:E4. cbn [snd]. intros <-.
        destruct (consume_char_sound c_gt _ _ _ ltac:(discriminate) E4) as [F2 H2].
        split; [eapply fwd_trans; [exact F0|eapply fwd_trans; eauto]|]. intros Hf.
        destruct ok2; [|congruence]. exists []. split; auto. cbn.
        destruct H1 as [A _], H2 as [B _]. cbn in A. rewrite A, B. reflexivity.
      * intros <-. split; [eapply fwd_trans; eauto|congruence].
    + intros H. destruct (IH _ _ H) as [F1 H1]. split.
      { eapply fwd_trans; [|exact F1]. split; cbn; auto with sfx. }
      intros Hf. destruct (H1 Hf) as (body & Fb & R). exists (c :: body). split.
      * constructor; auto. apply eqc_false in E1, E2. split; auto. intros C. apply E1, sentinel_code, C.
      * cbn. f_equal. exact R.
Qed.

Lemma comment_loop_complete body r e : Forall (fun c => c <> "-"%char /\ code c <> 255) body ->
  comment_loop (body ++ bs "-->" ++ r) e = (r, e).
Proof.
  induction 1 as [|c body [H1 H2] F IH]; cbn [comment_loop app].
  - cbn. reflexivity.
  - replace (c =c SENTINEL) with false by (symmetry; apply eqc_false; intros C; apply H2, sentinel_code, C).
    replace (c =c "-"%char) with false by (symmetry; apply eqc_false; auto). exact IH.
Qed.

Lemma parse_comment_sound l l' : parse_comment l = l' ->
  fwd l l' /\ (snd l' = false -> exists body, Forall (fun c => c <> "-"%char /\ code c <> 255) body /\
     fst l = bs "--" ++ body ++ bs "-->" ++ fst l').
Proof.
  unfold parse_comment. destruct (consume_char "-"%char l) as [ok l1] eqn:E1.
  destruct (consume_char_sound "-"%char _ _ _ ltac:(discriminate) E1) as [F1 H1]. destruct ok.
  2:{ intros <-. split; auto. congruence. }
  destruct (consume_char "-"%char l1) as [ok l2] eqn:E2.
  destruct (consume_char_sound "-"%char _ _ _ ltac:(discriminate) E2) as [F2 H2]. destruct ok.
  2:{ intros <-. split; [eapply fwd_trans; eauto|congruence]. }
  intros H. destruct (comment_loop_sound _ _ _ H) as [F3 H3].
  destruct l2 as [r2 e2]. cbn [fst snd] in *.
  split; [eapply fwd_trans; [exact F1|eapply fwd_trans; eauto]|]. intros Hf.
  destruct (H3 Hf) as (body & Fb & R). exists body. split; auto.
  destruct H1 as [A _], H2 as [B _]. rewrite A, B. cbn. do 2 f_equal. exact R.
Qed.

Lemma parse_comment_complete body r e : Forall (fun c => c <> "-"%char /\ code c <> 255) body ->
  parse_comment (bs "--" ++ body ++ bs "-->" ++ r, e) = (r, e).
Proof.
  intros F. unfold parse_comment.
  change (bs "--" ++ body ++ bs "-->" ++ r) with ("-"%char :: "-"%char :: body ++ bs "-->" ++ r).
  rewrite !consume_char_complete. apply comment_loop_complete; auto.
Qed.
End A.
