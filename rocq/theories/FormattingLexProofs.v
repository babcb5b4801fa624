From Verif Require Import Base BaseFacts ValueRunsModel ValueRunsSpec RunBuilderModel FloatModel ColorModel
  PackingProofs FormattingModel FormattingSpec.
Open Scope Z_scope.

Ltac splits := repeat match goal with |- _ /\ _ => split end.

(** ** Characters *)

Lemma code_ch n : (n < 256)%nat -> code (ch n) = Z.of_nat n.
Proof. intros H. unfold code, ch. rewrite nat_ascii_embedding by auto. reflexivity. Qed.

Lemma code_inj a b : code a = code b -> a = b.
Proof.
  unfold code. intros H. apply Nat2Z.inj in H.
  rewrite <- (ascii_nat_embedding a), <- (ascii_nat_embedding b). now rewrite H.
Qed.

Lemma code_range a : 0 <= code a < 256.
Proof. unfold code. pose proof (nat_ascii_bounded a). lia. Qed.

Lemma eqc_true a b : (a =c b) = true <-> a = b.
Proof. apply Ascii.eqb_eq. Qed.
Lemma eqc_false a b : (a =c b) = false <-> a <> b.
Proof. apply Ascii.eqb_neq. Qed.
Lemma eqc_refl a : (a =c a) = true.
Proof. apply Ascii.eqb_refl. Qed.

Lemma sentinel_code c : c = SENTINEL <-> code c = 255.
Proof.
  split; intros H; [subst; reflexivity|]. apply code_inj. rewrite H. reflexivity.
Qed.
Lemma quote_code c : c = c_quote <-> code c = 34.
Proof.
  split; intros H; [subst; reflexivity|]. apply code_inj. rewrite H. reflexivity.
Qed.

Lemma is_digit_spec c : is_digit c = true <-> decimal c.
Proof. unfold is_digit, decimal. lia. Qed.

Lemma is_space_spec c : is_space c = true <-> blank c.
Proof.
  unfold is_space, blank. rewrite !orb_true_iff, !eqc_true.
  split; intros H.
  - destruct H as [[[H|H]|H]|H]; subst; cbn; auto.
  - destruct H as [H|[H|[H|H]]].
    + left; left; left. apply code_inj. rewrite H; reflexivity.
    + left; left; right. apply code_inj. rewrite H; reflexivity.
    + right. apply code_inj. rewrite H; reflexivity.
    + left; right. apply code_inj. rewrite H; reflexivity.
Qed.

Lemma code_sentinel : code SENTINEL = 255. Proof. reflexivity. Qed.
Lemma code_nul : code (ch 0) = 0. Proof. reflexivity. Qed.
Lemma code_comma : code ","%char = 44. Proof. reflexivity. Qed.
Lemma code_paren : code ")"%char = 41. Proof. reflexivity. Qed.
Global Opaque code.
Ltac ccode := unfold blank, decimal in *; rewrite ?code_sentinel, ?code_nul, ?code_comma, ?code_paren in *; lia.

(** ** Suffixes *)

Definition suffix (r' r : bytes) : Prop := exists pre, r = pre ++ r'.
Lemma suffix_refl r : suffix r r.
Proof. exists []; reflexivity. Qed.
Lemma suffix_cons c r' r : suffix r' r -> suffix r' (c :: r).
Proof. intros (p & ->). now exists (c :: p). Qed.
Lemma suffix_app p r' r : suffix r' r -> suffix r' (p ++ r).
Proof. intros (q & ->). exists (p ++ q). now rewrite app_assoc. Qed.
Lemma suffix_app_self p r : suffix r (p ++ r).
Proof. now exists p. Qed.
Lemma suffix_trans a b c : suffix a b -> suffix b c -> suffix a c.
Proof. intros (p & ->) (q & ->). exists (q ++ p). now rewrite app_assoc. Qed.
Lemma suffix_length a b : suffix a b -> (List.length a <= List.length b)%nat.
Proof. intros (p & ->). rewrite app_length. lia. Qed.
Lemma suffix_nil r : suffix [] r.
Proof. exists r. now rewrite app_nil_r. Qed.
Global Hint Resolve suffix_refl suffix_cons suffix_app suffix_app_self suffix_nil : sfx.

Lemma next_char_suffix r c r' : next_char r = (c, r') -> suffix r' r.
Proof. destruct r; cbn; intros [= <- <-]; auto with sfx. Qed.

Lemma next_char_cons r c r' : next_char r = (c, r') -> c <> SENTINEL -> r = c :: r'.
Proof. destruct r; cbn; intros [= <- <-]; congruence. Qed.

Lemma next_char_dec r c r' : next_char r = (c, r') -> c <> SENTINEL ->
  (List.length r' < List.length r)%nat.
Proof. intros H N. rewrite (next_char_cons _ _ _ H N). cbn. lia. Qed.

(** What every reading step guarantees: it moves forward and keeps errors. *)
Definition fwd (l l' : lx) : Prop := suffix (fst l') (fst l) /\ (snd l = true -> snd l' = true).
Lemma fwd_refl l : fwd l l.
Proof. split; auto with sfx. Qed.
Lemma fwd_trans a b c : fwd a b -> fwd b c -> fwd a c.
Proof. intros [A B] [C D]. split; eauto using suffix_trans. Qed.
Lemma fwd_raise l l' : fwd l l' -> fwd l (raise_lx l').
Proof. intros [A B]. split; auto. Qed.

(** ** Words *)

Definition plain_word (w : bytes) : Prop := Forall (fun c => c <> SENTINEL) w.

Lemma consume_char_sound c l ok l' : c <> SENTINEL -> consume_char c l = (ok, l') ->
  fwd l l' /\ (if ok then fst l = c :: fst l' /\ snd l' = snd l else snd l' = true).
Proof.
  intros Hc. unfold consume_char. destruct (next_char (fst l)) as [d r] eqn:E.
  destruct (d =c c) eqn:Ed; intros [= <- <-].
  - apply eqc_true in Ed. subst d. pose proof (next_char_cons _ _ _ E Hc) as Hr.
    split; [split; cbn; auto|].
    + rewrite Hr. auto with sfx.
    + cbn. auto.
  - split; [split; cbn; auto|reflexivity]. eapply next_char_suffix; eauto.
Qed.

Lemma consume_char_complete c r e : consume_char c (c :: r, e) = (true, (r, e)).
Proof. unfold consume_char. cbn. now rewrite eqc_refl. Qed.

Lemma consume_word_sound w : plain_word w -> forall l ok l', consume_word w l = (ok, l') ->
  fwd l l' /\ (if ok then fst l = w ++ fst l' /\ snd l' = snd l else snd l' = true).
Proof.
  induction 1 as [|c w Hc Hw IH]; intros l ok l'; cbn [consume_word].
  - intros [= <- <-]. split; [apply fwd_refl|]. auto.
  - destruct (consume_char c l) as [ok1 l1] eqn:E.
    destruct (consume_char_sound _ _ _ _ Hc E) as [F1 H1]. destruct ok1.
    + intros H. destruct (IH _ _ _ H) as [F2 H2].
      split; [eapply fwd_trans; eauto|]. destruct ok; auto.
      destruct H1 as [A B], H2 as [C D]. split; [rewrite A, C; reflexivity|congruence].
    + intros [= <- <-]. split; auto.
Qed.

Lemma consume_word_complete w r e : consume_word w (w ++ r, e) = (true, (r, e)).
Proof.
  induction w as [|c w IH]; cbn [consume_word app]; auto.
  rewrite consume_char_complete. apply IH.
Qed.

(** ** Quoted values *)

Lemma read_quoted_sound r o r' : read_quoted r = (o, r') ->
  suffix r' r /\ (forall v, o = Some v -> quotable v /\ r = v ++ c_quote :: r').
Proof.
  revert o r'. induction r as [|c r IH]; intros o r'; cbn [read_quoted].
  - intros [= <- <-]. split; auto with sfx. discriminate.
  - destruct (c =c c_quote) eqn:Eq.
    { intros [= <- <-]. apply eqc_true in Eq. subst c. split; auto with sfx.
      intros v [= <-]. split; [constructor|reflexivity]. }
    destruct (c =c SENTINEL) eqn:Es.
    { intros [= <- <-]. split; auto with sfx. discriminate. }
    destruct (read_quoted r) as [o1 r1] eqn:E. intros [= <- <-].
    destruct (IH _ _ eq_refl) as [S1 H1]. split; auto with sfx.
    intros v Hv. destruct o1 as [v1|]; [|discriminate]. cbn in Hv. injection Hv as <-.
    destruct (H1 _ eq_refl) as [Q ->]. split; [|reflexivity].
    constructor; auto. apply eqc_false in Eq. apply eqc_false in Es.
    split; intros C; [apply Eq, quote_code, C|apply Es, sentinel_code, C].
Qed.

Lemma read_quoted_complete v r : quotable v -> read_quoted (v ++ c_quote :: r) = (Some v, r).
Proof.
  induction 1 as [|c v [Q1 Q2] Hv IH]; cbn [read_quoted app].
  - now rewrite eqc_refl.
  - destruct (c =c c_quote) eqn:E1; [apply eqc_true in E1; subst; exfalso; now apply Q1|].
    destruct (c =c SENTINEL) eqn:E2; [apply eqc_true in E2; subst; exfalso; now apply Q2|].
    now rewrite IH.
Qed.

Lemma parse_attribute_sound name l v l' : plain_word name -> parse_attribute name l = (v, l') ->
  fwd l l' /\ (snd l' = false -> quotable v /\ fst l = name ++ v ++ c_quote :: fst l').
Proof.
  intros Hn. unfold parse_attribute. destruct (consume_word name l) as [ok l1] eqn:E.
  destruct (consume_word_sound _ Hn _ _ _ E) as [F1 H1]. destruct ok.
  - destruct (read_quoted (fst l1)) as [o r] eqn:Er.
    destruct (read_quoted_sound _ _ _ Er) as [S2 H2]. destruct o as [w|]; intros [= <- <-].
    + split.
      * eapply fwd_trans; [exact F1|]. split; auto.
      * intros _. destruct (H2 _ eq_refl) as [Q R]. split; auto. cbn [fst].
        destruct H1 as [A _]. now rewrite A, R.
    + split; [|discriminate]. eapply fwd_trans; [exact F1|]. split; auto.
  - intros [= <- <-]. split; auto. congruence.
Qed.

Lemma parse_attribute_complete name v r e : quotable v ->
  parse_attribute name (name ++ v ++ c_quote :: r, e) = (v, (r, e)).
Proof.
  intros Q. unfold parse_attribute. rewrite consume_word_complete. cbn [fst snd].
  now rewrite read_quoted_complete.
Qed.

(** ** Numbers *)

Lemma digit_val_10 c : digit_val 10 c = if is_digit c then Some (code c - 48) else None.
Proof.
  unfold digit_val, is_digit. pose proof (code_range c).
  destruct ((48 <=? code c) && (code c <=? 57)) eqn:E1.
  - replace (code c - 48 <? 10) with true by lia. reflexivity.
  - destruct ((65 <=? code c) && (code c <=? 90)) eqn:E2.
    + replace (code c - 55 <? 10) with false by lia. reflexivity.
    + destruct ((97 <=? code c) && (code c <=? 122)) eqn:E3.
      * replace (code c - 87 <? 10) with false by lia. reflexivity.
      * reflexivity.
Qed.

Lemma digit_val_16 c : digit_val 16 c = hex_value c.
Proof.
  unfold digit_val, hex_value. pose proof (code_range c).
  destruct ((48 <=? code c) && (code c <=? 57)) eqn:E1.
  - replace (code c - 48 <? 16) with true by lia. reflexivity.
  - destruct ((65 <=? code c) && (code c <=? 90)) eqn:E2.
    + destruct ((65 <=? code c) && (code c <=? 70)) eqn:E3.
      * replace (code c - 55 <? 16) with true by lia. f_equal; lia.
      * replace (code c - 55 <? 16) with false by lia.
        replace ((97 <=? code c) && (code c <=? 102)) with false by lia. reflexivity.
    + replace ((65 <=? code c) && (code c <=? 70)) with false by lia.
      destruct ((97 <=? code c) && (code c <=? 122)) eqn:E3.
      * destruct ((97 <=? code c) && (code c <=? 102)) eqn:E4.
        -- replace (code c - 87 <? 16) with true by lia. f_equal; lia.
        -- replace (code c - 87 <? 16) with false by lia. reflexivity.
      * replace ((97 <=? code c) && (code c <=? 102)) with false by lia. reflexivity.
Qed.

Lemma is_hex_spec c : is_hex c = true <-> exists v, hex_value c = Some v.
Proof.
  unfold is_hex, hex_value, is_digit. split.
  - intros H. destruct ((48 <=? code c) && (code c <=? 57)) eqn:E1; [eauto|].
    destruct ((65 <=? code c) && (code c <=? 70)) eqn:E2; [eauto|].
    destruct ((97 <=? code c) && (code c <=? 102)) eqn:E3; [eauto|]. discriminate.
  - intros (v & H). destruct ((48 <=? code c) && (code c <=? 57)) eqn:E1; [reflexivity|].
    destruct ((65 <=? code c) && (code c <=? 70)) eqn:E2; [reflexivity|].
    destruct ((97 <=? code c) && (code c <=? 102)) eqn:E3; [reflexivity|]. discriminate.
Qed.

Lemma hex_value_range c v : hex_value c = Some v -> 0 <= v < 16.
Proof.
  unfold hex_value. intros H.
  destruct ((48 <=? code c) && (code c <=? 57)) eqn:E1; [injection H as <-; lia|].
  destruct ((65 <=? code c) && (code c <=? 70)) eqn:E2; [injection H as <-; lia|].
  destruct ((97 <=? code c) && (code c <=? 102)) eqn:E3; [injection H as <-; lia|]. discriminate.
Qed.

(** The longest prefix of digits. *)
Lemma split_digits s : exists ds junk, s = ds ++ junk /\ Forall decimal ds /\
  (forall c junk', junk = c :: junk' -> ~ decimal c).
Proof.
  induction s as [|c s (ds & junk & -> & F & N)].
  - exists [], []. splits; auto. discriminate.
  - destruct (is_digit c) eqn:E.
    + exists (c :: ds), junk. splits; auto. constructor; auto. now apply is_digit_spec.
    + exists [], (c :: ds ++ junk). splits; auto. intros d j [= <- <-] D.
      apply is_digit_spec in D. congruence.
Qed.

Lemma scan_10 ds junk acc n : Forall decimal ds -> (forall c junk', junk = c :: junk' -> ~ decimal c) ->
  scan 10 (ds ++ junk) acc n
  = (acc * 10 ^ Z.of_nat (List.length ds) + number ds, (n + List.length ds)%nat).
Proof.
  intros F N. revert acc n. induction F as [|d ds D F IH]; intros acc n; cbn [app List.length number].
  - cbn [Z.of_nat]. replace (acc * 10 ^ Z.of_nat 0 + 0) with acc by (change (10 ^ Z.of_nat 0) with 1; lia).
    rewrite Nat.add_0_r.
    destruct junk as [|c junk]; [reflexivity|]. cbn [scan]. rewrite digit_val_10.
    destruct (is_digit c) eqn:E; [|reflexivity]. exfalso. eapply N; [reflexivity|]. now apply is_digit_spec.
  - cbn [scan]. rewrite digit_val_10. rewrite (proj2 (is_digit_spec d) D). rewrite IH.
    f_equal; [|lia]. rewrite Nat2Z.inj_succ, Z.pow_succ_r by lia. ring.
Qed.

Lemma from_chars_10_some bound s v : fst (from_chars 10 bound s) = Some v <-> uint_syntax bound s v.
Proof.
  unfold from_chars. split.
  - intros H. destruct (split_digits s) as (ds & junk & -> & F & N).
    rewrite (scan_10 ds junk 0 0%nat F N) in H.
    destruct ds as [|d ds]; [discriminate|]. exists (d :: ds), junk.
    rewrite Z.mul_0_l, Z.add_0_l in H. cbn [List.length plus] in H.
    destruct (number (d :: ds) <? bound) eqn:E; [|discriminate].
    assert (Hv : number (d :: ds) = v) by (cbn [fst] in H; congruence).
    split; [reflexivity|]. split; [discriminate|]. split; [exact F|]. split; [exact N|].
    split; [congruence|]. rewrite <- Hv. now apply Z.ltb_lt.
  - intros (ds & junk & -> & Hne & F & N & -> & B).
    rewrite (scan_10 ds junk 0 0%nat F N). destruct ds as [|d ds]; [congruence|].
    rewrite Z.mul_0_l, Z.add_0_l. cbn [List.length plus].
    apply Z.ltb_lt in B. rewrite B. reflexivity.
Qed.

Lemma parse_attribute_uint_sound bound name old l v l' : plain_word name ->
  parse_attribute_uint bound name old l = (v, l') ->
  fwd l l' /\ (snd l' = false -> exists s, quotable s /\ uint_syntax bound s v /\
     fst l = name ++ s ++ c_quote :: fst l').
Proof.
  intros Hn. unfold parse_attribute_uint. destruct (parse_attribute name l) as [a l1] eqn:E.
  destruct (parse_attribute_sound _ _ _ _ Hn E) as [F1 H1].
  destruct (fst (from_chars 10 bound a)) as [w|] eqn:Ef; intros [= <- <-].
  - split; auto. intros Hf. destruct (H1 Hf) as [Q R]. exists a. splits; auto.
    now apply from_chars_10_some.
  - split; [now apply fwd_raise|discriminate].
Qed.

Lemma parse_attribute_uint_complete bound name old s v r e : quotable s -> uint_syntax bound s v ->
  parse_attribute_uint bound name old (name ++ s ++ c_quote :: r, e) = (v, (r, e)).
Proof.
  intros Q U. unfold parse_attribute_uint. rewrite parse_attribute_complete by auto.
  now rewrite (proj2 (from_chars_10_some bound s v) U).
Qed.

Lemma parse_attribute_float_sound ff name old l v l' : plain_word name ->
  parse_attribute_float ff name old l = (v, l') ->
  fwd l l' /\ (snd l' = false -> exists s, quotable s /\ ff s = Some v /\
     fst l = name ++ s ++ c_quote :: fst l').
Proof.
  intros Hn. unfold parse_attribute_float. destruct (parse_attribute name l) as [a l1] eqn:E.
  destruct (parse_attribute_sound _ _ _ _ Hn E) as [F1 H1].
  destruct (ff a) as [w|] eqn:Ef; intros [= <- <-].
  - split; auto. intros Hf. destruct (H1 Hf) as [Q R]. exists a. splits; auto.
  - split; [now apply fwd_raise|discriminate].
Qed.

Lemma parse_attribute_float_complete ff name old s v r e : quotable s -> ff s = Some v ->
  parse_attribute_float ff name old (name ++ s ++ c_quote :: r, e) = (v, (r, e)).
Proof.
  intros Q U. unfold parse_attribute_float. rewrite parse_attribute_complete by auto.
  now rewrite U.
Qed.

(** ** Colours *)

Lemma read_hex_sound n : forall r o r', read_hex n r = (o, r') ->
  suffix r' r /\ (forall v, o = Some v -> List.length v = n /\ Forall (fun c => is_hex c = true) v /\ r = v ++ r').
Proof.
  induction n as [|n IH]; intros r o r'; cbn [read_hex].
  - intros [= <- <-]. split; auto with sfx. intros v [= <-]. auto.
  - destruct (next_char r) as [c r1] eqn:E. destruct (is_hex c) eqn:Eh.
    + destruct (read_hex n r1) as [o1 r2] eqn:Er. intros [= <- <-].
      destruct (IH _ _ _ Er) as [S1 H1].
      assert (Hc : c <> SENTINEL) by (intros ->; discriminate).
      rewrite (next_char_cons _ _ _ E Hc). split; auto with sfx.
      intros v Hv. destruct o1 as [v1|]; [|discriminate]. cbn in Hv. injection Hv as <-.
      destruct (H1 _ eq_refl) as (L & F & R). cbn [List.length app]. splits; auto. now rewrite <- R.
    + intros [= <- <-]. split; [eapply next_char_suffix; eauto|discriminate].
Qed.

Lemma read_hex_complete v r : Forall (fun c => is_hex c = true) v ->
  read_hex (List.length v) (v ++ r) = (Some v, r).
Proof.
  induction 1 as [|c v Hc F IH]; cbn [List.length read_hex app next_char]; auto.
  now rewrite Hc, IH.
Qed.

Lemma scan_16_six a b c d e f va vb vc vd ve vf :
  hex_value a = Some va -> hex_value b = Some vb -> hex_value c = Some vc ->
  hex_value d = Some vd -> hex_value e = Some ve -> hex_value f = Some vf ->
  from_chars 16 (2 ^ 32) [a; b; c; d; e; f]
  = (Some ((16 * va + vb) * 65536 + (16 * vc + vd) * 256 + (16 * ve + vf)), 6%nat).
Proof.
  intros Ha Hb Hc Hd He Hf. unfold from_chars. cbn [scan].
  rewrite !digit_val_16, Ha, Hb, Hc, Hd, He, Hf.
  pose proof (hex_value_range _ _ Ha). pose proof (hex_value_range _ _ Hb).
  pose proof (hex_value_range _ _ Hc). pose proof (hex_value_range _ _ Hd).
  pose proof (hex_value_range _ _ He). pose proof (hex_value_range _ _ Hf).
  match goal with |- (if ?b then Some ?x else None, _) = _ =>
    assert (Hx : x = (16 * va + vb) * 65536 + (16 * vc + vd) * 256 + (16 * ve + vf)) by ring;
    rewrite Hx; replace (_ <? 2 ^ 32) with true by (symmetry; apply Z.ltb_lt; lia)
  end. reflexivity.
Qed.

Definition rgb_word (r g b : Z) : Z := r * 65536 + g * 256 + b.

Lemma abgr_of_word r g b : 0 <= r < 256 -> 0 <= g < 256 -> 0 <= b < 256 ->
  let v := from_abgr_uint (rgb_word r g b) in
  {| c_r := c_r v; c_g := c_g v; c_b := c_b v; c_a := f32_1 |} = rgb_color r g b f32_1.
Proof.
  intros Hr Hg Hb. cbn zeta. unfold from_abgr_uint, from_rgb, rgb_color, rgb_word.
  cbn [c_r c_g c_b c_a]. unfold fz.
  assert (E1 : Z.shiftr (r * 65536 + g * 256 + b) 16 = r).
  { rewrite Z.shiftr_div_pow2 by lia. change (2 ^ 16) with 65536. lia. }
  assert (E2 : Z.land (Z.shiftr (r * 65536 + g * 256 + b) 8) 255 = g).
  { rewrite Z.shiftr_div_pow2 by lia. change 255 with (Z.ones 8). rewrite Z.land_ones by lia.
    change (2 ^ 8) with 256. lia. }
  assert (E3 : Z.land (r * 65536 + g * 256 + b) 255 = b).
  { change 255 with (Z.ones 8). rewrite Z.land_ones by lia. change (2 ^ 8) with 256. lia. }
  now rewrite E1, E2, E3.
Qed.

Lemma number_two ds : Forall decimal ds -> (List.length ds <= 2)%nat -> 0 <= number ds < 100.
Proof.
  intros F L. destruct F as [|a ds Ha F]; [cbn; lia|].
  destruct F as [|b ds Hb F]; [unfold decimal in *; cbn [number List.length]; change (10 ^ Z.of_nat 0) with 1; lia|].
  destruct F as [|c ds Hc F]; [|cbn in L; lia].
  unfold decimal in *. cbn [number List.length].
  change (10 ^ Z.of_nat 1) with 10. change (10 ^ Z.of_nat 0) with 1. lia.
Qed.

Lemma channel_value_ok ds : Forall decimal ds -> (List.length ds <= 2)%nat ->
  channel_value ds = Ok (number ds).
Proof.
  intros F L. unfold channel_value. replace (List.length ds + 1 <=? 3)%nat with true by lia.
  pose proof (number_two _ F L) as Hn. f_equal.
  assert (E : firstn (List.length ds + 1) (number_buffer ds) = ds ++ [ch 0]).
  { unfold number_buffer. rewrite firstn_firstn. replace (Nat.min _ 3) with (List.length ds + 1)%nat by lia.
    rewrite firstn_app. replace (List.length ds + 1 - List.length ds)%nat with 1%nat by lia.
    rewrite firstn_all2 by lia. reflexivity. }
  rewrite E. unfold from_chars.
  rewrite (scan_10 ds [ch 0] 0 0%nat F).
  2:{ intros c j [= <- <-]. ccode. }
  rewrite Z.mul_0_l, Z.add_0_l. cbn [plus].
  destruct ds as [|d ds]; [reflexivity|]. cbn [List.length fst].
  replace (number (d :: ds) <? 256) with true; [reflexivity|]. symmetry. apply Z.ltb_lt. lia.
Qed.

Lemma channel_value_ub ds : (2 < List.length ds)%nat -> channel_value ds = UB.
Proof.
  intros L. unfold channel_value. replace (List.length ds + 1 <=? 3)%nat with false by lia. reflexivity.
Qed.

(** Stops are ordinary characters: not white space, not digits, not byte 255. *)
Definition stop_ok (stop : ascii) : Prop := ~ blank stop /\ ~ decimal stop /\ stop <> SENTINEL.
Lemma stop_comma : stop_ok ","%char.
Proof. unfold stop_ok; splits; try discriminate; intros H; ccode. Qed.
Lemma stop_paren : stop_ok ")"%char.
Proof. unfold stop_ok; splits; try discriminate; intros H; ccode. Qed.

Lemma skip_leading_sound c r : exists w c' r', skip_leading c r = (c', r') /\ Forall blank w /\ ~ blank c' /\
  ((c :: r = w ++ c' :: r') \/ (c' = SENTINEL /\ r' = [])).
Proof.
  revert c. induction r as [|d r IH]; intros c; cbn [skip_leading].
  - destruct (is_space c) eqn:E.
    + exists [], SENTINEL, []. splits; auto. ccode.
    + exists [], c, []. splits; auto. intros B. apply is_space_spec in B. congruence.
  - destruct (is_space c) eqn:E.
    + destruct (IH d) as (w & c' & r' & H & F & N & D). rewrite H.
      exists (c :: w), c', r'. splits; auto.
      * constructor; auto. now apply is_space_spec.
      * destruct D as [D|D]; auto. left. cbn. now rewrite <- D.
    + exists [], c, (d :: r). splits; auto. intros B. apply is_space_spec in B. congruence.
Qed.

Lemma skip_leading_complete w c r : Forall blank w -> ~ blank c ->
  forall c0 r0, w ++ c :: r = c0 :: r0 -> skip_leading c0 r0 = (c, r).
Proof.
  intros F N. induction F as [|d w D F IH]; cbn [app]; intros c0 r0 [= <- <-].
  - destruct r; cbn [skip_leading]; (destruct (is_space c) eqn:E; [apply is_space_spec in E; contradiction|auto]).
  - destruct (w ++ c :: r) as [|c1 r1] eqn:E; [destruct w; discriminate|].
    cbn [skip_leading]. rewrite (proj2 (is_space_spec d) D). now apply IH.
Qed.

Lemma skip_trailing_sound stop r ok r' : skip_trailing stop r = (ok, r') ->
  suffix r' r /\ (ok = true -> exists w, Forall blank w /\ r = w ++ stop :: r').
Proof.
  revert ok r'. induction r as [|c r IH]; intros ok r'; cbn [skip_trailing].
  - intros [= <- <-]. split; auto with sfx. discriminate.
  - destruct (c =c stop) eqn:E1.
    + intros [= <- <-]. apply eqc_true in E1. subst. split; auto with sfx. intros _. exists []. auto.
    + destruct (is_space c) eqn:E2.
      * intros H. destruct (IH _ _ H) as [S1 H1]. split; auto with sfx. intros ->.
        destruct (H1 eq_refl) as (w & F & ->). exists (c :: w). split; auto. constructor; auto.
        now apply is_space_spec.
      * intros [= <- <-]. split; auto with sfx. discriminate.
Qed.

Lemma skip_trailing_complete stop w r : stop_ok stop -> Forall blank w ->
  skip_trailing stop (w ++ stop :: r) = (true, r).
Proof.
  intros (N & _ & _). induction 1 as [|c w B F IH]; cbn [skip_trailing app].
  - now rewrite eqc_refl.
  - destruct (c =c stop) eqn:E; [apply eqc_true in E; subst; contradiction|].
    now rewrite (proj2 (is_space_spec c) B).
Qed.

(** The part of the loop reached when [c] is not accepted as a digit. *)
Lemma channel_other stop c ds r : stop_ok stop -> Forall decimal ds ->
  let res := if is_space c || (c =c stop) then
      do v <- channel_value ds;
      let '(ok, r') := if c =c stop then (true, r) else skip_trailing stop r in
      Ok (if ok then Some v else None, r')
    else Ok (None, r) in
  (res = UB /\ (2 < List.length ds)%nat) \/
  exists o r', res = Ok (o, r') /\ suffix r' r /\
    (forall v, o = Some v -> exists w2, Forall blank w2 /\ c :: r = w2 ++ stop :: r' /\
       (List.length ds <= 2)%nat /\ v = number ds).
Proof.
  intros Hs F. cbn zeta. destruct (is_space c || (c =c stop)) eqn:E.
  2:{ right. exists None, r. splits; auto with sfx. discriminate. }
  destruct (le_lt_dec (List.length ds) 2) as [L|L].
  2:{ left. rewrite channel_value_ub by auto. auto. }
  right. rewrite channel_value_ok by auto. cbn [obind].
  destruct (c =c stop) eqn:Es.
  - apply eqc_true in Es. subst c. exists (Some (number ds)), r. splits; auto with sfx.
    intros v [= <-]. exists []. auto.
  - rewrite orb_false_r in E. destruct (skip_trailing stop r) as [ok r'] eqn:Et.
    destruct (skip_trailing_sound _ _ _ _ Et) as [S1 H1].
    exists (if ok then Some (number ds) else None), r'. split; [reflexivity|]. split; auto.
    intros v Hv. destruct ok; [|discriminate]. injection Hv as <-.
    destruct (H1 eq_refl) as (w & Fw & ->). exists (c :: w). splits; auto.
    constructor; auto. now apply is_space_spec.
Qed.

Lemma channel_loop_sound stop : stop_ok stop -> forall n c ds r,
  Forall decimal ds -> (n + List.length ds = 3)%nat ->
  let res := channel_loop n stop c ds r in
  (res = UB /\ exists ds' post, c :: r = ds' ++ post /\ Forall decimal ds' /\ List.length (ds ++ ds') = 3%nat) \/
  exists o r', res = Ok (o, r') /\ suffix r' r /\
    (forall v, o = Some v -> exists ds' w2, Forall blank w2 /\ Forall decimal ds' /\
       c :: r = ds' ++ w2 ++ stop :: r' /\ (List.length (ds ++ ds') <= 2)%nat /\ v = number (ds ++ ds')).
Proof.
  intros Hs. induction n as [|n IH]; intros c ds r F L; cbn zeta; cbn [channel_loop].
  - destruct (channel_other stop c ds r Hs F) as [[-> H]|(o & r' & -> & S1 & H)].
    + left. split; auto. exists [], (c :: r). rewrite app_nil_r. splits; auto; try lia.
    + right. exists o, r'. splits; auto. intros v Hv.
      destruct (H v Hv) as (w2 & A & B & C & D). exists [], w2. rewrite app_nil_r. splits; auto.
  - destruct (is_digit c) eqn:E.
    + destruct (next_char r) as [c' r1] eqn:En.
      assert (D : decimal c) by now apply is_digit_spec.
      assert (F' : Forall decimal (ds ++ [c])) by (apply Forall_app; auto).
      assert (L' : (n + List.length (ds ++ [c]) = 3)%nat) by (rewrite app_length; cbn; lia).
      destruct (IH c' (ds ++ [c]) r1 F' L') as [[-> (ds' & post & A & B & C)]|(o & r' & -> & S1 & H)].
      * left. split; auto.
        destruct (Ascii.ascii_dec c' SENTINEL) as [->|Nc].
        -- destruct ds' as [|x ds'].
           ++ exists [c], r. split; [reflexivity|]. split; auto. rewrite app_nil_r in C. exact C.
           ++ injection A as A1 A2. subst x. inversion B as [|? ? B1]. ccode.
        -- rewrite (next_char_cons _ _ _ En Nc). exists (c :: ds'), post.
           split; [cbn; now rewrite A|]. split; [now constructor|].
           rewrite <- app_assoc in C. exact C.
      * right. exists o, r'. split; auto. split.
        { eapply suffix_trans; [exact S1|]. eapply next_char_suffix; eauto. }
        intros v Hv. destruct (H v Hv) as (ds' & w2 & A & B & C & D1 & D2).
        assert (Nc : c' <> SENTINEL).
        { intros ->. destruct Hs as (Sb & Sd & Ss). destruct ds' as [|x ds'].
          - destruct w2 as [|x w2]; injection C as C1 C2; [congruence|]. subst x.
            inversion A as [|? ? A1]. ccode.
          - injection C as C1 C2. subst x. inversion B as [|? ? B1]. ccode. }
        rewrite (next_char_cons _ _ _ En Nc). exists (c :: ds'), w2.
        rewrite <- app_assoc in D1, D2. split; [auto|]. split; [now constructor|].
        split; [cbn; now rewrite C|]. auto.
    + destruct (channel_other stop c ds r Hs F) as [[-> H]|(o & r' & -> & S1 & H)].
      * exfalso. lia.
      * right. exists o, r'. splits; auto. intros v Hv.
        destruct (H v Hv) as (w2 & A & B & C & D). exists [], w2. rewrite app_nil_r. splits; auto.
Qed.

Lemma channel_loop_complete stop w2 r v : stop_ok stop -> Forall blank w2 ->
  forall ds' ds n c r0, Forall decimal ds' -> Forall decimal ds -> (n + List.length ds = 3)%nat ->
  (List.length (ds ++ ds') <= 2)%nat -> v = number (ds ++ ds') ->
  c :: r0 = ds' ++ w2 ++ stop :: r ->
  channel_loop n stop c ds r0 = Ok (Some v, r).
Proof.
  intros Hs Fw. induction ds' as [|d ds' IH]; intros ds n c r0 F' F L Ld Hv E.
  - rewrite app_nil_r in *. cbn [app] in E.
    assert (Hnd : is_digit c = false /\ (is_space c || (c =c stop)) = true /\
                  ((c =c stop) = true /\ r0 = r \/ (c =c stop) = false /\ skip_trailing stop r0 = (true, r))).
    { destruct Hs as (Sb & Sd & Ss). destruct Fw as [|x w2 Bx Fw]; injection E as -> E.
      - rewrite eqc_refl, orb_true_r. split; [|split; auto].
        destruct (is_digit stop) eqn:D; auto. apply is_digit_spec in D. contradiction.
      - rewrite (proj2 (is_space_spec x) Bx). split; [|split; auto].
        + destruct (is_digit x) eqn:D; auto. apply is_digit_spec in D. unfold blank, decimal in *. lia.
        + right. split.
          * apply eqc_false. intros ->. contradiction.
          * subst r0. apply skip_trailing_complete; auto. split; auto. }
    destruct Hnd as (Hd & Hsp & Hc).
    destruct n as [|n]; cbn [channel_loop]; rewrite ?Hd, Hsp, channel_value_ok by auto; cbn [obind];
      (destruct Hc as [[-> ->]|[-> ->]]; subst v; reflexivity).
  - inversion F' as [|? ? Hd F'']; subst. injection E as -> E.
    rewrite app_length in Ld. cbn in Ld. destruct n as [|n]; [lia|]. cbn [channel_loop].
    rewrite (proj2 (is_digit_spec d) Hd).
    destruct r0 as [|c1 r1].
    { destruct ds'; [|discriminate]. destruct w2; discriminate. }
    cbn [next_char]. apply IH; auto.
    + apply Forall_app; auto.
    + rewrite app_length; cbn; lia.
    + rewrite <- app_assoc, app_length. cbn. lia.
    + now rewrite <- app_assoc.
Qed.

Lemma parse_channel_sound stop r : stop_ok stop ->
  (parse_channel stop r = UB /\ exists w d1 d2 d3 post, r = w ++ [d1; d2; d3] ++ post /\ Forall blank w /\
     decimal d1 /\ decimal d2 /\ decimal d3) \/
  exists o r', parse_channel stop r = Ok (o, r') /\ suffix r' r /\
    (forall v, o = Some v -> exists s, channel_syntax stop s v /\ r = s ++ r').
Proof.
  intros Hs. unfold parse_channel.
  destruct (next_char r) as [c0 r0] eqn:E0.
  destruct (skip_leading_sound c0 r0) as (w & c & r1 & -> & Fw & Nb & Hw).
  destruct (channel_loop_sound stop Hs 3 c [] r1 (Forall_nil _) eq_refl)
    as [[-> (ds & post & A & B & C)]|(o & r' & -> & S1 & H)].
  - left. split; auto. cbn in C.
    destruct ds as [|d1 [|d2 [|d3 [|]]]]; cbn in C; try lia.
    inversion B as [|? ? B1 B']; subst. inversion B' as [|? ? B2 B'']; subst. inversion B'' as [|? ? B3 _]; subst.
    destruct Hw as [Hw|[-> ->]].
    2:{ injection A as A1 A2. subst d1. ccode. }
    exists w, d1, d2, d3, post. split; auto.
    rewrite A in Hw. assert (N0 : c0 <> SENTINEL).
    { intros ->. destruct w as [|x w]; injection Hw as Hx Hw.
      - subst d1. ccode.
      - subst x. inversion Fw as [|? ? Bx]. ccode. }
    now rewrite (next_char_cons _ _ _ E0 N0).
  - right. exists o, r'. split; auto. split.
    { assert (Q : suffix r1 r).
      { apply suffix_trans with r0; [|eapply next_char_suffix; eauto].
        destruct Hw as [Hw|[-> ->]]; auto with sfx.
        destruct w as [|x w]; injection Hw as -> Hw; subst; auto with sfx. }
      eapply suffix_trans; eauto. }
    intros v Hv. destruct (H v Hv) as (ds & w2 & A & B & C & D1 & D2). cbn [app] in D1, D2.
    exists (w ++ ds ++ w2 ++ [stop]). split.
    { exists w, ds, w2. splits; auto. }
    destruct Hs as (Sb & Sd & Ss).
    assert (N1 : c <> SENTINEL).
    { intros ->. destruct ds as [|x ds].
      - destruct w2 as [|x w2]; injection C as C1 C2; [congruence|]. subst x.
        inversion A as [|? ? A1]. ccode.
      - injection C as C1 C2. subst x. inversion B as [|? ? B1]. ccode. }
    destruct Hw as [Hw|[-> ->]]; [|congruence].
    rewrite C in Hw.
    assert (N0 : c0 <> SENTINEL).
    { intros ->. destruct w as [|x w]; cbn [app] in Hw.
      - rewrite <- C in Hw. injection Hw as Hx Hw. congruence.
      - injection Hw as Hx Hw. subst x. inversion Fw as [|? ? Bx]. ccode. }
    rewrite (next_char_cons _ _ _ E0 N0), Hw. now rewrite <- !app_assoc.
Qed.

Lemma parse_channel_complete stop s v r : stop_ok stop -> channel_syntax stop s v ->
  parse_channel stop (s ++ r) = Ok (Some v, r).
Proof.
  intros Hs (w1 & ds & w2 & -> & F1 & F2 & Fd & L & Hv).
  unfold parse_channel. rewrite <- !app_assoc. cbn [app].
  (* the first character that is not leading white space *)
  assert (Hx : exists w c r1, w1 ++ ds ++ w2 ++ stop :: r = w ++ c :: r1 /\ Forall blank w /\ ~ blank c /\
     exists w2', Forall blank w2' /\ c :: r1 = ds ++ w2' ++ stop :: r).
  { destruct ds as [|d ds].
    - exists (w1 ++ w2), stop, r. cbn [app]. split; [now rewrite app_assoc|]. split; [apply Forall_app; auto|].
      split; [apply Hs|]. exists []. auto.
    - exists w1, d, (ds ++ w2 ++ stop :: r). split; [reflexivity|]. split; auto.
      inversion Fd; subst. split; [unfold blank, decimal in *; lia|]. exists w2. auto. }
  destruct Hx as (w & c & r1 & E & Fw & Nb & w2' & F2' & Ec).
  rewrite E. destruct (w ++ c :: r1) as [|c0 r0] eqn:E0; [destruct w; discriminate|].
  cbn [next_char]. rewrite (skip_leading_complete _ _ _ Fw Nb _ _ E0).
  eapply channel_loop_complete; eauto.
Qed.

Lemma channel_syntax_range stop s v : channel_syntax stop s v -> 0 <= v < 256.
Proof.
  intros (w1 & ds & w2 & _ & _ & _ & F & L & ->). pose proof (number_two _ F L). lia.
Qed.

Lemma color_syntax_range s r g b : color_syntax s r g b -> 0 <= r < 256 /\ 0 <= g < 256 /\ 0 <= b < 256.
Proof.
  intros [r1 r0 g1 g0 b1 b0 vr1 vr0 vg1 vg0 vb1 vb0 A B C D E F|s0 s1 s2 r' g' b' A B C].
  - apply hex_value_range in A, B, C, D, E, F. lia.
  - apply channel_syntax_range in A, B, C. lia.
Qed.

Lemma lor_word r g b : 0 <= r < 256 -> 0 <= g < 256 -> 0 <= b < 256 ->
  Z.lor (Z.lor (Z.shiftl r 16) (Z.shiftl g 8)) b = rgb_word r g b.
Proof.
  intros Hr Hg Hb. unfold rgb_word.
  rewrite !Z.shiftl_mul_pow2 by lia.
  rewrite (lor_add_low r (g * 2 ^ 8) 16) by (change (2 ^ 16) with 65536; change (2 ^ 8) with 256; lia).
  replace (r * 2 ^ 16 + g * 2 ^ 8) with ((r * 256 + g) * 2 ^ 8) by (change (2 ^ 16) with 65536; change (2 ^ 8) with 256; lia).
  rewrite lor_add_low by (change (2 ^ 8) with 256; lia). change (2 ^ 8) with 256. lia.
Qed.

Lemma plain_bs (w : bytes) : forallb (fun c => negb (c =c SENTINEL)) w = true -> plain_word w.
Proof.
  intros H. apply Forall_forall. intros c Hc. rewrite forallb_forall in H. specialize (H c Hc).
  apply negb_true_iff in H. now apply eqc_false.
Qed.
Ltac plain := apply plain_bs; reflexivity.

Lemma channel_mid s v : channel_syntax ","%char s v ->
  Forall (fun c => decimal c \/ blank c \/ c = ","%char) s.
Proof.
  intros (w1 & ds & w2 & -> & F1 & F2 & Fd & _).
  rewrite !Forall_app. split; [eapply Forall_impl; [|exact F1]; cbn; auto|].
  split; [eapply Forall_impl; [|exact Fd]; cbn; auto|].
  split; [eapply Forall_impl; [|exact F2]; cbn; auto|]. constructor; auto.
Qed.

(** After the 'r' of "rgb(": *)
Lemma parse_color_rgb_sound l :
  (parse_color_rgb l = UB /\ three_digit_channel ("r"%char :: fst l)) \/
  exists o l', parse_color_rgb l = Ok (o, l') /\ fwd l l' /\
    (o = None -> snd l' = true) /\
    (forall w, o = Some w -> snd l' = snd l /\ exists s r g b, color_syntax ("r"%char :: s) r g b /\ w = rgb_word r g b /\
       fst l = s ++ fst l').
Proof.
  unfold parse_color_rgb. destruct (consume_word (bs "gb(") l) as [ok l1] eqn:E.
  destruct (consume_word_sound (bs "gb(") ltac:(plain) _ _ _ E) as [F1 H1]. destruct ok.
  2:{ right. exists None, l1. splits; auto; try discriminate; apply F1. }
  destruct H1 as [R1 E1].
  destruct (parse_channel_sound ","%char (fst l1) stop_comma)
    as [[-> (w & d1 & d2 & d3 & post & A & B & C1 & C2 & C3)]|(o0 & r0 & -> & S0 & H0)]; cbn [obind].
  { left. split; auto. exists [], w, d1, d2, d3, post. rewrite R1, A. splits; auto.
    eapply Forall_impl; [|exact B]. cbn; auto. }
  assert (G0 : fwd l (r0, true)).
  { split; auto. eapply suffix_trans; [exact S0|apply F1]. }
  destruct o0 as [v0|].
  2:{ right. exists None, (r0, true). splits; auto; try discriminate; apply G0. }
  destruct (H0 _ eq_refl) as (s0 & C0 & Q0).
  destruct (parse_channel_sound ","%char r0 stop_comma)
    as [[-> (w & d1 & d2 & d3 & post & A & B & D1 & D2 & D3)]|(o1 & r1 & -> & S1 & H1)]; cbn [obind].
  { left. split; auto. exists [], (s0 ++ w), d1, d2, d3, post. rewrite R1, Q0, A. cbn. rewrite <- !app_assoc.
    splits; auto. apply Forall_app. split; [eapply channel_mid; eauto|].
    eapply Forall_impl; [|exact B]. cbn; auto. }
  assert (G1 : fwd l (r1, true)).
  { split; auto. eapply suffix_trans; [exact S1|apply G0]. }
  destruct o1 as [v1|].
  2:{ right. exists None, (r1, true). splits; auto; try discriminate; apply G1. }
  destruct (H1 _ eq_refl) as (s1 & C1 & Q1).
  destruct (parse_channel_sound ")"%char r1 stop_paren)
    as [[-> (w & d1 & d2 & d3 & post & A & B & D1 & D2 & D3)]|(o2 & r2 & -> & S2 & H2)]; cbn [obind].
  { left. split; auto. exists [], (s0 ++ s1 ++ w), d1, d2, d3, post. rewrite R1, Q0, Q1, A. cbn.
    rewrite <- !app_assoc. splits; auto. rewrite !Forall_app.
    split; [eapply channel_mid; eauto|]. split; [eapply channel_mid; eauto|].
    eapply Forall_impl; [|exact B]. cbn; auto. }
  assert (G2 : suffix r2 (fst l)).
  { eapply suffix_trans; [exact S2|apply G1]. }
  destruct o2 as [v2|].
  2:{ right. exists None, (r2, true). splits; auto; try discriminate. split; auto. }
  destruct (H2 _ eq_refl) as (s2 & C2 & Q2).
  right. exists (Some (Z.lor (Z.lor (Z.shiftl v0 16) (Z.shiftl v1 8)) v2)), (r2, snd l1).
  split; [reflexivity|]. split. { split; auto. cbn. intros T. now rewrite E1. }
  split; [discriminate|]. intros w [= <-]. split; [exact E1|].
  exists (bs "gb(" ++ s0 ++ s1 ++ s2), v0, v1, v2.
  split; [apply (CS_rgb s0 s1 s2 v0 v1 v2 C0 C1 C2)|]. split.
  - apply lor_word; eauto using channel_syntax_range.
  - cbn [fst]. rewrite R1, Q0, Q1, Q2. now rewrite <- !app_assoc.
Qed.

Lemma parse_color_sound l :
  (parse_color l = UB /\ three_digit_channel (fst l)) \/
  exists o l', parse_color l = Ok (o, l') /\ fwd l l' /\
    (o = None -> snd l' = true) /\
    (forall w, o = Some w -> snd l' = snd l /\ exists s r g b, color_syntax s r g b /\ w = rgb_word r g b /\
       fst l = s ++ fst l').
Proof.
  unfold parse_color. destruct (next_char (fst l)) as [c r] eqn:E.
  pose proof (next_char_suffix _ _ _ E) as Sc.
  destruct (c =c "#"%char) eqn:E1.
  { apply eqc_true in E1. subst c. right. unfold parse_color_hex. cbn [fst snd].
    pose proof (next_char_cons _ _ _ E ltac:(discriminate)) as R.
    destruct (read_hex 6 r) as [o r'] eqn:Eh. destruct (read_hex_sound _ _ _ _ Eh) as [S1 H1].
    assert (G : suffix r' (fst l)) by (eapply suffix_trans; eauto).
    destruct o as [buf|].
    2:{ exists None, (r', true). splits; auto; try discriminate; split; auto. }
    destruct (H1 _ eq_refl) as (L & F & Q).
    destruct buf as [|a [|b [|c [|d [|e [|f [|]]]]]]]; cbn in L; try lia.
    repeat match goal with H : Forall _ (_ :: _) |- _ => inversion H; subst; clear H end.
    repeat match goal with H : is_hex _ = true |- _ => apply is_hex_spec in H; destruct H as (? & ?) end.
    erewrite scan_16_six by eassumption. cbn [Nat.eqb].
    eexists (Some _), (r', snd l). split; [reflexivity|]. split; [split; auto|].
    split; [discriminate|]. intros w [= <-]. split; [reflexivity|].
    exists ["#"%char; a; b; c; d; e; f]. eexists _, _, _. split; [constructor; eassumption|].
    split; [reflexivity|]. exact R. }
  destruct (c =c "r"%char) eqn:E2.
  { apply eqc_true in E2. subst c. pose proof (next_char_cons _ _ _ E ltac:(discriminate)) as R.
    destruct (parse_color_rgb_sound (r, snd l)) as [[-> H]|(o & l' & -> & F & N & H)].
    - left. split; auto. rewrite R. exact H.
    - right. exists o, l'. split; auto. split.
      { eapply fwd_trans; [|exact F]. split; auto. }
      split; auto. intros w Hw. destruct (H w Hw) as (A & s & r1 & g & b & B & C & D).
      split; auto. exists ("r"%char :: s), r1, g, b. splits; auto. rewrite R. cbn in D |- *. now rewrite D. }
  right. exists None, (raise_lx (r, snd l)). splits; auto; try discriminate; split; auto.
Qed.

Lemma parse_color_complete s r g b rest e : color_syntax s r g b ->
  parse_color (s ++ rest, e) = Ok (Some (rgb_word r g b), (rest, e)).
Proof.
  intros H. pose proof (color_syntax_range _ _ _ _ H) as Rg.
  destruct H as [r1 r0 g1 g0 b1 b0 vr1 vr0 vg1 vg0 vb1 vb0 A B C D E F|s0 s1 s2 r' g' b' A B C].
  - unfold parse_color. cbn [app fst snd next_char]. rewrite eqc_refl. unfold parse_color_hex. cbn [fst snd].
    pose proof (read_hex_complete [r1; r0; g1; g0; b1; b0] rest) as Rh. cbn [List.length app] in Rh.
    rewrite Rh by (repeat constructor; apply is_hex_spec; eauto).
    erewrite scan_16_six by eassumption. reflexivity.
  - unfold parse_color.
    change ((bs "rgb(" ++ s0 ++ s1 ++ s2) ++ rest) with ("r"%char :: (bs "gb(" ++ s0 ++ s1 ++ s2) ++ rest).
    cbn [fst snd next_char]. change ("r" =c "#")%char with false. rewrite eqc_refl.
    unfold parse_color_rgb. rewrite <- !app_assoc. rewrite consume_word_complete. cbn [fst snd].
    rewrite (parse_channel_complete _ _ _ _ stop_comma A). cbn [obind].
    rewrite (parse_channel_complete _ _ _ _ stop_comma B). cbn [obind].
    rewrite (parse_channel_complete _ _ _ _ stop_paren C). cbn [obind].
    rewrite lor_word by lia. reflexivity.
Qed.

Lemma parse_attribute_color_sound name old l : plain_word name ->
  (parse_attribute_color name old l = UB /\ three_digit_channel (fst l)) \/
  exists v l', parse_attribute_color name old l = Ok (v, l') /\ fwd l l' /\
    (snd l' = false -> exists s r g b, color_syntax s r g b /\ v = rgb_color r g b f32_1 /\
       fst l = name ++ s ++ c_quote :: fst l').
Proof.
  intros Hn. unfold parse_attribute_color. destruct (consume_word name l) as [ok l1] eqn:E.
  destruct (consume_word_sound _ Hn _ _ _ E) as [F1 H1]. destruct ok.
  2:{ right. exists old, l1. splits; auto; try apply F1. congruence. }
  destruct H1 as [R1 E1].
  destruct (parse_color_sound l1) as [[-> H]|(o & l2 & -> & F2 & N2 & H2)]; cbn [obind].
  { left. split; auto. destruct H as (pre & mid & d1 & d2 & d3 & post & A & B).
    exists (name ++ pre), mid, d1, d2, d3, post. split; auto. rewrite R1, A. now rewrite <- !app_assoc. }
  right. assert (G : fwd l l2) by (eapply fwd_trans; eauto).
  destruct o as [w|].
  2:{ exists old, l2. splits; auto; try apply G. rewrite N2 by auto. discriminate. }
  destruct (H2 _ eq_refl) as (E2 & s & r & g & b & C & -> & Q).
  destruct (consume_char c_quote l2) as [ok l3] eqn:E3.
  destruct (consume_char_sound c_quote l2 ok l3 ltac:(discriminate) E3) as [F3 H3].
  assert (G3 : fwd l l3) by (eapply fwd_trans; eauto). destruct ok.
  2:{ exists old, l3. splits; auto; try apply G3. congruence. }
  destruct H3 as [R3 E4]. eexists _, l3. split; [reflexivity|]. split; auto. intros _.
  exists s, r, g, b. split; auto. split.
  - destruct (color_syntax_range _ _ _ _ C) as (A1 & A2 & A3). now apply abgr_of_word.
  - rewrite R1, Q, R3. reflexivity.
Qed.

Lemma parse_attribute_color_complete name old s r g b rest e : color_syntax s r g b ->
  parse_attribute_color name old (name ++ s ++ c_quote :: rest, e) = Ok (rgb_color r g b f32_1, (rest, e)).
Proof.
  intros C. unfold parse_attribute_color. rewrite consume_word_complete, (parse_color_complete _ _ _ _ _ _ C).
  cbn [obind]. rewrite consume_char_complete.
  destruct (color_syntax_range _ _ _ _ C) as (A1 & A2 & A3). do 2 f_equal. now apply abgr_of_word.
Qed.
