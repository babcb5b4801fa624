(** UTF-8 and cuts between characters. *)
From Coq Require Import ZifyBool ZifyNat.
From Verif Require Import Base BaseFacts PackingModel LayoutModel CursorModel TextBoxModel TextBoxSpec.
Open Scope Z_scope.

Lemma lor_add a b k : 0 <= k -> 0 <= a < 2 ^ k -> 0 <= b -> Z.lor a (b * 2 ^ k) = a + b * 2 ^ k.
Proof.
  intros K A Bk. assert (L : Z.land a (b * 2 ^ k) = 0).
  { apply Z.bits_inj'. intros n N. rewrite Z.land_spec, Z.bits_0. destruct (Z.ltb_spec n k).
    - rewrite Z.mul_pow2_bits_low by lia. apply andb_false_r.
    - destruct (Z.eq_dec a 0) as [->|]; [rewrite Z.bits_0; reflexivity|]. rewrite Z.bits_above_log2; [reflexivity|lia|]. assert (Z.log2 a < k) by (apply Z.log2_lt_pow2; lia). lia. }
  rewrite <- Z.lxor_lor by exact L. symmetry. apply Z.add_nocarry_lxor. exact L.
Qed.
Lemma lor_lead a m b : 0 <= a < b -> (exists k q, 0 <= k /\ b = 2 ^ k /\ 0 <= q /\ m = q * 2 ^ k) -> Z.lor a m = m + a.
Proof. intros A (k & q & K & -> & Q0 & ->). rewrite lor_add by assumption. lia. Qed.
Lemma trail c : Z.lor (Z.land c 63) 128 = 128 + c mod 64.
Proof.
  change 63 with (Z.ones 6). rewrite Z.land_ones by lia. change (2 ^ 6) with 64. apply lor_lead with (b := 64); [apply Z.mod_pos_bound; lia|].
  exists 6, 2. repeat split; lia.
Qed.
Lemma append_utf8 c : scalar c -> u8_append c = utf8 c.
Proof.
  intros S. unfold scalar in S. unfold u8_append, utf8. rewrite !trail, !Z.shiftr_div_pow2 by lia.
  change (2 ^ 6) with 64. change (2 ^ 12) with 4096. change (2 ^ 18) with 262144.
  destruct (Z.leb_spec c 127), (Z.ltb_spec c 128); try lia; [reflexivity|].
  destruct (Z.leb_spec c 2047), (Z.ltb_spec c 2048); try lia.
  { f_equal. apply lor_lead with (b := 64); [split; [apply Z.div_pos; lia|apply Z.div_lt_upper_bound; lia]|exists 6, 3; repeat split; lia]. }
  destruct (Z.leb_spec c 65535), (Z.ltb_spec c 65536); try lia.
  { f_equal. apply lor_lead with (b := 16); [split; [apply Z.div_pos; lia|apply Z.div_lt_upper_bound; lia]|exists 4, 14; repeat split; lia]. }
  f_equal. apply lor_lead with (b := 16); [split; [apply Z.div_pos; lia|apply Z.div_lt_upper_bound; lia]|exists 4, 15; repeat split; lia].
Qed.

Lemma utf8_shape c : scalar c -> exists h tl, utf8 c = h :: tl /\ ~ 128 <= h <= 191 /\ Forall (fun b => 128 <= b <= 191) tl.
Proof.
  intros S. unfold scalar in S. unfold utf8. assert (M : forall x, 128 <= 128 + x mod 64 <= 191) by (intros x; pose proof (Z.mod_pos_bound x 64); lia).
  destruct (Z.ltb_spec c 128); [exists c, []; repeat split; [lia|constructor]|].
  destruct (Z.ltb_spec c 2048); [do 2 eexists; split; [reflexivity|]; split; [assert (0 <= c / 64) by (apply Z.div_pos; lia); lia|repeat constructor; apply M]|].
  destruct (Z.ltb_spec c 65536); do 2 eexists; (split; [reflexivity|]); (split; [|repeat constructor; apply M]).
  - assert (0 <= c / 4096) by (apply Z.div_pos; lia). lia.
  - assert (0 <= c / 262144) by (apply Z.div_pos; lia). lia.
Qed.

Lemma valid_nil : valid_utf8 [].
Proof. exists []. split; [constructor|reflexivity]. Qed.
Lemma valid_app a b : valid_utf8 a -> valid_utf8 b -> valid_utf8 (a ++ b).
Proof. intros (x & X & ->) (y & Y & ->). exists (x ++ y). split; [apply Forall_app; auto|rewrite flat_map_app; reflexivity]. Qed.
Lemma valid_one c : scalar c -> valid_utf8 (utf8 c).
Proof. intros S. exists [c]. split; [constructor; [exact S|constructor]|cbn; rewrite app_nil_r; reflexivity]. Qed.

(** An index between characters cuts the text into two texts. *)
Lemma cut_nat cs : Forall scalar cs -> forall n, (n <= length (flat_map utf8 cs))%nat -> (forall b, nth_error (flat_map utf8 cs) n = Some b -> ~ 128 <= b <= 191) ->
  valid_utf8 (firstn n (flat_map utf8 cs)) /\ valid_utf8 (skipn n (flat_map utf8 cs)).
Proof.
  induction 1 as [|c cs C F IH]; intros n N O.
  - cbn in N. replace n with 0%nat by lia. cbn. split; apply valid_nil.
  - cbn [flat_map] in *. destruct (utf8_shape c C) as (h & tl & E & H & T). destruct n as [|n].
    + cbn [firstn skipn]. split; [apply valid_nil|]. apply valid_app; [apply valid_one; exact C|exists cs; auto].
    + destruct (Nat.ltb_spec (S n) (length (utf8 c))) as [L|L].
      * exfalso. rewrite nth_error_app1 in O by exact L. rewrite E in O, L. cbn [nth_error length] in O, L.
        destruct (nth_error tl n) as [b|] eqn:EB; [|apply nth_error_None in EB; lia]. apply (O b eq_refl).
        rewrite Forall_forall in T. apply T. eapply nth_error_In; exact EB.
      * rewrite app_length in N. destruct (IH (S n - length (utf8 c))%nat) as (I1 & I2); [lia|rewrite nth_error_app2 in O by exact L; exact O|].
        rewrite firstn_app, skipn_app. rewrite firstn_all2, skipn_all2 by lia. cbn [app]. split; [apply valid_app; [apply valid_one; exact C|exact I1]|exact I2].
Qed.
Lemma cut t i : valid_utf8 t -> on_char t i -> valid_utf8 (before t i) /\ valid_utf8 (after t i).
Proof. intros (cs & F & ->) (R & O). unfold before, after. apply cut_nat; [exact F|unfold size in R; lia|exact O]. Qed.
(** The end of one text is between characters when another follows. *)
Lemma seam a b : valid_utf8 b -> on_char (a ++ b) (size a).
Proof.
  intros (cs & F & ->). split; [unfold size; rewrite app_length; lia|]. unfold size. rewrite Nat2Z.id. intros x X. rewrite nth_error_app2, Nat.sub_diag in X by lia.
  destruct F as [|c cs C F]; [discriminate|]. cbn [flat_map] in X. destruct (utf8_shape c C) as (h & tl & E & H & _). rewrite E in X. cbn in X. inversion X; subst. exact H.
Qed.
Lemma size_app a b : size (a ++ b) = size a + size b.
Proof. unfold size. rewrite app_length. lia. Qed.
Lemma size_before t i : 0 <= i <= size t -> size (before t i) = i.
Proof. unfold size, before. intros H. rewrite firstn_length. lia. Qed.
Lemma size_after t i : 0 <= i <= size t -> size (after t i) = size t - i.
Proof. unfold size, after. intros H. rewrite skipn_length. lia. Qed.
Lemma before_after t i : before t i ++ after t i = t.
Proof. apply firstn_skipn. Qed.
Lemma size_nonneg t : 0 <= size t.
Proof. unfold size. lia. Qed.
Lemma before_seam a b i : i = size a -> before (a ++ b) i = a.
Proof. intros ->. unfold before, size. rewrite Nat2Z.id, firstn_app, Nat.sub_diag, firstn_all. cbn. apply app_nil_r. Qed.
Lemma after_seam a b i : i = size a -> after (a ++ b) i = b.
Proof. intros ->. unfold after, size. rewrite Nat2Z.id, skipn_app, Nat.sub_diag, skipn_all. reflexivity. Qed.
(** Cutting the rest again. *)
Lemma on_char_after t i j : on_char t j -> 0 <= i <= j -> on_char (after t i) (j - i).
Proof.
  intros (R & O) L. split; [rewrite size_after by lia; lia|]. intros b Eb. apply O. unfold after in Eb. rewrite <- Eb.
  replace (Z.to_nat j) with (Z.to_nat i + Z.to_nat (j - i))%nat by lia. clear. revert t. induction (Z.to_nat i) as [|n IH]; intros t; [reflexivity|]. destruct t as [|x t]; cbn; [destruct (Z.to_nat (j - i)); reflexivity|apply IH].
Qed.
Lemma slice_valid t i j : valid_utf8 t -> on_char t i -> on_char t j -> i <= j -> valid_utf8 (before (after t i) (j - i)).
Proof. intros V I J L. apply cut; [apply cut; assumption|]. apply on_char_after; [exact J|destruct I; lia]. Qed.
