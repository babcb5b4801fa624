From Coq Require Import Lia ZArith.
From Verif Require Import Base BaseFacts FloatModel FloatProofs FloatIntProofs HbFontModel HbFontSpec.
Open Scope Z_scope.

(** * Floats *)

Lemma f32_mul_comm x y : f32_mul x y = f32_mul y x.
Proof. destruct x as [s|s| |s m e], y as [s'|s'| |s' m' e']; cbn; try reflexivity; rewrite ?(xorb_comm s s'); try reflexivity. rewrite (Pos.mul_comm m m'), (Z.add_comm e e'). reflexivity. Qed.
Lemma fint_mult neg x z : fint x z -> - 2 ^ 65 < z < 2 ^ 65 -> fint (f32_mul (mult neg) x) (directed neg z).
Proof. intros F B. rewrite f32_mul_comm. exact (fint_mul_unit x z neg F B). Qed.
Lemma fint_opp x z : fint x z -> fint (SFopp x) (- z).
Proof. destruct x as [s|s| |s m e]; cbn; try contradiction; [lia|]. intros (M & E & V). repeat split; trivial. rewrite Z.mul_opp_l, V. destruct s; cbn; lia. Qed.
Lemma sub_add_opp x y : (match x, y with S754_finite _ _ _, S754_finite _ _ _ => True | _, _ => False end) -> f32_sub x y = f32_add x (SFopp y).
Proof. destruct x as [s|s| |s m e], y as [s'|s'| |s' m' e']; try contradiction. intros _. unfold f32_sub, f32_add. cbn [SFsub SFadd SFopp].
  replace (cond_Zopp (negb s') (Z.pos (fst (shl_align m' e' (Z.min e e'))))) with (- cond_Zopp s' (Z.pos (fst (shl_align m' e' (Z.min e e'))))) by (destruct s'; cbn; lia).
  rewrite Z.add_opp_r. reflexivity. Qed.
Lemma fint_sub x y a b : fint x a -> fint y b -> - 2 ^ 65 < a < 2 ^ 65 -> - 2 ^ 65 < b < 2 ^ 65 -> fint (f32_sub x y) (fl (a - b)).
Proof.
  intros FX FY A B. destruct x as [s|s| |s m e]; try contradiction; destruct y as [s'|s'| |s' m' e']; try contradiction.
  - cbn in FX, FY. subst. unfold f32_sub. cbn [SFsub]. destruct (Bool.eqb s (negb s')); reflexivity.
  - cbn in FX. subst a. unfold f32_sub. cbn [SFsub]. rewrite Z.sub_0_l, fl_opp, (fl_idem _ _ FY). exact (fint_opp _ _ FY).
  - cbn in FY. subst b. unfold f32_sub. cbn [SFsub]. rewrite Z.sub_0_r, (fl_idem _ _ FX). exact FX.
  - rewrite sub_add_opp by exact I. rewrite <- Z.add_opp_r. apply fint_add; trivial; [exact (fint_opp _ _ FY)|lia].
Qed.
Lemma fint_frac s m e z : fint (S754_finite s m e) z -> - 2 ^ 65 < z < 2 ^ 65 -> e < 0 -> Z.pos m = Z.abs z * 2 ^ (- e).
Proof.
  intros F B N. pose proof (fint_exp _ _ _ _ F B) as [EB NZ]. destruct F as (M & E & V).
  assert (S : 2 ^ scale = 2 ^ (- e) * 2 ^ (e + scale)) by (rewrite <- Z.pow_add_r by (unfold scale; lia); f_equal; lia).
  rewrite S in V. pose proof (pow_pos (e + scale) ltac:(unfold scale; lia)). 
  assert (z * 2 ^ (- e) = cond_Zopp s (Z.pos m)) by nia.
  destruct s; cbn [cond_Zopp] in *; pose proof (pow_pos (- e) ltac:(lia)); nia.
Qed.
Lemma sign_of s m e z : fint (S754_finite s m e) z -> - 2 ^ 65 < z < 2 ^ 65 -> (if s then - Z.abs z else Z.abs z) = z.
Proof. intros F B. pose proof (fint_exp _ _ _ _ F B) as [EB NZ]. destruct F as (M & E & V). pose proof (pow_pos (e + scale) ltac:(unfold scale; lia)). pose proof scale_pos. destruct s; cbn [cond_Zopp] in V; nia. Qed.
Lemma fint_floor x z : fint x z -> - 2 ^ 64 < z < 2 ^ 64 -> fint (f32_floor x) z.
Proof.
  intros F B. destruct x as [s|s| |s m e]; try contradiction; [exact F|]. cbn [f32_floor]. destruct (0 <=? e) eqn:E0; [exact F|]. apply Z.leb_gt in E0.
  pose proof (fint_frac _ _ _ _ F ltac:(lia) E0) as M. pose proof (sign_of _ _ _ _ F ltac:(lia)) as S. rewrite M.
  pose proof (pow_pos (- e) ltac:(lia)) as P.
  replace (Z.abs z * 2 ^ (- e) + 2 ^ (- e) - 1) with ((2 ^ (- e) - 1) + Z.abs z * 2 ^ (- e)) by lia. rewrite Z.div_add, Z.div_mul, Z.div_small by lia. cbn [Z.add].
  match goal with |- fint (f32_of_Z ?w) z => replace w with z by (destruct s; lia) end.
  pose proof (fint_of_Z z B) as G. rewrite (fl_idem _ _ F) in G. exact G.
Qed.
Lemma fint_ceil x z : fint x z -> - 2 ^ 64 < z < 2 ^ 64 -> fint (f32_ceil x) z.
Proof.
  intros F B. destruct x as [s|s| |s m e]; try contradiction; [exact F|]. cbn [f32_ceil]. destruct (0 <=? e) eqn:E0; [exact F|]. apply Z.leb_gt in E0.
  pose proof (fint_frac _ _ _ _ F ltac:(lia) E0) as M. pose proof (sign_of _ _ _ _ F ltac:(lia)) as S. rewrite M.
  pose proof (pow_pos (- e) ltac:(lia)) as P.
  replace (Z.abs z * 2 ^ (- e) + 2 ^ (- e) - 1) with ((2 ^ (- e) - 1) + Z.abs z * 2 ^ (- e)) by lia. rewrite Z.div_add, Z.div_mul, Z.div_small by lia. cbn [Z.add].
  match goal with |- fint (f32_of_Z ?w) z => replace w with z by (destruct s; lia) end.
  pose proof (fint_of_Z z B) as G. rewrite (fl_idem _ _ F) in G. exact G.
Qed.
Lemma fint_to_int x z : fint x z -> - 2 ^ 31 <= z < 2 ^ 31 -> f32_to_int x = Ok z.
Proof. intros F B. unfold f32_to_int. rewrite (fint_trunc _ _ F). destruct (- 2 ^ 31 <=? z) eqn:A; [|apply Z.leb_gt in A; lia]. destruct (z <? 2 ^ 31) eqn:A'; [reflexivity|apply Z.ltb_ge in A'; lia]. Qed.
Lemma to_int_out x z : fint x z -> ~ (- 2 ^ 31 <= z < 2 ^ 31) -> f32_to_int x = UB.
Proof. intros F B. unfold f32_to_int. rewrite (fint_trunc _ _ F). destruct (- 2 ^ 31 <=? z) eqn:A; cbn [andb]; [|reflexivity]. destruct (z <? 2 ^ 31) eqn:A'; [exfalso; apply B; lia|reflexivity]. Qed.
Lemma fint_moderate z : moderate z -> fint (f32_of_Z z) z.
Proof. intros M. rewrite <- (fl_small z M) at 2. apply fint_of_Z. unfold moderate in M. lia. Qed.
Lemma directed_moderate neg z : moderate z -> moderate (directed neg z).
Proof. unfold moderate, directed. destruct neg; lia. Qed.
Lemma directed_opp neg z : directed neg (- z) = - directed neg z. Proof. destruct neg; cbn; lia. Qed.

(** * Advances *)

Lemma round_advance_value neg v : - 2 ^ 63 < v < 2 ^ 63 ->
  exists i, fint (f32_add (f32_mul (f32_of_Z (Z.abs v)) (mult neg)) (f32_of_Z 512)) i /\ i = fl (directed neg (fl (Z.abs v)) + 512).
Proof.
  intros B. pose proof (fl_err (Z.abs v)) as E. assert (BF : - 2 ^ 65 < fl (Z.abs v) < 2 ^ 65) by (change (2^65) with (4 * 2^63); change (2 ^ 24) with 16777216 in E; lia).
  eexists. split; [|reflexivity]. rewrite f32_mul_comm. apply (fint_add _ _ _ 512).
  - apply fint_mult; [apply fint_of_Z; lia|exact BF].
  - apply fint_moderate. unfold moderate. lia.
  - destruct neg; cbn [directed]; lia.
  - lia.
Qed.
Lemma round_small neg v : Z.abs v <= 2 ^ 24 - 512 -> round_advance neg v = Ok (in_64ths (directed neg (Z.abs v))).
Proof.
  intros B. destruct (round_advance_value neg v ltac:(lia)) as (i & F & EI). rewrite (fl_small (Z.abs v)) in EI by lia. rewrite fl_small in EI by (destruct neg; cbn [directed]; lia).
  unfold round_advance. rewrite (fint_to_int _ _ F) by (rewrite EI; destruct neg; cbn [directed]; lia). rewrite EI. reflexivity.
Qed.
Lemma fl_1024 q : - 2 ^ 23 < q < 2 ^ 23 -> fl (q * 1024) = q * 1024 /\ fl (q * 1024 + 512) = q * 1024 + 512.
Proof. intros B. split; [apply (fl_multiple _ 10 q); lia|apply (fl_multiple _ 9 (2 * q + 1)); lia]. Qed.
Lemma round_exact neg q : Z.abs q < 2 ^ 21 -> round_advance neg (q * 1024) = Ok (directed neg (Z.abs q)).
Proof.
  intros B. destruct (round_advance_value neg (q * 1024) ltac:(lia)) as (i & F & EI).
  replace (Z.abs (q * 1024)) with (Z.abs q * 1024) in * by lia. rewrite (proj1 (fl_1024 (Z.abs q) ltac:(lia))) in EI.
  replace (directed neg (Z.abs q * 1024)) with (directed neg (Z.abs q) * 1024) in EI by (destruct neg; cbn; lia).
  rewrite (proj2 (fl_1024 (directed neg (Z.abs q)) ltac:(destruct neg; cbn; lia))) in EI.
  unfold round_advance. replace (Z.abs (q * 1024)) with (Z.abs q * 1024) by lia. rewrite (fint_to_int _ _ F) by (rewrite EI; destruct neg; cbn [directed]; lia). rewrite EI. cbn [obind]. f_equal.
  rewrite (Z.add_comm _ 512), Z.div_add by lia. reflexivity.
Qed.
Lemma round_near neg v : Z.abs v <= 2 ^ 31 - 2048 -> exists a, round_advance neg v = Ok a /\ Z.abs (1024 * a - directed neg (Z.abs v)) <= 768.
Proof.
  intros B. destruct (round_advance_value neg v ltac:(lia)) as (i & F & EI). pose proof (fl_err (Z.abs v)) as E1. pose proof (fl_err (directed neg (fl (Z.abs v)) + 512)) as E2. rewrite <- EI in E2.
  assert (W1 : Z.abs (fl (Z.abs v) - Z.abs v) <= 127) by (change (2 ^ 24) with 16777216 in E1; lia).
  assert (W2 : Z.abs (i - (directed neg (fl (Z.abs v)) + 512)) <= 128) by (change (2 ^ 24) with 16777216 in E2; destruct neg; cbn [directed] in *; lia).
  assert (W : Z.abs (i - (directed neg (Z.abs v) + 512)) <= 255) by (destruct neg; cbn [directed] in *; lia).
  unfold round_advance. rewrite (fint_to_int _ _ F) by (destruct neg; cbn [directed] in *; lia). eexists. split; [reflexivity|].
  pose proof (Z.div_mod i 1024 ltac:(lia)). pose proof (Z.mod_pos_bound i 1024 ltac:(lia)). lia.
Qed.

(** What the cache holds was computed for its key. *)
Definition cache_ok (f : Z -> outcome Z) (c : adv_cache) : Prop :=
  length c = 256%nat /\ forall g v, 0 <= g -> cache_get c g = Some v -> f g = Ok v.
Lemma clear_ok f : cache_ok f cache_clear.
Proof. split; [reflexivity|]. intros g v G. unfold cache_get, cache_clear. rewrite nth_repeat. discriminate. Qed.
Lemma nth_set_same (c : list Z) i v d : (i < length c)%nat -> nth i (list_set c i v) d = v.
Proof. revert i. induction c as [|a c IH]; intros [|i] L; cbn in *; try lia. apply IH. lia. Qed.
Lemma nth_set_other (c : list Z) i j v d : i <> j -> nth j (list_set c i v) d = nth j c d.
Proof. revert i j. induction c as [|a c IH]; intros [|i] [|j] N; cbn; try reflexivity; try lia. apply IH. lia. Qed.
Lemma length_set (c : list Z) i v : length (list_set c i v) = length c.
Proof. revert i. induction c as [|a c IH]; intros [|i]; cbn; try reflexivity. now rewrite IH. Qed.
Lemma wrap_small a : wrap32 a < 2 ^ 24 -> - 2 ^ 31 <= a < 2 ^ 31 -> wrap32 a = a.
Proof. unfold wrap32. intros W B. destruct (Z_lt_le_dec a 0); [|apply Z.mod_small; lia]. rewrite <- (Z_mod_plus_full a 1 (2 ^ 32)) in W. rewrite Z.mod_small in W; lia. Qed.
Lemma set_ok f c g a : cache_ok f c -> 0 <= g -> f g = Ok a -> - 2 ^ 31 <= a < 2 ^ 31 -> cache_ok f (cache_set c g (wrap32 a)).
Proof.
  intros [L K] G FA AB. unfold cache_set. destruct ((2 ^ 16 <=? g) || (2 ^ 24 <=? wrap32 a)) eqn:C; [split; trivial|].
  apply Bool.orb_false_elim in C as [C1 C2]. apply Z.leb_gt in C1, C2. assert (WB : 0 <= wrap32 a) by (apply Z.mod_pos_bound; lia).
  pose proof (wrap_small a C2 AB) as WE. rewrite WE in *.
  split; [rewrite length_set; exact L|]. intros g' v G' E. unfold cache_get in E.
  destruct (Z.eq_dec (g mod 256) (g' mod 256)) as [SM|SM].
  - rewrite SM, nth_set_same in E by (rewrite L; pose proof (Z.mod_pos_bound g' 256); lia).
    destruct (_ || _) eqn:X in E; [discriminate|]. apply Bool.orb_false_elim in X as [X1 X2]. apply Bool.negb_false_iff, Z.eqb_eq in X2.
    rewrite Z.add_comm, Z.div_add, (Z.div_small a) in X2 by lia. injection E as <-. rewrite Z.add_comm, Z_mod_plus_full, (Z.mod_small a) by lia.
    assert (g = g') as <- by (pose proof (Z.div_mod g 256); pose proof (Z.div_mod g' 256); lia). exact FA.
  - rewrite nth_set_other in E by (pose proof (Z.mod_pos_bound g 256); pose proof (Z.mod_pos_bound g' 256); lia). apply (K g' v G'). exact E.
Qed.
Lemma round_bound neg v a : round_advance neg v = Ok a -> - 2 ^ 31 <= a < 2 ^ 31.
Proof.
  unfold round_advance, f32_to_int. destruct (f32_trunc _) as [i|]; cbn [obind]; [|discriminate]. destruct ((- 2 ^ 31 <=? i) && (i <? 2 ^ 31)) eqn:C; cbn [obind]; [|discriminate].
  apply andb_prop in C as [C1 C2]. apply Z.leb_le in C1. apply Z.ltb_lt in C2. intros [= <-]. pose proof (Z.div_mod i 1024). pose proof (Z.mod_pos_bound i 1024). lia.
Qed.

(** The advances of a batch without a cache. *)
Fixpoint plain (f : Z -> outcome Z) (gs : list Z) : outcome (list Z) :=
  match gs with [] => Ok [] | g :: gs => do v <- f g; do vs <- plain f gs; Ok (v :: vs) end.
Lemma h_advances_plain ft neg gs : forall c, cache_ok (fun g => round_advance neg (ft g)) c -> Forall (fun g => 0 <= g) gs ->
  match h_advances ft neg c gs with
  | Ok (vs, c') => plain (fun g => round_advance neg (ft g)) gs = Ok vs /\ cache_ok (fun g => round_advance neg (ft g)) c'
  | UB => plain (fun g => round_advance neg (ft g)) gs = UB
  | OutOfFuel => plain (fun g => round_advance neg (ft g)) gs = OutOfFuel
  end.
Proof.
  induction gs as [|g gs IH]; intros c K P; [split; [reflexivity|exact K]|]. inversion P as [|? ? G P']; subst. cbn [h_advances plain].
  destruct (cache_get c g) as [v|] eqn:E.
  - rewrite (proj2 K g v G E). cbn [obind]. specialize (IH c K P'). destruct (h_advances ft neg c gs) as [[vs c']| |]; cbn [obind]; [|rewrite IH; reflexivity|rewrite IH; reflexivity].
    destruct IH as [-> K']. split; [reflexivity|exact K'].
  - destruct (round_advance neg (ft g)) as [v| |] eqn:R; cbn [obind]; try reflexivity.
    specialize (IH _ (set_ok (fun g => round_advance neg (ft g)) c g v K G R (round_bound _ _ _ R)) P'). destruct (h_advances ft neg _ gs) as [[vs c']| |]; cbn [obind]; [|rewrite IH; reflexivity|rewrite IH; reflexivity].
    destruct IH as [-> K']. split; [reflexivity|exact K'].
Qed.
Fixpoint plain_run (ft : Z -> Z -> Z) (neg : bool) (rs : list (Z * list Z)) : outcome (list (list Z)) :=
  match rs with [] => Ok [] | (size, gs) :: rs => do vs <- plain (fun g => round_advance neg (ft size g)) gs; do r <- plain_run ft neg rs; Ok (vs :: r) end.
Lemma run_plain ft neg es : forall size c, cache_ok (fun g => round_advance neg (ft size g)) c -> Forall asks_ok es ->
  advance_run ft neg size c es = plain_run ft neg (requests size es).
Proof.
  induction es as [|[gs|size'] es IH]; intros size c K P; cbn [advance_run requests plain_run]; [reflexivity| |]; inversion P as [|? ? PG P']; subst.
  - pose proof (h_advances_plain (ft size) neg gs c K PG) as H. destruct (h_advances (ft size) neg c gs) as [[vs c']| |]; cbn [obind]; [|rewrite H; reflexivity|rewrite H; reflexivity].
    destruct H as [-> K']. cbn [obind]. rewrite (IH size c' K' P'). reflexivity.
  - apply IH; [apply clear_ok|exact P'].
Qed.
Lemma plain_total f gs (R : Z -> Z -> Prop) : (forall g, In g gs -> exists v, f g = Ok v /\ R g v) -> exists vs, plain f gs = Ok vs /\ Forall2 R gs vs.
Proof.
  induction gs as [|g gs IH]; intros H; [exists []; split; [reflexivity|constructor]|]. destruct (H g (or_introl eq_refl)) as (v & EV & RV). destruct IH as (vs & E & F); [intros; apply H; right; assumption|].
  exists (v :: vs). cbn. rewrite EV. cbn. rewrite E. split; [reflexivity|constructor; assumption].
Qed.
Lemma run_total ft neg rs (R : Z -> Z -> Z -> Prop) : (forall size gs g, In (size, gs) rs -> In g gs -> exists v, round_advance neg (ft size g) = Ok v /\ R size g v) ->
  exists r, plain_run ft neg rs = Ok r /\ Forall2 (fun '(size, gs) vs => Forall2 (R size) gs vs) rs r.
Proof.
  induction rs as [|[size gs] rs IH]; intros H; [exists []; split; [reflexivity|constructor]|]. destruct (plain_total (fun g => round_advance neg (ft size g)) gs (R size)) as (vs & E & F); [intros g G; apply (H size gs g (or_introl eq_refl) G)|].
  destruct IH as (r & E' & F'); [intros; eapply H; [right; eassumption|assumption]|]. exists (vs :: r). cbn. rewrite E. cbn. rewrite E'. split; [reflexivity|constructor; assumption].
Qed.
Lemma advances_rel ft neg size es (R : Z -> Z -> Z -> Prop) : Forall asks_ok es ->
  (forall size' gs g, In (size', gs) (requests size es) -> In g gs -> exists v, round_advance neg (ft size' g) = Ok v /\ R size' g v) ->
  exists r, advance_run ft neg size cache_clear es = Ok r /\ Forall2 (fun '(size, gs) vs => Forall2 (R size) gs vs) (requests size es) r.
Proof. intros P H. rewrite run_plain; [|apply clear_ok|exact P]. apply run_total. exact H. Qed.

Lemma v_advance_small neg v : moderate v -> v_advance neg (Some v) = Ok (in_64ths (- directed neg v)).
Proof. intros M. unfold v_advance. rewrite (fint_to_int _ (directed neg v)); [reflexivity| |unfold moderate in M; destruct neg; cbn; lia]. apply fint_mult; [apply fint_moderate; exact M|unfold moderate in M; lia]. Qed.
Lemma scale_value s upem : 0 <= s -> 0 <= upem -> s * upem + 2 ^ 15 < 2 ^ 47 -> font_scale s upem = (s * upem + 2 ^ 15) / 2 ^ 16.
Proof.
  intros S U B. unfold font_scale. destruct (Z.eq_dec upem 0) as [->|NZ].
  { rewrite !Z.mul_0_r. reflexivity. }
  assert (s < 2 ^ 64) by nia. assert (0 <= s * upem) by nia. rewrite (Z.mod_small s), (Z.mod_small (s * upem)), (Z.mod_small (s * upem + 2 ^ 15)) by lia.
  assert (0 <= (s * upem + 2 ^ 15) / 2 ^ 16 < 2 ^ 31) by (split; [apply Z.div_pos; lia|apply Z.div_lt_upper_bound; lia]).
  unfold to_int32, wrap32. rewrite Z.mod_small by lia. destruct (_ <? 2 ^ 31) eqn:C; [reflexivity|apply Z.ltb_ge in C; lia].
Qed.

(** * Code points *)

Lemma nominal_nonzero m u g : nominal_glyph m u = Some g -> g <> 0.
Proof.
  unfold nominal_glyph. destruct (cm_index m u =? 0) eqn:E; [|intros [= <-]; apply Z.eqb_neq; exact E]. destruct (cm_symbol m); [|discriminate].
  destruct (_ =? 0) eqn:E' in |- *; [discriminate|]. intros [= <-]. apply Z.eqb_neq. exact E'.
Qed.
Lemma codepoint_agree m u : has_codepoint m u = true <-> map_codepoint_to_glyph m u <> 0.
Proof. unfold has_codepoint, map_codepoint_to_glyph. destruct (nominal_glyph m u) as [g|] eqn:E; split; intros H; trivial; try discriminate; try congruence. apply (nominal_nonzero _ _ _ E). Qed.
Lemma nominal_of_index m u : cm_index m u <> 0 -> nominal_glyph m u = Some (cm_index m u).
Proof. intros N. unfold nominal_glyph. apply Z.eqb_neq in N. rewrite N. reflexivity. Qed.
Lemma batch m us : exists n, length (nominal_glyphs m us) = n /\ (n <= length us)%nat /\
  Forall2 (fun u g => nominal_glyph m u = Some g) (firstn n us) (nominal_glyphs m us) /\
  (forall u, nth_error us n = Some u -> cm_index m u = 0).
Proof.
  exists (length (nominal_glyphs m us)). split; [reflexivity|]. induction us as [|u us (L & F & N)]; cbn [nominal_glyphs].
  - cbn. split; [lia|]. split; [constructor|]. discriminate.
  - destruct (cm_index m u =? 0) eqn:E.
    + cbn. split; [lia|]. split; [constructor|]. intros ? [= <-]. apply Z.eqb_eq. exact E.
    + cbn [length firstn nth_error]. split; [lia|]. split; [constructor; [apply nominal_of_index, Z.eqb_neq; exact E|exact F]|exact N].
Qed.
Lemma asked_map m us gs : asked m us gs -> gs = map (map_codepoint_to_glyph m) us.
Proof.
  induction 1 as [|us gs rest E _ IH|u us gs _ IH]; [reflexivity| |cbn; now rewrite IH]. subst rest. destruct (batch m us) as (n & L & LE & F & _). rewrite E in *. subst n.
  rewrite <- (firstn_skipn (length gs) us) at 2. rewrite map_app. f_equal. clear E LE. induction F as [|u g us' gs' H F IH']; [reflexivity|]. cbn. unfold map_codepoint_to_glyph at 1. rewrite H, IH'. reflexivity.
Qed.
Lemma symbol m u : cm_symbol m = true -> cm_page m = PageNone -> cm_index m u = 0 -> 0 <= u <= 255 -> nominal_glyph m u = nominal_glyph m (0xF000 + u).
Proof.
  intros S P Z0 B. unfold nominal_glyph. rewrite Z0, S, P. cbn [Z.eqb]. destruct (u <=? 255) eqn:E; [|apply Z.leb_gt in E; lia].
  destruct (cm_index m (0xF000 + u) =? 0) eqn:E1; [|rewrite E1 || idtac; reflexivity]. destruct (0xF000 + u <=? 255) eqn:E2; [apply Z.leb_le in E2; lia|]. reflexivity.
Qed.

(** * Metrics *)

Lemma extents_value negx negy g : moderate (gm_hbx g) -> moderate (gm_hby g) -> moderate (gm_width g) -> moderate (gm_height g) ->
  moderate (gm_hbx g + gm_width g) -> moderate (gm_hby g - gm_height g) ->
  glyph_extents negx negy (Some g) = Ok (Some {| ex_x := directed negx (gm_hbx g); ex_y := directed negy (gm_hby g); ex_w := directed negx (gm_width g); ex_h := directed negy (- gm_height g) |}).
Proof.
  intros BX BY W H XW YH. cbn [glyph_extents].
  assert (BIG : forall z, moderate z -> - 2 ^ 64 < z < 2 ^ 64 /\ - 2 ^ 65 < z < 2 ^ 65 /\ - 2 ^ 31 <= z < 2 ^ 31) by (unfold moderate; lia).
  assert (MH : moderate (- gm_height g)) by (unfold moderate in *; lia).
  pose proof (fint_mult negx _ _ (fint_moderate _ BX) ltac:(apply BIG; exact BX)) as X1. pose proof (fint_mult negy _ _ (fint_moderate _ BY) ltac:(apply BIG; exact BY)) as Y1.
  pose proof (fint_mult negx _ _ (fint_moderate _ W) ltac:(apply BIG; exact W)) as X2. pose proof (fint_mult negy _ _ (fint_moderate _ MH) ltac:(apply BIG; exact MH)) as Y2.
  pose proof (directed_moderate negx _ BX) as DBX. pose proof (directed_moderate negy _ BY) as DBY. pose proof (directed_moderate negx _ W) as DW. pose proof (directed_moderate negy _ MH) as DH.
  pose proof (fint_add _ _ _ _ X1 X2 ltac:(apply BIG; exact DBX) ltac:(apply BIG; exact DW)) as X3. pose proof (fint_add _ _ _ _ Y1 Y2 ltac:(apply BIG; exact DBY) ltac:(apply BIG; exact DH)) as Y3.
  assert (M3 : moderate (directed negx (gm_hbx g) + directed negx (gm_width g))) by (unfold moderate in *; destruct negx; cbn; lia).
  assert (M4 : moderate (directed negy (gm_hby g) + directed negy (- gm_height g))) by (unfold moderate in *; destruct negy; cbn; lia).
  rewrite (fl_small _ M3) in X3. rewrite (fl_small _ M4) in Y3.
  rewrite (fint_to_int _ _ (fint_floor _ _ X1 ltac:(apply BIG; exact DBX))) by (apply BIG; exact DBX). cbn [obind]. rewrite (fint_to_int _ _ (fint_floor _ _ Y1 ltac:(apply BIG; exact DBY))) by (apply BIG; exact DBY). cbn [obind].
  pose proof (fint_sub _ _ _ _ (fint_ceil _ _ X3 ltac:(apply BIG; exact M3)) (fint_moderate _ DBX) ltac:(apply BIG; exact M3) ltac:(apply BIG; exact DBX)) as X5.
  pose proof (fint_sub _ _ _ _ (fint_ceil _ _ Y3 ltac:(apply BIG; exact M4)) (fint_moderate _ DBY) ltac:(apply BIG; exact M4) ltac:(apply BIG; exact DBY)) as Y5.
  replace (directed negx (gm_hbx g) + directed negx (gm_width g) - directed negx (gm_hbx g)) with (directed negx (gm_width g)) in X5 by lia.
  replace (directed negy (gm_hby g) + directed negy (- gm_height g) - directed negy (gm_hby g)) with (directed negy (- gm_height g)) in Y5 by lia.
  rewrite (fl_small _ DW) in X5. rewrite (fl_small _ DH) in Y5. rewrite (fint_to_int _ _ X5) by (apply BIG; exact DW). cbn [obind]. rewrite (fint_to_int _ _ Y5) by (apply BIG; exact DH). reflexivity.
Qed.
Lemma to_int32_small z : - 2 ^ 31 <= z < 2 ^ 31 -> to_int32 z = z.
Proof. intros B. unfold to_int32, wrap32. destruct (Z_lt_le_dec z 0). { rewrite <- (Z_mod_plus_full z 1 (2 ^ 32)). rewrite Z.mod_small by lia. destruct (_ <? _) eqn:C; [apply Z.ltb_lt in C; lia|lia]. } rewrite Z.mod_small by lia. destruct (z <? _) eqn:C; [reflexivity|apply Z.ltb_ge in C; lia]. Qed.
Lemma mult_to_int neg z : moderate z -> f32_to_int (f32_mul (mult neg) (f32_of_Z z)) = Ok (directed neg z).
Proof. intros M. apply fint_to_int; [apply fint_mult; [apply fint_moderate; exact M|unfold moderate in M; lia]|pose proof (directed_moderate neg _ M) as D; unfold moderate in D; lia]. Qed.
Lemma origin_value negx negy g : moderate (gm_hbx g - gm_vbx g) -> moderate (gm_hby g + gm_vby g) ->
  glyph_v_origin negx negy (Some g) = Ok (Some (directed negx (gm_hbx g - gm_vbx g), directed negy (gm_hby g + gm_vby g))).
Proof. intros A B. cbn [glyph_v_origin]. replace (gm_hby g - - gm_vby g) with (gm_hby g + gm_vby g) by lia. rewrite !to_int32_small by (unfold moderate in *; lia). rewrite (mult_to_int _ _ A), (mult_to_int _ _ B). reflexivity. Qed.
Lemma h_extents_value mulfix neg f a d h :
  (a, d, h) = (if fm_upem f =? 0 then (fm_sasc f, fm_sdesc f, fm_sheight f) else (mulfix (fm_asc f) (fm_yscale f), mulfix (fm_desc f) (fm_yscale f), mulfix (fm_height f) (fm_yscale f))) ->
  moderate a -> moderate d -> moderate (h - (a - d)) ->
  font_h_extents mulfix neg f = Ok {| fe_asc := directed neg a; fe_desc := directed neg d; fe_gap := directed neg (h - (a - d)) |}.
Proof. intros E A D H. unfold font_h_extents. rewrite <- E. rewrite (to_int32_small a), (to_int32_small d) by (unfold moderate in *; lia). rewrite (to_int32_small (a - d)), (to_int32_small (h - (a - d))) by (unfold moderate in *; lia). rewrite (mult_to_int _ _ A), (mult_to_int _ _ D), (mult_to_int _ _ H). reflexivity. Qed.

(** * Names *)

Lemma c_string_id s : ~ In 0 s -> c_string s = s.
Proof. induction s as [|b s IH]; cbn; intros N; [reflexivity|]. destruct (b =? 0) eqn:E; [apply Z.eqb_eq in E; tauto|]. rewrite IH by tauto. reflexivity. Qed.
Lemma c_string_app s t : ~ In 0 s -> c_string (s ++ 0 :: t) = s.
Proof. induction s as [|b s IH]; cbn; intros N; [reflexivity|]. destruct (b =? 0) eqn:E; [apply Z.eqb_eq in E; tauto|]. rewrite IH by tauto. reflexivity. Qed.
Lemma bytes_eqb_spec a b : bytes_eqb a b = true <-> a = b.
Proof. revert b. induction a as [|x a IH]; intros [|y b]; cbn; split; intros H; try reflexivity; try discriminate. - apply andb_prop in H as [E H]. apply Z.eqb_eq in E as ->. apply IH in H as ->. reflexivity. - injection H as -> ->. rewrite Z.eqb_refl. apply IH. reflexivity. Qed.
Lemma terminated names find zero s rest len : answers_from names find zero -> ~ In 0 s -> len < 0 ->
  exists b g, glyph_from_name find zero (s ++ 0 :: rest) len = Ok (b, g) /\ (b = true <-> In s names) /\ (b = true -> 0 <= g /\ nth_error names (Z.to_nat g) = Some s).
Proof.
  intros (F & Z0 & EZ & NE & NZ) NS L. unfold glyph_from_name. apply Z.ltb_lt in L. rewrite L, (c_string_app _ _ NS). destruct (find s =? 0) eqn:E.
  - apply Z.eqb_eq in E. subst zero. destruct names as [|z names]; [congruence|]. cbn [hd_error]. rewrite (c_string_id z) by (apply NZ; left; reflexivity).
    do 2 eexists. split; [reflexivity|]. split.
    + rewrite bytes_eqb_spec. split; [intros ->; left; reflexivity|]. intros I. specialize (Z0 s I E). injection Z0 as ->. reflexivity.
    + intros B. apply bytes_eqb_spec in B as ->. rewrite E. split; [lia|reflexivity].
  - apply Z.eqb_neq in E. destruct (F s E) as [P N]. do 2 eexists. split; [reflexivity|]. split; [split; [intros _; apply (nth_error_In _ _ N)|reflexivity]|intros _; split; assumption].
Qed.
Lemma known names find zero s rest : answers_from names find zero -> In s names -> (length s <= 127)%nat ->
  exists g, glyph_from_name find zero (s ++ rest) (Z.of_nat (length s)) = Ok (true, g) /\ 0 <= g /\ nth_error names (Z.to_nat g) = Some s.
Proof.
  intros (F & Z0 & EZ & NE & NZ) I L. unfold glyph_from_name. destruct (Z.of_nat (length s) <? 0) eqn:C; [apply Z.ltb_lt in C; lia|]. rewrite Z.min_l, Nat2Z.id by lia.
  rewrite firstn_app, Nat.sub_diag, firstn_all, app_nil_r, (c_string_id s) by (apply NZ; exact I). destruct (find s =? 0) eqn:E.
  - apply Z.eqb_eq in E. specialize (Z0 s I E). rewrite EZ, Z0, firstn_all, (c_string_id s) by (apply NZ; exact I). rewrite (proj2 (bytes_eqb_spec s s) eq_refl). eexists. split; [reflexivity|]. rewrite E. split; [lia|]. destruct names; [discriminate|]. exact Z0.
  - apply Z.eqb_neq in E. destruct (F s E) as [P N]. eexists. split; [reflexivity|]. split; assumption.
Qed.
