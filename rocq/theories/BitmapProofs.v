From Verif Require Import Base BaseFacts FloatModel ColorModel BitmapModel BitmapSpec.
Open Scope Z_scope.

Lemma same_row W x w y px py : 0 <= px < W -> 0 <= x -> x + w <= W ->
  (y * W + x <= py * W + px < y * W + x + w <-> py = y /\ x <= px < x + w).
Proof.
  intros Hp Hx Hw. split.
  - intros H. assert (py = y) by nia. subst. lia.
  - intros [-> H]. lia.
Qed.
Lemma wrap32_small z : 0 <= z < 2 ^ 32 -> wrap32 z = z.
Proof. intros. unfold wrap32. now rewrite Z.mod_small. Qed.

Lemma painted_none b P f : (forall px py, within b px py -> ~ P px py) -> painted b b P f.
Proof.
  intros H. split; [reflexivity|]. split; [reflexivity|]. split; intros px py Hi Hp; [|reflexivity]. exfalso. exact (H px py Hi Hp).
Qed.

Section rect.
  Variables x w : Z.
  Hypothesis X : 0 <= x.
  Hypothesis Wd : 0 <= w.

  Lemma fill_rows_ok n : forall b y v, sized b -> x + w <= bm_w b -> 0 <= y -> y + Z.of_nat n <= bm_h b ->
    exists b', fill_rows b n (y * bm_w b + x) w v = Ok b' /\ painted b b' (fun px py => in_rect x y w (Z.of_nat n) px py) (fun _ _ => v).
  Proof.
    induction n as [|n IH]; intros b y v Hs Hx Hy Hn.
    - exists b. split; [reflexivity|]. apply painted_none. unfold in_rect. intros. lia.
    - cbn [fill_rows]. unfold sized in Hs. unfold fill_n at 1.
      destruct (Z.eqb_spec w 0) as [->|Nw].
      + cbn [obind]. destruct (IH b (y + 1) v) as [b' [E P]]; [exact Hs|lia|lia|lia|].
        exists b'. split; [rewrite <- E; f_equal; ring|].
        destruct P as (P1 & P2 & P3 & P4). split; [auto|]; split; [auto|]; split; unfold in_rect in *; intros px py Hin Hr; [lia|]. apply P4; [exact Hin|lia].
      + assert (L : bm_len b = bm_w b * bm_h b) by (unfold bm_len; apply wrap32_small; nia).
        rewrite L. replace (0 <=? y * bm_w b + x) with true by nia.
        replace (y * bm_w b + x + w <=? bm_w b * bm_h b) with true by nia. cbn [andb obind].
        set (b1 := {| bm_w := bm_w b; bm_h := bm_h b; bm_at := _ |}).
        destruct (IH b1 (y + 1) v) as [b' [E P]]; [exact Hs|exact Hx|lia|cbn [b1 bm_h]; lia|].
        exists b'. split; [rewrite <- E; f_equal; cbn [b1 bm_w]; ring|].
        destruct P as (P1 & P2 & P3 & P4). cbn [b1 bm_w bm_h] in P1, P2.
        assert (B1 : forall px py, within b px py -> pixel b1 px py = if (y =? py) && (x <=? px) && (px <? x + w) then v else pixel b px py).
        { intros px py [Hi1 Hi2]. unfold pixel. cbn [b1 bm_w bm_at]. pose proof (same_row (bm_w b) x w y px py ltac:(lia) X ltac:(lia)) as R.
          destruct (Z.leb_spec (y * bm_w b + x) (py * bm_w b + px)); destruct (Z.ltb_spec (py * bm_w b + px) (y * bm_w b + x + w)); cbn [andb];
            destruct (Z.eqb_spec y py); destruct (Z.leb_spec x px); destruct (Z.ltb_spec px (x + w)); cbn [andb]; try reflexivity; exfalso; lia. }
        split; [auto|]; split; [auto|]; split; unfold in_rect in *; intros px py Hin Hr.
        * destruct (Z.eq_dec py y) as [->|Ne]; [|apply P3; [exact Hin|lia]].
          rewrite P4 by (try exact Hin; lia). rewrite B1 by exact Hin.
          rewrite Z.eqb_refl. replace (x <=? px) with true by lia. replace (px <? x + w) with true by lia. reflexivity.
        * rewrite P4 by (try exact Hin; lia). rewrite B1 by exact Hin.
          destruct (Z.eqb_spec y py); destruct (Z.leb_spec x px); destruct (Z.ltb_spec px (x + w)); cbn [andb]; try reflexivity; exfalso; lia.
  Qed.

  Lemma blit_rows_ok src n : forall b y q, sized b -> sized src -> x + w <= bm_w b -> 0 <= y -> y + Z.of_nat n <= bm_h b ->
    w <= bm_w src -> 0 <= q -> q + Z.of_nat n <= bm_h src ->
    exists b', blit_rows b src n (y * bm_w b + x) (q * bm_w src) w = Ok b' /\
      painted b b' (fun px py => in_rect x y w (Z.of_nat n) px py) (fun px py => pixel src (px - x) (q + (py - y))).
  Proof.
    induction n as [|n IH]; intros b y q Hs Hs2 Hx Hy Hn Hw Hq Hqn.
    - exists b. split; [reflexivity|]. apply painted_none. unfold in_rect. intros. lia.
    - cbn [blit_rows]. unfold sized in Hs. unfold copy_n at 1.
      destruct (Z.eqb_spec w 0) as [->|Nw].
      + cbn [obind]. destruct (IH b (y + 1) (q + 1)) as [b' [E P]]; try lia; try assumption.
        exists b'. split; [rewrite <- E; f_equal; ring|].
        destruct P as (P1 & P2 & P3 & P4). split; [auto|]; split; [auto|]; split; unfold in_rect in *; intros px py Hin Hr; [lia|]. apply P4; [exact Hin|lia].
      + assert (L : bm_len b = bm_w b * bm_h b) by (unfold bm_len; apply wrap32_small; nia).
        assert (L2 : bm_len src = bm_w src * bm_h src) by (unfold sized in Hs2; unfold bm_len; apply wrap32_small; nia).
        rewrite L, L2. replace (0 <=? y * bm_w b + x) with true by nia.
        replace (y * bm_w b + x + w <=? bm_w b * bm_h b) with true by nia.
        replace (0 <=? q * bm_w src) with true by nia.
        replace (q * bm_w src + w <=? bm_w src * bm_h src) with true by nia. cbn [andb obind].
        set (b1 := {| bm_w := bm_w b; bm_h := bm_h b; bm_at := _ |}).
        destruct (IH b1 (y + 1) (q + 1)) as [b' [E P]]; try lia; try assumption; [cbn [b1 bm_h]; lia|].
        exists b'. split; [rewrite <- E; f_equal; cbn [b1 bm_w]; ring|].
        destruct P as (P1 & P2 & P3 & P4). cbn [b1 bm_w bm_h] in P1, P2.
        assert (B1 : forall px py, within b px py -> pixel b1 px py = if (y =? py) && (x <=? px) && (px <? x + w) then pixel src (px - x) q else pixel b px py).
        { intros px py [Hi1 Hi2]. unfold pixel. cbn [b1 bm_w bm_at]. pose proof (same_row (bm_w b) x w y px py ltac:(lia) X ltac:(lia)) as R.
          destruct (Z.leb_spec (y * bm_w b + x) (py * bm_w b + px)); destruct (Z.ltb_spec (py * bm_w b + px) (y * bm_w b + x + w)); cbn [andb];
            destruct (Z.eqb_spec y py); destruct (Z.leb_spec x px); destruct (Z.ltb_spec px (x + w)); cbn [andb]; try reflexivity; try (exfalso; lia).
          subst. f_equal. ring. }
        split; [auto|]; split; [auto|]; split; unfold in_rect in *; intros px py Hin Hr.
        * destruct (Z.eq_dec py y) as [->|Ne].
          -- rewrite P4 by (try exact Hin; lia). rewrite B1 by exact Hin.
             rewrite Z.eqb_refl. replace (x <=? px) with true by lia. replace (px <? x + w) with true by lia. cbn [andb]. f_equal; lia.
          -- rewrite P3 by (try exact Hin; lia). f_equal; lia.
        * rewrite P4 by (try exact Hin; lia). rewrite B1 by exact Hin.
          destruct (Z.eqb_spec y py); destruct (Z.leb_spec x px); destruct (Z.ltb_spec px (x + w)); cbn [andb]; try reflexivity; exfalso; lia.
  Qed.
End rect.

Lemma painted_where b b' P P' f f' : painted b b' P f -> (forall px py, within b px py -> P px py <-> P' px py) ->
  (forall px py, within b px py -> P px py -> f px py = f' px py) -> painted b b' P' f'.
Proof.
  intros (A & B & C & D) E F. split; [auto|]; split; [auto|]; split; intros px py Hin H.
  - rewrite C; [apply F; [|apply E] | |apply E]; auto.
  - apply D; [auto|]. rewrite E; auto.
Qed.

Lemma fill_rect_ok b x y w h c v : sized b -> 0 <= x <= bm_w b -> 0 <= y -> 0 <= w < 2 ^ 32 -> 0 <= h -> y + h < 2 ^ 32 -> to_argb c = Ok v ->
  exists b', fill_rect b x y w h c = Ok b' /\ painted b b' (in_rect x y w h) (fun _ _ => v).
Proof.
  intros Hs Hx Hy Hw Hh Hyh Hv. unfold fill_rect. rewrite Hv. cbn [obind]. rewrite !Z.max_r by lia.
  rewrite (wrap32_small (bm_w b - x)) by (unfold sized in Hs; lia). rewrite (wrap32_small (y + h)) by lia.
  destruct (Z_lt_le_dec y (bm_h b)) as [Lt|Ge].
  2: { replace (Z.to_nat (Z.min (y + h) (bm_h b) - y)) with O by lia. exists b. split; [reflexivity|].
       apply painted_none. intros. unfold within, in_rect in *. lia. }
  destruct (Z.eq_dec (Z.min w (bm_w b - x)) 0) as [Z0|NZ].
  { rewrite Z0.
    assert (E : forall n p, fill_rows b n p 0 v = Ok b) by (induction n; intros p; cbn [fill_rows]; [reflexivity|cbn; apply IHn]).
    rewrite E. exists b. split; [reflexivity|]. apply painted_none. intros. unfold within, in_rect in *. lia. }
  unfold sized in Hs. rewrite (wrap32_small (y * bm_w b)) by nia. rewrite (wrap32_small (y * bm_w b + x)) by nia.
  destruct (@fill_rows_ok x (Z.min w (bm_w b - x)) ltac:(lia) ltac:(lia) (Z.to_nat (Z.min (y + h) (bm_h b) - y)) b y v) as [b' [E P]]; try assumption; try lia.
  exists b'. split; [exact E|]. eapply painted_where; [exact P| |reflexivity].
  intros px py [I1 I2]. unfold in_rect. lia.
Qed.

Lemma blit_ok b src x y : sized b -> sized src -> 0 <= x <= bm_w b -> 0 <= y -> y + bm_h src < 2 ^ 32 ->
  exists b', blit b src x y = Ok b' /\
    painted b b' (in_rect x y (bm_w src) (bm_h src)) (fun px py => pixel src (px - x) (py - y)).
Proof.
  intros Hs Hs2 Hx Hy Hyh. unfold blit. rewrite !Z.max_r by lia.
  unfold sized in Hs, Hs2.
  rewrite (wrap32_small (bm_w b - x)) by lia. rewrite (wrap32_small (y + bm_h src)) by lia.
  destruct (Z_lt_le_dec y (bm_h b)) as [Lt|Ge].
  2: { replace (Z.to_nat (Z.min (y + bm_h src) (bm_h b) - y)) with O by lia. exists b. split; [reflexivity|].
       apply painted_none. intros. unfold within, in_rect in *. lia. }
  destruct (Z.eq_dec (Z.min (bm_w src) (bm_w b - x)) 0) as [Z0|NZ].
  { rewrite Z0.
    assert (E : forall n p q, blit_rows b src n p q 0 = Ok b) by (induction n; intros p q; cbn [blit_rows]; [reflexivity|cbn; apply IHn]).
    rewrite E. exists b. split; [reflexivity|]. apply painted_none. intros. unfold within, in_rect in *. lia. }
  rewrite (wrap32_small (y * bm_w b)) by nia. rewrite (wrap32_small (y * bm_w b + x)) by nia.
  destruct (@blit_rows_ok x (Z.min (bm_w src) (bm_w b - x)) ltac:(lia) ltac:(lia) src (Z.to_nat (Z.min (y + bm_h src) (bm_h b) - y)) b y 0) as [b' [E P]]; try assumption; try lia.
  exists b'. split; [exact E|]. eapply painted_where; [exact P| |].
  - intros px py [I1 I2]. unfold in_rect. lia.
  - intros px py _ _. cbv beta. now rewrite Z.add_0_l.
Qed.

(** ** Single pixels *)
Lemma sized_len b : sized b -> bm_len b = bm_w b * bm_h b.
Proof. unfold sized. intros. unfold bm_len. apply wrap32_small. nia. Qed.
Lemma index_ok b x y : sized b -> within b x y -> index b x y = y * bm_w b + x /\ y * bm_w b + x < bm_len b.
Proof.
  intros H [Hx Hy]. rewrite sized_len by auto. unfold sized in H. unfold index. rewrite (wrap32_small (y * bm_w b)) by nia.
  rewrite wrap32_small by nia. split; [reflexivity|nia].
Qed.
Lemma set_pixel_ok b x y c v : sized b -> within b x y -> to_argb c = Ok v ->
  exists b', set_pixel b x y c = Ok b' /\ painted b b' (fun px py => px = x /\ py = y) (fun _ _ => v).
Proof.
  intros Hs Hi Hc. destruct (index_ok b x y Hs Hi) as [E L]. unfold set_pixel. rewrite Hc. cbn [obind]. rewrite E.
  replace (y * bm_w b + x <? bm_len b) with true by lia. eexists. split; [reflexivity|].
  destruct Hi as [Hx Hy]. split; [reflexivity|]; split; [reflexivity|]; split; intros px py [H1 H2] Hw; unfold pixel; cbn [bm_w bm_at].
  - destruct Hw as [-> ->]. now rewrite Z.eqb_refl.
  - destruct (Z.eqb_spec (py * bm_w b + px) (y * bm_w b + x)) as [E2|]; [|reflexivity]. exfalso. apply Hw. assert (py = y) by nia. lia.
Qed.
Lemma get_pixel_ok b x y : sized b -> within b x y -> get_pixel b x y = Ok (from_argb_uint (pixel b x y)).
Proof.
  intros Hs Hi. destruct (index_ok b x y Hs Hi) as [E L]. unfold get_pixel. rewrite E.
  replace (y * bm_w b + x <? bm_len b) with true by lia. reflexivity.
Qed.
Lemma painted_sized b b' P f : painted b b' P f -> sized b -> sized b'.
Proof. intros (A & B & _) H. unfold sized in *. now rewrite A, B. Qed.
Lemma painted_within b b' P f px py : painted b b' P f -> within b px py -> within b' px py.
Proof. intros (A & B & _) H. unfold within in *. now rewrite A, B. Qed.

Section alpha.
  Variable src : bitmap.
  Variables x y : Z.
  Variable c : color.
  Hypothesis Ss : sized src.

  Lemma alpha_pixel_ok b px py v : sized b -> within b px py -> within src (px - x) (py - y) ->
    over (pixel src (px - x) (py - y)) (pixel b px py) c = Ok v ->
    exists b', alpha_pixel b src x y px py c = Ok b' /\ painted b b' (fun qx qy => qx = px /\ qy = py) (fun _ _ => v).
  Proof.
    intros Hs Hi Hi2 Hv. unfold alpha_pixel. rewrite get_pixel_ok by auto. cbn [obind]. rewrite get_pixel_ok by auto. cbn [obind].
    unfold over in Hv. unfold f32_pos.
    destruct (SFcompare (c_a (from_argb_uint (pixel b px py))) f32_0) as [[]|]; apply set_pixel_ok; auto.
  Qed.

  Definition mixed (b : bitmap) (f : Z -> Z -> Z) (px py : Z) : Prop :=
    over (pixel src (px - x) (py - y)) (pixel b px py) c = Ok (f px py).

  Lemma alpha_row_ok f n : forall b ix iy, sized b -> 0 <= ix -> 0 <= iy < bm_h b -> ix + Z.of_nat n <= bm_w b ->
    (forall px, ix <= px < ix + Z.of_nat n -> within src (px - x) (iy - y) /\ mixed b f px iy) ->
    exists b', alpha_row b src x y n ix iy c = Ok b' /\ painted b b' (in_rect ix iy (Z.of_nat n) 1) f.
  Proof.
    induction n as [|n IH]; intros b ix iy Hs Hx Hy Hn Hm.
    - exists b. split; [reflexivity|]. apply painted_none. unfold in_rect. intros. lia.
    - cbn [alpha_row]. destruct (Hm ix ltac:(lia)) as [W1 M1].
      destruct (alpha_pixel_ok b ix iy (f ix iy) Hs ltac:(split; lia) W1 M1) as [b1 [E1 P1]]. rewrite E1. cbn [obind].
      pose proof P1 as (A & B & C & D).
      destruct (IH b1 (ix + 1) iy) as [b' [E2 P2]]; [eapply painted_sized; eauto|lia|lia|lia| |].
      { intros px Hp. destruct (Hm px ltac:(lia)) as [W2 M2]. split; [exact W2|]. unfold mixed in *. rewrite D; [exact M2|split; lia|lia]. }
      exists b'. split; [exact E2|]. destruct P2 as (A2 & B2 & C2 & D2).
      split; [congruence|]. split; [congruence|]. split; intros px py Hin Hr; pose proof (painted_within _ _ _ _ _ _ P1 Hin) as Hin2; unfold in_rect in *.
      + destruct (Z.eq_dec px ix) as [->|Ne]; [|apply C2; [exact Hin2|lia]].
        assert (py = iy) by lia. subst py. rewrite D2 by (try exact Hin2; lia). now apply C.
      + rewrite D2 by (try exact Hin2; lia). apply D; [exact Hin|lia].
  Qed.

  Lemma alpha_rows_ok f w n : 0 <= w -> forall b sx iy, sized b -> 0 <= sx -> 0 <= iy -> iy + Z.of_nat n <= bm_h b -> sx + w <= bm_w b ->
    (forall px py, in_rect sx iy w (Z.of_nat n) px py -> within src (px - x) (py - y) /\ mixed b f px py) ->
    exists b', alpha_rows b src x y n sx iy (sx + w) c = Ok b' /\ painted b b' (in_rect sx iy w (Z.of_nat n)) f.
  Proof.
    intros Hw. induction n as [|n IH]; intros b sx iy Hs Hx Hy Hn Hsw Hm.
    - exists b. split; [reflexivity|]. apply painted_none. unfold in_rect. intros. lia.
    - cbn [alpha_rows]. unfold in_rect in Hm. replace (sx + w - sx) with w by lia.
      destruct (alpha_row_ok f (Z.to_nat w) b sx iy Hs Hx ltac:(lia) ltac:(lia)) as [b1 [E1 P1]].
      { intros px Hp. apply Hm. lia. }
      rewrite E1. cbn [obind]. pose proof P1 as (A & B & C & D). unfold in_rect in C, D.
      destruct (IH b1 sx (iy + 1)) as [b' [E2 P2]]; [eapply painted_sized; eauto|lia|lia|lia|lia| |].
      { intros px py Hp. unfold in_rect in Hp. destruct (Hm px py ltac:(lia)) as [W2 M2]. split; [exact W2|]. unfold mixed in *. rewrite D; [exact M2|split; lia|lia]. }
      exists b'. split; [exact E2|]. destruct P2 as (A2 & B2 & C2 & D2).
      split; [congruence|]. split; [congruence|]. split; intros px py Hin Hr; pose proof (painted_within _ _ _ _ _ _ P1 Hin) as Hin2; unfold in_rect in *.
      + destruct (Z.eq_dec py iy) as [->|Ne]; [|apply C2; [exact Hin2|lia]].
        rewrite D2 by (try exact Hin2; lia). apply C; [exact Hin|lia].
      + rewrite D2 by (try exact Hin2; lia). apply D; [exact Hin|lia].
  Qed.

  Lemma to_int32_small z : 0 <= z < 2 ^ 31 -> to_int32 z = z.
  Proof. intros. unfold to_int32. rewrite wrap32_small by lia. destruct (Z.ltb_spec z (2 ^ 31)); lia. Qed.

  Lemma blit_alpha_ok b f : sized b -> bm_w b < 2 ^ 31 -> bm_h b < 2 ^ 31 -> bm_w src < 2 ^ 31 -> bm_h src < 2 ^ 31 ->
    - 2 ^ 31 <= x -> x + bm_w src < 2 ^ 31 -> - 2 ^ 31 <= y -> y + bm_h src < 2 ^ 31 ->
    (forall px py, within b px py -> in_rect x y (bm_w src) (bm_h src) px py ->
      over (pixel src (px - x) (py - y)) (pixel b px py) c = Ok (f px py)) ->
    exists b', blit_alpha b src x y c = Ok b' /\ painted b b' (in_rect x y (bm_w src) (bm_h src)) f.
  Proof.
    intros Hs W1 H1 W2 H2 X1 X2 Y1 Y2 Hm. unfold sized in Hs, Ss. unfold blit_alpha, int32_add.
    rewrite !to_int32_small by lia.
    replace (- 2 ^ 31 <=? x + bm_w src) with true by lia. replace (x + bm_w src <? 2 ^ 31) with true by lia. cbn [andb obind].
    replace (- 2 ^ 31 <=? y + bm_h src) with true by lia. replace (y + bm_h src <? 2 ^ 31) with true by lia. cbn [andb obind].
    set (sx := Z.max 0 x). set (sy := Z.max 0 y). set (ex := Z.min (x + bm_w src) (bm_w b)). set (ey := Z.min (y + bm_h src) (bm_h b)).
    destruct (Z_le_gt_dec sy ey) as [LeY|GtY].
    2: { replace (Z.to_nat (ey - sy)) with O by lia. exists b. split; [reflexivity|].
         apply painted_none. intros px py [I1 I2] Hr. unfold in_rect in Hr. lia. }
    destruct (Z_le_gt_dec sx ex) as [Le|Gt].
    - destruct (alpha_rows_ok f (ex - sx) (Z.to_nat (ey - sy)) ltac:(lia) b sx sy Hs ltac:(lia) ltac:(lia)) as [b' [E P]].
      + lia.
      + lia.
      + intros px py Hr. unfold in_rect in Hr. split; [split; lia|]. apply Hm; [split; lia|unfold in_rect; lia].
      + exists b'. split; [rewrite <- E; f_equal; lia|]. eapply painted_where; [exact P| |reflexivity].
        intros px py [I1 I2]. unfold in_rect. lia.
    - exists b. split.
      + assert (G : forall n iy, alpha_rows b src x y n sx iy ex c = Ok b).
        { induction n as [|n IH]; intros iy; [reflexivity|]. cbn [alpha_rows]. replace (Z.to_nat (ex - sx)) with O by lia. cbn. apply IH. }
        apply G.
      + apply painted_none. intros px py [I1 I2] Hr. unfold in_rect in Hr. lia.
  Qed.
End alpha.
