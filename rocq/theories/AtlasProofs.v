From Verif Require Import Base BaseFacts FloatModel ColorModel BuilderModel FontSizeModel BitmapModel BitmapSpec BitmapProofs AtlasSpec AtlasModel.
Open Scope Z_scope.

Lemma nth_list_set {A} (l : list A) n v m : nth_error (list_set l n v) m =
  if (Nat.eqb m n) then (match nth_error l n with Some _ => Some v | None => None end) else nth_error l m.
Proof.
  revert n m. induction l as [|x l IH]; intros [|n] [|m]; cbn; try reflexivity.
  - destruct (Nat.eqb m n); reflexivity.
  - apply IH.
Qed.

Ltac fin := split; [lia|split; [assumption || reflexivity|split; [reflexivity|repeat (split; [lia|]); intros; lia]]].

Section packer.
  Variable pad : Z.
  Hypothesis Pad : 0 <= pad <= 100.

  Definition page_ok (p : page) : Prop := 0 <= pg_x p <= EXTENT + pad /\ 0 <= pg_y p <= EXTENT /\ 0 <= pg_line p /\ pg_y p + pg_line p <= EXTENT + pad.
  Definition behind (p : page) (x y w h : Z) : Prop :=
    y + h + pad <= pg_y p \/ (y = pg_y p /\ x + w + pad <= pg_x p /\ h + pad <= pg_line p).
  Definition drawn_at (t : texture) (x y : Z) (b : bitmap) : Prop :=
    forall dx dy, within b dx dy -> t (x + dx) (y + dy) = Some (pixel b dx dy).

  Lemma target_page_ok ps w h color : exists p, let '(qs, n) := target_page ps w h color in
    nth_error qs n = Some p /\ pg_color p = color /\
    ((qs = ps /\ can_fit p w h = true) \/ (qs = ps ++ [fresh_page color] /\ n = List.length ps /\ p = fresh_page color)).
  Proof.
    induction ps as [|q ps IH]; cbn [target_page].
    - exists (fresh_page color). split; [reflexivity|]. split; [reflexivity|]. right. auto.
    - destruct (Bool.eqb (pg_color q) color && can_fit q w h) eqn:E.
      + exists q. apply andb_true_iff in E. destruct E as [E1 E2]. apply eqb_prop in E1. cbn. auto.
      + destruct IH as [p IH]. exists p. destruct (target_page ps w h color) as [qs n]. destruct IH as (I1 & I2 & I3).
        cbn. split; [exact I1|]. split; [exact I2|]. destruct I3 as [[-> ?]|(-> & -> & ->)]; auto.
  Qed.

  Lemma upload_ok ps b color : Forall page_ok ps -> 0 < bm_w b <= EXTENT -> 0 < bm_h b <= EXTENT ->
    exists ps' n x y p', upload pad ps b color = Ok (ps', n, x, y) /\ Forall page_ok ps' /\
      nth_error ps' n = Some p' /\ pg_color p' = color /\
      0 <= x /\ 0 <= y /\ x + bm_w b <= EXTENT /\ y + bm_h b <= EXTENT /\
      behind p' x y (bm_w b) (bm_h b) /\ drawn_at (pg_image p') x y b /\
      forall m p, nth_error ps m = Some p -> exists q, nth_error ps' m = Some q /\ pg_color q = pg_color p /\
        (m <> n -> q = p) /\
        (m = n -> forall x0 y0 w0 h0, behind p x0 y0 w0 h0 -> 0 <= x0 -> 0 <= y0 -> 0 <= w0 -> 0 <= h0 ->
           behind q x0 y0 w0 h0 /\ apart pad x y (bm_w b) (bm_h b) x0 y0 w0 h0 /\
           forall px py, in_rect x0 y0 w0 h0 px py -> pg_image q px py = pg_image p px py).
  Proof.
    intros Hps Hw Hh. unfold upload, EXTENT in *.
    rewrite (wrap32_small (bm_w b + pad)) by lia. rewrite (wrap32_small (bm_h b + pad)) by lia.
    set (w := bm_w b + pad). set (h := bm_h b + pad).
    destruct (target_page_ok ps w h color) as [p T]. destruct (target_page ps w h color) as [qs n]. destruct T as (T1 & T2 & T3).
    unfold vget. rewrite T1. cbn [obind].
    assert (Hp : page_ok p /\ (p = fresh_page color \/ can_fit p w h = true)).
    { destruct T3 as [[-> F]|(-> & -> & ->)].
      - split; [|auto]. rewrite Forall_forall in Hps. apply Hps. eapply nth_error_In; eauto.
      - split; [|auto]. unfold page_ok, EXTENT. cbn. lia. }
    destruct Hp as [Ok1 Fit]. unfold page_ok, EXTENT in Ok1.
    set (q := line_feed p w h).
    assert (Q : page_ok q /\ pg_color q = color /\ pg_image q = pg_image p /\ 0 <= pg_x q /\ pg_x q + bm_w b <= 2048 /\ pg_x q + w <= 2048 + pad /\ pg_y q + bm_h b <= 2048 /\ pg_y q + h <= 2048 + pad /\
      (forall x0 y0 w0 h0, behind p x0 y0 w0 h0 -> behind q x0 y0 w0 h0)).
    { assert (fw : w = bm_w b + pad) by reflexivity. assert (fh : h = bm_h b + pad) by reflexivity. clearbody w h.
      unfold q, line_feed, EXTENT. rewrite (wrap32_small (pg_x p + w)) by lia. destruct Fit as [F|F].
      - subst p. cbn [fresh_page pg_x pg_y pg_line pg_color pg_image] in *. unfold page_ok, behind, EXTENT. rewrite !Z.add_0_l in *.
        rewrite (wrap32_small 0) by lia.
        destruct (Z.ltb_spec 2048 w); cbn [fresh_page pg_x pg_y pg_line pg_color pg_image]; fin.
      - unfold can_fit, EXTENT in F. rewrite (wrap32_small (pg_x p + w)) in F by lia. rewrite (wrap32_small (pg_y p + h)) in F by lia.
        rewrite (wrap32_small (pg_y p + pg_line p)) in F by lia. rewrite (wrap32_small (pg_y p + pg_line p + h)) in F by lia.
        apply orb_true_iff in F. rewrite !andb_true_iff, !Z.leb_le in F.
        destruct (Z.ltb_spec 2048 (pg_x p + w)); cbn [pg_x pg_y pg_line pg_color pg_image]; unfold page_ok, behind, EXTENT.
        + rewrite (wrap32_small (pg_y p + pg_line p)) by lia. cbn [pg_x pg_y pg_line]. fin.
        + fin. }
    clearbody q. destruct Q as (Q1 & Q2 & Q3 & Q4 & Q5 & Q6 & Q7 & Q7' & Q8). unfold page_ok, EXTENT in Q1.
    set (im := image_write (pg_image q) (pg_x q) (pg_y q) b).
    rewrite (wrap32_small (pg_x q + w)) by (unfold w; lia).
    set (q1 := {| pg_image := im; pg_x := _; pg_y := _; pg_line := _; pg_color := _ |}).
    assert (IM : forall px py, im px py = if (pg_x q <=? px) && (px <? pg_x q + bm_w b) && (pg_y q <=? py) && (py <? pg_y q + bm_h b)
                   then Some (bm_at b ((py - pg_y q) * bm_w b + (px - pg_x q))) else pg_image q px py).
    { intros. unfold im, image_write, EXTENT. replace (0 <=? pg_x q) with true by lia. replace (0 <=? pg_y q) with true by lia.
      replace (pg_x q + bm_w b <=? 2048) with true by lia. replace (pg_y q + bm_h b <=? 2048) with true by lia. reflexivity. }
    exists (list_set qs n q1), n, (pg_x q), (pg_y q), q1.
    assert (LQ : (if pg_line q <? h then h else pg_line q) = Z.max (pg_line q) h) by (destruct (Z.ltb_spec (pg_line q) h); lia).
    assert (OK1 : page_ok q1) by (unfold page_ok, EXTENT, q1; cbn [pg_x pg_y pg_line]; rewrite LQ; unfold w, h in *; lia).
    assert (QS : Forall page_ok qs).
    { destruct T3 as [[-> _]|(-> & _ & _)]; [exact Hps|]. apply Forall_app. split; [exact Hps|]. constructor; [|constructor]. unfold page_ok, EXTENT. cbn. lia. }
    split; [reflexivity|]. split.
    { rewrite Forall_forall in *. intros z Hz. apply In_nth_error in Hz. destruct Hz as [m Hm]. rewrite nth_list_set in Hm.
      destruct (Nat.eqb_spec m n); [rewrite T1 in Hm; inversion Hm; subst; exact OK1|]. apply QS. eapply nth_error_In; eauto. }
    split; [rewrite nth_list_set, Nat.eqb_refl, T1; reflexivity|].
    split; [exact Q2|]. split; [lia|]. split; [lia|]. split; [lia|]. split; [lia|]. split.
    { unfold behind, q1. cbn [pg_x pg_y pg_line]. rewrite LQ. unfold w, h. right. lia. }
    split.
    { intros dx dy [Hx Hy]. cbn [q1 pg_image]. rewrite IM.
      replace (pg_x q <=? pg_x q + dx) with true by lia. replace (pg_x q + dx <? pg_x q + bm_w b) with true by lia.
      replace (pg_y q <=? pg_y q + dy) with true by lia. replace (pg_y q + dy <? pg_y q + bm_h b) with true by lia. cbn [andb].
      unfold pixel. do 2 f_equal. ring. }
    intros m p0 Hm.
    assert (Hq : nth_error qs m = Some p0).
    { destruct T3 as [[-> _]|(-> & _ & _)]; [exact Hm|]. rewrite nth_error_app1; [exact Hm|]. apply nth_error_Some. congruence. }
    destruct (Nat.eqb_spec m n) as [->|Ne].
    - exists q1. rewrite nth_list_set, Nat.eqb_refl, T1. rewrite T1 in Hq. inversion Hq. subst p0.
      split; [reflexivity|]. split; [cbn; congruence|]. split; [congruence|]. intros _ x0 y0 w0 h0 B0 X0 Y0 W0 H0.
      apply Q8 in B0. assert (AP : apart pad (pg_x q) (pg_y q) (bm_w b) (bm_h b) x0 y0 w0 h0) by (unfold apart, behind in *; lia).
      split; [|split; [exact AP|]].
      + unfold behind, q1 in *. cbn [pg_x pg_y pg_line]. rewrite LQ. unfold w, h in *. lia.
      + intros px py [R1 R2]. cbn [q1 pg_image]. rewrite IM, Q3. unfold apart in AP.
        destruct (Z.leb_spec (pg_x q) px); destruct (Z.ltb_spec px (pg_x q + bm_w b)); destruct (Z.leb_spec (pg_y q) py); destruct (Z.ltb_spec py (pg_y q + bm_h b)); cbn [andb]; try reflexivity. exfalso. lia.
    - exists p0. rewrite nth_list_set. destruct (Nat.eqb_spec m n); [contradiction|]. split; [exact Hq|]. split; [reflexivity|]. split; [auto|congruence].
  Qed.

  (** ** Histories of uploads *)
  Definition placed (ps : list page) (bc : bitmap * bool) (r : nat * Z * Z) : Prop :=
    let '(n, x, y) := r in let '(b, c) := bc in
    exists p, nth_error ps n = Some p /\ pg_color p = c /\ 0 <= x /\ 0 <= y /\ x + bm_w b <= EXTENT /\ y + bm_h b <= EXTENT /\
      behind p x y (bm_w b) (bm_h b) /\ drawn_at (pg_image p) x y b.
  Definition put_apart (e f : (bitmap * bool) * (nat * Z * Z)) : Prop :=
    let '((b, _), (n, x, y)) := e in let '((b', _), (n', x', y')) := f in
    n = n' -> apart pad x y (bm_w b) (bm_h b) x' y' (bm_w b') (bm_h b').
  Definition fits (bc : bitmap * bool) : Prop := 0 < bm_w (fst bc) <= EXTENT /\ 0 < bm_h (fst bc) <= EXTENT.

  Lemma uploads_ok bs : forall ps done, Forall fits bs -> Forall page_ok ps -> Forall (fun e => fits (fst e) /\ placed ps (fst e) (snd e)) done ->
    ForallOrdPairs put_apart done ->
    exists ps' l, uploads pad ps bs = Ok (ps', l) /\ Forall page_ok ps' /\
      Forall (fun e => fits (fst e) /\ placed ps' (fst e) (snd e)) (rev (combine bs l) ++ done) /\ ForallOrdPairs put_apart (rev (combine bs l) ++ done) /\
      List.length l = List.length bs.
  Proof.
    induction bs as [|[b c] bs IH]; intros ps done Hf Hp Hd Ha; cbn [uploads].
    - exists ps, []. repeat (split; [assumption||reflexivity|]). reflexivity.
    - inversion Hf as [|? ? [F1 F2] Hf']. subst. cbn [fst] in F1, F2.
      destruct (upload_ok ps b c Hp F1 F2) as (ps1 & n & x & y & p' & U1 & U2 & U3 & U4 & U5 & U6 & U7 & U8 & U9 & U10 & U11).
      rewrite U1. cbn [obind].
      assert (OLD : Forall (fun e => (fits (fst e) /\ placed ps1 (fst e) (snd e)) /\ put_apart (b, c, (n, x, y)) e) done).
      { rewrite Forall_forall in *. intros [[b0 c0] [[n0 x0] y0]] He. destruct (Hd _ He) as [Fi (p & P1 & P2 & P3 & P4 & P5 & P6 & P7 & P8)]. cbn [fst snd] in *.
        destruct (U11 n0 p P1) as (q & V1 & V2 & V3 & V4). unfold fits in Fi. cbn [fst] in Fi. destruct (Nat.eq_dec n0 n) as [->|Ne].
        - destruct (V4 eq_refl _ _ _ _ P7 ltac:(lia) ltac:(lia) ltac:(lia) ltac:(lia)) as (V5 & V6 & V7). split; [split; [exact Fi|]|].
          + exists q. repeat (split; [solve [assumption|congruence|lia]|]). intros dx dy Hi. rewrite V7; [apply P8, Hi|]. destruct Hi. unfold in_rect. lia.
          + intros _. exact V6.
        - rewrite V3 in * by exact Ne. split; [split; [exact Fi|]|].
          + exists p. repeat (split; [solve [assumption|congruence|lia]|]). exact P8.
          + intros E. congruence. }
      destruct (IH ps1 ((b, c, (n, x, y)) :: done) Hf' U2) as (ps' & l & I1 & I2 & I3 & I4 & I5).
      { constructor; [|eapply Forall_impl; [|exact OLD]; intros e He; apply He]. cbn [fst snd]. split; [split; assumption|]. exists p'. repeat (split; [solve [assumption|congruence|lia]|]). exact U10. }
      { constructor; [eapply Forall_impl; [|exact OLD]; intros e He; apply He|exact Ha]. }
      rewrite I1. cbn [obind]. exists ps', ((n, x, y) :: l). split; [reflexivity|]. split; [exact I2|].
      cbn [combine rev]. rewrite <- !app_assoc. cbn [app]. split; [exact I3|]. split; [exact I4|]. cbn. lia.
  Qed.

  Variable key : Type.
  Variable key_eqb : key -> key -> bool.
  Hypothesis Keq : forall a b, key_eqb a b = true <-> a = b.
  Variable P : key -> drawing -> Prop.

  Definition full (b : bitmap) : bool := (0 <? bm_w b) && (0 <? bm_h b).
  Definition entry_is (ps : list page) (i : info) (d : drawing) : Prop :=
    let b := dr_bitmap d in
    in_width i = bm_w b /\ in_height i = bm_h b /\ in_left i = dr_left d /\ in_top i = dr_top d /\
    if full b then exists n p, in_page i = Some n /\ nth_error ps n = Some p /\ pg_color p = dr_color d /\
                in_w i = bm_w b /\ in_h i = bm_h b /\ 0 <= in_x i /\ 0 <= in_y i /\ in_x i + bm_w b <= EXTENT /\ in_y i + bm_h b <= EXTENT /\
                behind p (in_x i) (in_y i) (bm_w b) (bm_h b) /\ drawn_at (pg_image p) (in_x i) (in_y i) b
    else in_page i = None.
  Definition entry_ok (ps : list page) (e : key * info) : Prop := exists d, P (fst e) d /\ entry_is ps (snd e) d.
  Definition infos_apart (i j : info) : Prop := forall n, in_page i = Some n -> in_page j = Some n ->
    apart pad (in_x i) (in_y i) (in_w i) (in_h i) (in_x j) (in_y j) (in_w j) (in_h j).
  Definition atlas_ok (a : atlas key) : Prop :=
    Forall page_ok (at_pages a) /\ Forall (entry_ok (at_pages a)) (at_cache a) /\ ForallOrdPairs (fun e f => infos_apart (snd e) (snd f) /\ fst e <> fst f) (at_cache a).
  Definition told (a : atlas key) (k : key) (an : answer) : Prop :=
    exists i, In (k, i) (at_cache a) /\ an_x an = in_x i /\ an_y an = in_y i /\ an_w an = in_w i /\ an_h an = in_h i /\
      an_width an = in_width i /\ an_height an = in_height i /\ an_left an = in_left i /\ an_top an = in_top i /\
      match in_page i with
      | Some n => an_picture an = OnPage n /\ exists d, P k d /\ an_color an = dr_color d
      | None => an_picture an = Nothing \/ an_picture an = NullMember
      end.

  Lemma no_atlas_ok : atlas_ok no_atlas.
  Proof. repeat split; constructor. Qed.

  Lemma fetch_ok a k d make : atlas_ok a -> P k d -> make = Ok d -> 0 <= bm_w (dr_bitmap d) <= EXTENT -> 0 <= bm_h (dr_bitmap d) <= EXTENT ->
    exists a' an, fetch pad key_eqb a k make = Ok (a', an) /\ atlas_ok a' /\ told a' k an /\ incl (at_cache a) (at_cache a').
  Proof.
    intros (A1 & A2 & A3) Pd -> Hw Hh. unfold fetch, cached. destruct (find (fun e => key_eqb (fst e) k) (at_cache a)) as [[k' i]|] eqn:F; cbn [option_map snd].
    - apply find_some in F. destruct F as [F1 F2]. cbn [fst] in F2. apply Keq in F2. subst k'.
      rewrite Forall_forall in A2. pose proof (A2 _ F1) as (d' & Pd' & E). unfold entry_is in E. cbn [fst snd] in E, Pd'. destruct E as (E1 & E2 & E3 & E4 & E5). unfold hit.
      destruct (full (dr_bitmap d')) eqn:FB.
      + destruct E5 as (n & p & P1 & P2 & P3 & P4 & P5 & _). rewrite P1. unfold vget. rewrite P2. cbn [obind].
        exists a, (tell i (OnPage n) (pg_color p)). split; [reflexivity|]. split; [split; [exact A1|]; split; [apply Forall_forall; exact A2|exact A3]|]. split; [|apply incl_refl].
        exists i. split; [exact F1|]. rewrite P1. cbn. repeat (split; [reflexivity|]). exists d'. auto.
      + rewrite E5. cbn [obind]. exists a, (tell i NullMember false). split; [reflexivity|]. split; [split; [exact A1|]; split; [apply Forall_forall; exact A2|exact A3]|]. split; [|apply incl_refl].
        exists i. split; [exact F1|]. rewrite E5. cbn. repeat (split; [reflexivity|]). auto.
    - assert (NK : forall e, In e (at_cache a) -> fst e <> k).
      { intros e He Ek. apply find_none with (x := e) in F; [|exact He]. apply Keq in Ek. congruence. }
      cbn [obind]. fold (full (dr_bitmap d)). destruct (full (dr_bitmap d)) eqn:FB.
      + assert (FB2 := FB). unfold full in FB2. apply andb_true_iff in FB2.
        destruct (upload_ok (at_pages a) (dr_bitmap d) (dr_color d) A1) as (ps' & n & x & y & p' & U1 & U2 & U3 & U4 & U5 & U6 & U7 & U8 & U9 & U10 & U11); [lia|lia|].
        rewrite U1. cbn [obind]. set (i := {| in_x := x; in_y := y; in_w := _; in_h := _; in_width := _; in_height := _; in_left := _; in_top := _; in_page := _ |}).
        eexists _, _. split; [reflexivity|]. split; [|split; [|apply incl_tl, incl_refl]].
        2: { exists i. split; [left; reflexivity|]. cbn. repeat (split; [reflexivity|]). exists d. auto. }
        assert (OLD : forall e, In e (at_cache a) -> entry_ok ps' e /\ infos_apart i (snd e)).
        { intros [k0 j] He. rewrite Forall_forall in A2. pose proof (A2 _ He) as (d0 & Pd0 & E). unfold entry_is in E. cbn [fst snd] in *.
          destruct E as (E1 & E2 & E3 & E4 & E5). destruct (full (dr_bitmap d0)) eqn:FB0.
          - destruct E5 as (m & p & P1 & P2 & P3 & P4 & P5 & P6 & P7 & P8 & P9 & P10 & P11).
            assert (FB3 := FB0). unfold full in FB3. apply andb_true_iff in FB3.
            destruct (U11 m p P2) as (q & V1 & V2 & V3 & V4).
            destruct (Nat.eq_dec m n) as [->|Ne].
            + destruct (V4 eq_refl _ _ _ _ P10 ltac:(lia) ltac:(lia) ltac:(lia) ltac:(lia)) as (V5 & V6 & V7).
              split.
              * exists d0. split; [exact Pd0|]. unfold entry_is. cbn [fst snd]. rewrite FB0. repeat (split; [assumption|]).
                exists n, q. repeat (split; [solve [assumption|congruence|lia]|]). intros dx dy Hd. rewrite V7; [apply P11, Hd|]. destruct Hd. unfold in_rect. lia.
              * intros n0 I1 I2. cbn [i in_page in_x in_y in_w in_h] in *. rewrite P4, P5. exact V6.
            + rewrite V3 in * by exact Ne. split.
              * exists d0. split; [exact Pd0|]. unfold entry_is. cbn [fst snd]. rewrite FB0. repeat (split; [assumption|]). exists m, p. repeat (split; [solve [assumption|congruence|lia]|]). exact P11.
              * intros n0 I1 I2. cbn [i in_page] in I1. congruence.
          - split; [|intros n0 I1 I2; congruence]. exists d0. split; [exact Pd0|]. unfold entry_is. cbn [fst snd]. rewrite FB0. repeat (split; [assumption|]); exact E5. }
        split; [exact U2|]. split; cbn [at_cache at_pages].
        * constructor; [|apply Forall_forall; intros e He; apply OLD, He].
          exists d. split; [exact Pd|]. unfold entry_is. cbn [fst snd]. rewrite FB. cbn [i in_width in_height in_left in_top in_page in_w in_h in_x in_y].
          repeat (split; [reflexivity|]). exists n, p'. repeat (split; [solve [assumption|reflexivity|lia]|]). exact U10.
        * constructor; [|exact A3]. apply Forall_forall. intros e He. split; [apply OLD, He|]. intros E. symmetry in E. revert E. apply NK, He.
      + eexists _, _. split; [reflexivity|]. split; [|split; [|apply incl_tl, incl_refl]].
        * split; [exact A1|]. split; cbn [at_cache at_pages].
          -- constructor; [|exact A2]. exists d. split; [exact Pd|]. unfold entry_is. cbn [fst snd]. rewrite FB. cbn. auto.
          -- constructor; [|exact A3]. apply Forall_forall. intros e He. split; [intros n0 I1 I2; discriminate I1|]. intros E. symmetry in E. revert E. apply NK, He.
        * eexists. split; [left; reflexivity|]. cbn. repeat (split; [reflexivity|]). auto.
  Qed.
End packer.
Arguments told {key}.
Arguments atlas_ok pad {key}.
Arguments entry_ok pad {key}.
