From Coq Require Import Lqa.
From Verif Require Import Base UiModel UiSpec.
Set Implicit Arguments.

(** * Drawing *)
Lemma draw_all_ok D sz (qs : list (request D)) : forall seen g d,
  creates_new seen qs ->
  (forall p, d_pipeline d = Some p -> gl_program g = Some p /\ gl_size g p = Some sz) ->
  (forall t, d_texture d = Some t -> gl_texture g = Some t /\ In t seen) ->
  draw_all sz g d qs = wanted sz qs.
Proof.
  induction qs as [|[new tex pipe x] qs IH]; intros seen g d C P T; [reflexivity|].
  cbn [draw_all wanted flat_map q_texture q_pipeline q_data]. cbn [creates_new q_texture q_new] in C.
  destruct tex as [t|].
  2:{ unfold new_image; cbn [q_new q_texture]. replace (if new then g else g) with g by (destruct new; reflexivity). cbn. apply (IH seen); assumption. }
  destruct C as [F C].
  set (g0 := new_image g _).
  assert (G0 : gl_program g0 = gl_program g /\ gl_size g0 = gl_size g /\ gl_texture g0 = if new then Some t else gl_texture g).
  { subst g0. unfold new_image; cbn. destruct new; cbn; auto. }
  destruct G0 as (G1 & G2 & G3). clearbody g0.
  cbn [draw_rect].
  set (st1 := if match d_pipeline d with Some p => p =? pipe | None => false end then _ else _).
  destruct st1 as [g1 d1] eqn:E1.
  assert (S1 : d_pipeline d1 = Some pipe /\ gl_program g1 = Some pipe /\ gl_size g1 pipe = Some sz /\ d_texture d1 = d_texture d /\ gl_texture g1 = gl_texture g0).
  { subst st1. destruct (d_pipeline d) as [p|] eqn:Ed.
    - destruct (p =? pipe) eqn:Ep.
      + apply Nat.eqb_eq in Ep. subst p. injection E1 as <- <-. destruct (P _ eq_refl) as [P1 P2]. rewrite G1, G2. auto.
      + injection E1 as <- <-. cbn. rewrite Nat.eqb_refl. auto.
    - injection E1 as <- <-. cbn. rewrite Nat.eqb_refl. auto. }
  clear E1 st1. destruct S1 as (A1 & A2 & A3 & A4 & A5).
  set (st2 := if match d_texture d1 with Some t' => t' =? t | None => false end then _ else _).
  destruct st2 as [g2 d2] eqn:E2.
  assert (S2 : d_pipeline d2 = Some pipe /\ gl_program g2 = Some pipe /\ gl_size g2 pipe = Some sz /\ d_texture d2 = Some t /\ gl_texture g2 = Some t).
  { subst st2. rewrite A4 in E2. destruct (d_texture d) as [t'|] eqn:Ed.
    - destruct (t' =? t) eqn:Et.
      + apply Nat.eqb_eq in Et. subst t'. injection E2 as <- <-. destruct (T _ eq_refl) as [T1 T2].
        destruct new; [exfalso; apply F; auto|]. rewrite A4, A5, G3, T1. auto.
      + injection E2 as <- <-. cbn. auto.
    - injection E2 as <- <-. cbn. auto. }
  clear E2 st2. destruct S2 as (B1 & B2 & B3 & B4 & B5).
  rewrite B2, B5, B3. cbn [app]. f_equal. apply (IH (t :: seen)); [exact C| |].
  - intros p Hp. rewrite B1 in Hp. injection Hp as <-. auto.
  - intros t' Ht. rewrite B4 in Ht. injection Ht as <-. split; [exact B5|left; reflexivity].
Qed.

(** * Focus and clicks *)
Lemma ui_run_app es : forall u e, ui_run u (es ++ [e]) =
  let '(u, ns, cs) := ui_run u es in let '(u, ns', cs') := ui_step u e in (u, ns ++ ns', cs ++ cs').
Proof.
  induction es as [|a es IH]; intros u e; cbn [app ui_run].
  - destruct (ui_step u e) as [[? ?] ?]. rewrite !app_nil_r. reflexivity.
  - destruct (ui_step u a) as [[u1 n1] c1]. rewrite IH. destruct (ui_run u1 es) as [[u2 n2] c2].
    destruct (ui_step u2 e) as [[u3 n3] c3]. rewrite !app_assoc. reflexivity.
Qed.

Definition ui_inv (u : ui) (es : list event) : Prop :=
  (forall o, u_live u o = true <-> exists_after es o) /\
  locked u = focus_after es /\
  (forall o, exists_after es o -> u_flag u o = match focus_after es with Some p => (p =? o)%nat | None => false end) /\
  (forall pos now, (0 <= pos < 4294967295)%Z ->
     (if (pos =? u_pos u)%Z && Qle_bool (now - u_time u) (1 # 2) then wrap32 (u_count u + 1) else 0%Z) = Z.modulo (clicks_before pos now es) (2 ^ 32)).

Lemma focus_exists es o : focus_after es = Some o -> sane es -> exists_after es o.
Proof.
  unfold exists_after. induction es as [|e es IH]; cbn; [discriminate|]. intros H S. destruct e as [[p|]| |pos now|p]; cbn in S.
  - injection H as ->. destruct S as [S _]. intros [X|X]; [discriminate|apply S, X].
  - discriminate.
  - discriminate.
  - intros [X|X]; [discriminate|]. revert X. apply IH; assumption.
  - destruct (focus_after es) as [q|] eqn:F; [|discriminate]. destruct (Nat.eqb_spec q p) as [E|E]; [discriminate|]. injection H as <-.
    intros [X|X]; [injection X as <-; congruence|]. revert X. apply IH; [reflexivity|assumption].
Qed.

Lemma locked_flag u b o : locked (with_flag u o b) = locked u.
Proof. reflexivity. Qed.

Lemma release_ok u es : ui_inv u es -> sane es -> let '(v, ns) := release_focused u in
  u_live v = u_live u /\ u_focus v = None /\ u_count v = 0%Z /\ u_pos v = invalid_pos /\ ns = change (focus_after es) None /\
  (forall o, exists_after es o -> u_flag v o = false).
Proof.
  intros (L & F & G & _) S. unfold release_focused. rewrite F. destruct (focus_after es) as [o|] eqn:E; cbn.
  - repeat split. intros p Hp. rewrite (G _ Hp). rewrite (Nat.eqb_sym o p). destruct (p =? o)%nat; reflexivity.
  - repeat split. intros p Hp. apply G, Hp.
Qed.

Lemma fresh_clicks now t (pos c : Z) : (0 <= pos < 4294967295)%Z ->
  (if (pos =? invalid_pos)%Z && Qle_bool (now - t) (1 # 2) then wrap32 (c + 1) else 0%Z) = 0%Z.
Proof. intros H. unfold invalid_pos. destruct (Z.eqb_spec pos 4294967295); [lia|reflexivity]. Qed.

Lemma exists_cons_ne e es o : (forall p, e <> Destroy p) -> (exists_after (e :: es) o <-> exists_after es o).
Proof. intros N. unfold exists_after. cbn. split; [tauto|]. intros H [X|X]; [apply (N o), X|tauto]. Qed.

Lemma clicks_before_nonneg es : forall pos now, (0 <= clicks_before pos now es)%Z.
Proof.
  induction es as [|e es IH]; intros pos now; cbn; [lia|]. destruct e as [[o|]| |p t|o]; try apply IH; try reflexivity.
  - destruct (focus_after es) as [q|]; [destruct (q =? o)%nat|]; try reflexivity; apply IH.
  - destruct (_ && _); [specialize (IH pos t); lia|reflexivity].
Qed.

Lemma ui_step_ok u es e : ui_inv u es -> sane (e :: es) -> clicks_valid [e] ->
  let '(v, ns, cs) := ui_step u e in
  ui_inv v (e :: es) /\ ns = (match e with Destroy _ => [] | _ => change (focus_after es) (focus_after (e :: es)) end) /\
  cs = (match e with Click pos now => [Z.modulo (clicks_before pos now es) (2 ^ 32)] | _ => [] end).
Proof.
  intros I S V. assert (S' : sane es) by (destruct e as [[o|]| | |]; cbn in S; tauto).
  assert (RL : let '(v, ns) := release_focused u in forall e, e = Press None \/ e = Release ->
     ui_inv v (e :: es) /\ ns = change (focus_after es) None).
  { pose proof (release_ok I S') as R. destruct (release_focused u) as [v ns]. destruct R as (R1 & R2 & R3 & R4 & R5 & R6).
    intros e' He. split; [|exact R5]. destruct I as (L & F & G & K).
    assert (N : forall p, e' <> Destroy p) by (destruct He; subst; discriminate).
    split; [|split; [|split]].
    - intros o. rewrite exists_cons_ne by exact N. rewrite R1. apply L.
    - unfold locked. rewrite R2. destruct He; subst; reflexivity.
    - intros o Ho. apply exists_cons_ne in Ho; [|exact N]. rewrite (R6 _ Ho). destruct He; subst; reflexivity.
    - intros pos now Hp. rewrite R4. rewrite fresh_clicks by exact Hp. destruct He; subst; reflexivity. }
  destruct e as [[o|]| |pos now|o]; cbn [ui_step].
  - (* focus *)
    cbn [sane] in S. destruct S as [So _].
    unfold focus_object. pose proof I as (L & F & G & K). rewrite F.
    assert (N : forall p, Press (Some o) <> Destroy p) by discriminate.
    destruct (match focus_after es with Some p => (p =? o)%nat | None => false end) eqn:E.
    + destruct (focus_after es) as [p|] eqn:Fp; [|discriminate]. apply Nat.eqb_eq in E. subst p.
      split; [|split; [cbn; rewrite Nat.eqb_refl; reflexivity|reflexivity]].
      split; [|split; [|split]].
      * intros q. rewrite exists_cons_ne by exact N. apply L.
      * exact F.
      * intros q Hq. apply exists_cons_ne in Hq; [|exact N]. cbn. apply G, Hq.
      * intros pos now Hp. rewrite (K _ _ Hp). cbn. rewrite Fp, Nat.eqb_refl. reflexivity.
    + pose proof (release_ok I S') as R. destruct (release_focused u) as [v ns]. destruct R as (R1 & R2 & R3 & R4 & R5 & R6).
      split; [|split; [|reflexivity]].
      * split; [|split; [|split]].
        -- intros q. rewrite exists_cons_ne by exact N. cbn. rewrite R1. apply L.
        -- unfold locked. cbn. rewrite R1. rewrite (proj2 (L o) So). reflexivity.
        -- intros q Hq. apply exists_cons_ne in Hq; [|exact N]. cbn. rewrite (Nat.eqb_sym o q). destruct (q =? o)%nat; [reflexivity|]. apply R6, Hq.
        -- intros pos now Hp. cbn [u_pos u_count with_flag]. rewrite R4, fresh_clicks by exact Hp. cbn.
           destruct (focus_after es) as [p|]; [rewrite E|]; reflexivity.
      * rewrite R5. cbn. destruct (focus_after es) as [p|]; [idtac|]; cbn in E |- *; rewrite ?E; reflexivity.
  - destruct (release_focused u) as [v ns]. destruct (RL (Press None)) as [R1 R2]; [left; reflexivity|]. split; [exact R1|split; [exact R2|reflexivity]].
  - destruct (release_focused u) as [v ns]. destruct (RL Release) as [R1 R2]; [right; reflexivity|]. split; [exact R1|split; [exact R2|reflexivity]].
  - unfold text_box_click. pose proof I as (L & F & G & K). inversion V as [|? ? V' _]. subst.
    rewrite (K _ _ V'). assert (N : forall p, Click pos now <> Destroy p) by discriminate.
    split; [|split; [|reflexivity]].
    + split; [|split; [|split]].
      * intros q. rewrite exists_cons_ne by exact N. apply L.
      * exact F.
      * intros q Hq. apply exists_cons_ne in Hq; [|exact N]. cbn. apply G, Hq.
      * intros p' t Hp. cbn. destruct ((p' =? pos)%Z && Qle_bool (t - now) (1 # 2)) eqn:E; [|reflexivity].
        apply andb_true_iff in E. destruct E as [E _]. apply Z.eqb_eq in E. subst p'.
        unfold wrap32. pose proof (clicks_before_nonneg es pos now). rewrite Zplus_mod_idemp_l. f_equal. lia.
    + cbn. unfold change. destruct (focus_after es) as [p|]; [rewrite Nat.eqb_refl|]; reflexivity.
  - pose proof I as (L & F & G & K). split; [|split; reflexivity].
    split; [|split; [|split]].
    + intros q. cbn. unfold exists_after. cbn. destruct (Nat.eqb_spec q o) as [->|E]; [split; [discriminate|tauto]|].
      rewrite L. unfold exists_after. split; [|tauto]. intros H [X|X]; [congruence|tauto].
    + cbn. rewrite <- F. unfold locked. cbn. destruct (u_focus u) as [p|]; [|reflexivity].
      destruct (Nat.eqb_spec p o) as [->|E]; [destruct (u_live u o); [rewrite Nat.eqb_refl|]; reflexivity|].
      destruct (u_live u p); [|reflexivity]. destruct (Nat.eqb_spec p o); [congruence|reflexivity].
    + intros q Hq. cbn. assert (Hq' : exists_after es q /\ q <> o) by (unfold exists_after in *; cbn in Hq; split; [tauto|intros ->; tauto]).
      destruct Hq' as [H1 H2]. rewrite (G _ H1). destruct (focus_after es) as [p|]; [|reflexivity].
      destruct (Nat.eqb_spec p o) as [->|E]; [|reflexivity]. destruct (Nat.eqb_spec o q); [congruence|reflexivity].
    + intros pos now Hp. cbn. apply K, Hp.
Qed.

Lemma ui_run_ok es : sane (rev es) -> clicks_valid es ->
  let '(v, ns, cs) := ui_run ui_start es in ui_inv v (rev es) /\ ns = notes_of (rev es) /\ cs = click_counts (rev es).
Proof.
  induction es as [|e es IH] using rev_ind; intros S V.
  - cbn. split; [|split; reflexivity]. split; [|split; [|split]].
    + intros o. split; [intros _ []|reflexivity].
    + reflexivity.
    + reflexivity.
    + intros pos now Hp. cbn [ui_start u_pos u_time u_count]. rewrite fresh_clicks by exact Hp. reflexivity.
  - rewrite ui_run_app. rewrite rev_unit in *. apply Forall_app in V. destruct V as [V1 V2].
    assert (S' : sane (rev es)) by (destruct e as [[o|]| | |]; cbn in S; tauto).
    specialize (IH S' V1). destruct (ui_run ui_start es) as [[u ns] cs]. destruct IH as (I & -> & ->).
    pose proof (ui_step_ok I S V2) as T. destruct (ui_step u e) as [[v ns'] cs']. destruct T as (T1 & -> & ->).
    split; [exact T1|]. destruct e as [[o|]| |pos now|o]; cbn [notes_of click_counts]; rewrite ?app_nil_r; auto.
Qed.

(** * Menus *)
Fixpoint laid (a : Q) (names : list nat) (ms : list menu) : Prop :=
  match names, ms with
  | [], [] => True
  | n :: names, m :: ms => m_left m = a /\ m_width m = (10 * inject_Z (Z.of_nat n))%Q /\ laid (a + 10 * inject_Z (Z.of_nat n))%Q names ms
  | _, _ => False
  end.

Lemma laid_app a names ms n m : laid a names ms -> m_left m = fold_left (fun a m => a + m_width m)%Q ms a ->
  m_width m = (10 * inject_Z (Z.of_nat n))%Q -> laid a (names ++ [n]) (ms ++ [m]).
Proof.
  revert a ms. induction names as [|k names IH]; intros a [|m' ms]; cbn; try tauto.
  intros (H1 & H2 & H3) L W. split; [exact H1|]. split; [exact H2|]. apply IH; [exact H3| |exact W]. rewrite L, H2. reflexivity.
Qed.

Lemma make_bar_laid width names : let b := make_bar width names in
  b_width b = width /\ b_open b = false /\ laid 0 names (b_menus b) /\ Forall (fun m => m_open m = false) (b_menus b).
Proof.
  cbv zeta. unfold make_bar. induction names as [|n names IH] using rev_ind; [cbn; auto|].
  rewrite fold_left_app. cbn [fold_left]. set (b := fold_left _ _ _) in *. destruct IH as (W & O & L & F). unfold add_menu; cbn.
  split; [exact W|]. split; [exact O|]. split; [|apply Forall_app; split; [exact F|repeat constructor]].
  apply laid_app; [exact L|reflexivity|reflexivity].
Qed.

Lemma in_menu_iff x y m : in_menu x y m = true <-> (m_left m <= x /\ 0 <= y /\ x - m_left m <= m_width m /\ y - 0 <= 19)%Q.
Proof. unfold in_menu, inside. rewrite !andb_true_iff, !Qle_bool_iff. tauto. Qed.

Lemma width_nonneg n : (0 <= 10 * inject_Z (Z.of_nat n))%Q.
Proof. assert (0 <= inject_Z (Z.of_nat n))%Q by (change 0%Q with (inject_Z 0); rewrite <- Zle_Qle; lia). lra. Qed.

Lemma laid_right x y names : forall a ms m, laid a names ms -> In m ms -> in_menu x y m = true -> (a <= x)%Q.
Proof.
  induction names as [|n names IH]; intros a [|m' ms] m L I H; cbn in L; try tauto; try destruct I.
  - subst m'. destruct L as (L1 & L2 & L3). apply in_menu_iff in H. rewrite L1 in H. tauto.
  - destruct L as (L1 & L2 & L3). specialize (IH _ _ _ L3 H0 H). pose proof (width_nonneg n). lra.
Qed.

Lemma menus_apart x y names : forall a ms i j m m', laid a names ms -> Forall (fun e => ~ x == e)%Q (removelast (edges a names)) ->
  nth_error ms i = Some m -> nth_error ms j = Some m' -> in_menu x y m = true -> in_menu x y m' = true -> i = j.
Proof.
  induction names as [|n names IH]; intros a [|h ms] i j m m' L E Hi Hj Im Ij; cbn in L; try tauto; [destruct i; discriminate|].
  destruct L as (L1 & L2 & L3).
  assert (E' : Forall (fun e => ~ x == e)%Q (removelast (edges (a + 10 * inject_Z (Z.of_nat n)) names))).
  { cbn [edges] in E. destruct names as [|n' names]; [constructor|]. cbn [edges] in E |- *. cbn [removelast] in E |- *. inversion E; subst; assumption. }
  assert (X : forall q, In q ms -> in_menu x y h = true -> in_menu x y q = true -> False).
  { intros q Iq Hh Hq. pose proof (@laid_right x y names _ _ _ L3 Iq Hq) as R. apply in_menu_iff in Hh. rewrite L1, L2 in Hh.
    destruct names as [|n' names]; [destruct ms; [destruct Iq|destruct L3]|].
    cbn [edges] in E. inversion E as [|? ? Hx _]; subst. apply Hx. lra. }
  destruct i as [|i], j as [|j]; cbn in Hi, Hj.
  - reflexivity.
  - injection Hi as <-. exfalso. eapply X; [eapply nth_error_In, Hj|exact Im|exact Ij].
  - injection Hj as <-. exfalso. eapply X; [eapply nth_error_In, Hi|exact Ij|exact Im].
  - f_equal. eapply IH; eassumption.
Qed.

Lemma first_index_spec A (f : A -> bool) l : match first_index f l with
  | Some i => exists a, nth_error l i = Some a /\ f a = true
  | None => forall a, In a l -> f a = false end.
Proof.
  induction l as [|a l IH]; cbn; [intros a []|]. destruct (f a) eqn:E; [exists a; cbn; auto|].
  destruct (first_index f l) as [i|]; cbn; [exact IH|]. intros b [<-|Hb]; [exact E|apply IH, Hb].
Qed.
Lemma last_index_spec A (f : A -> bool) l : match last_index f l with
  | Some i => exists a, nth_error l i = Some a /\ f a = true
  | None => forall a, In a l -> f a = false end.
Proof.
  unfold last_index. pose proof (first_index_spec f (rev l)) as H. destruct (first_index f (rev l)) as [i|]; cbn.
  - destruct H as (a & H & Fa). exists a. split; [|exact Fa]. assert (Hi : i < length l) by (rewrite <- rev_length; apply nth_error_Some; congruence).
    rewrite <- H. rewrite (nth_error_nth' _ a) by lia. rewrite (nth_error_nth' (rev l) a) by (rewrite rev_length; lia).
    rewrite rev_nth by lia. do 2 f_equal. lia.
  - intros a Ha. apply H. apply -> in_rev. exact Ha.
Qed.

(** Exactly the menu [k] is open. *)
Definition only (k : nat) (ms : list menu) : Prop :=
  k < length ms /\ forall j m, nth_error ms j = Some m -> m_open m = (j =? k).

Definition bar_inv (names : list nat) (width : Q) (b : bar) (x y : Q) : Prop :=
  b_width b = width /\ laid 0 names (b_menus b) /\
  (b_open b = false -> Forall (fun m => m_open m = false) (b_menus b)) /\
  (b_open b = true -> exists k, only k (b_menus b) /\ forall j m, nth_error (b_menus b) j = Some m -> in_menu x y m = true -> j = k).

Lemma laid_set ms' names : forall a ms, laid a names ms -> length ms' = length ms ->
  (forall j m m', nth_error ms j = Some m -> nth_error ms' j = Some m' -> m_left m' = m_left m /\ m_width m' = m_width m) -> laid a names ms'.
Proof.
  revert ms'. induction names as [|n names IH]; intros [|m' ms'] a [|m ms] L Len H; cbn in *; try tauto; try discriminate.
  destruct L as (L1 & L2 & L3). destruct (H 0 m m' eq_refl eq_refl) as [E1 E2]. rewrite E1, E2.
  split; [exact L1|]. split; [exact L2|]. eapply IH; [exact L3|lia|]. intros j. exact (H (S j)).
Qed.

Lemma in_menu_geom x y m m' : m_left m' = m_left m -> m_width m' = m_width m -> in_menu x y m' = in_menu x y m.
Proof. intros E1 E2. unfold in_menu. rewrite E1, E2. reflexivity. Qed.

Lemma nth_open_only A (ms : list A) (f : nat -> A -> A) j m : nth_error (map (fun '(j, m) => f j m) (combine (seq 0 (length ms)) ms)) j = Some m ->
  exists m0, nth_error ms j = Some m0 /\ m = f j m0.
Proof.
  intros H. rewrite nth_error_map in H. destruct (nth_error (combine _ ms) j) as [[k m0]|] eqn:E; [|discriminate]. cbn in H. injection H as <-.
  assert (C : forall (l : list A) s i p, nth_error (combine (seq s (length l)) l) i = Some p -> fst p = s + i /\ nth_error l i = Some (snd p)).
  { clear. induction l as [|a l IH]; intros s i p; cbn; [destruct i; discriminate|]. destruct i; cbn.
    - intros H. injection H as <-. cbn. split; [lia|reflexivity].
    - intros H. destruct (IH _ _ _ H) as [H1 H2]. split; [lia|exact H2]. }
  destruct (C _ _ _ _ E) as [H1 H2]. cbn in H1, H2. subst k. exists m0. auto.
Qed.

Lemma move_inv names width b x y x' y' : bar_inv names width b x y -> off_edges names x' -> Forall (fun e => e <= width)%Q (edges 0 names) ->
  bar_inv names width (bar_move b x' y') x' y'.
Proof.
  intros (W & L & C & O) E Fit. unfold bar_move. destruct (b_open b) eqn:Bo; cbn [andb].
  2:{ split; [exact W|]. split; [exact L|]. rewrite Bo. split; [exact C|discriminate]. }
  destruct (O eq_refl) as (k & K & U).
  assert (Out : inside 0 (b_width b) 20 x' y' = false -> forall m, In m (b_menus b) -> in_menu x' y' m = false).
  { intros H m Im. destruct (in_menu x' y' m) eqn:Hm; [|reflexivity]. exfalso. rewrite <- not_true_iff_false in H. apply H. clear H.
    pose proof (@laid_right x' y' names _ _ _ L Im Hm) as R. apply in_menu_iff in Hm.
    assert (Rt : (m_left m + m_width m <= width)%Q).
    { clear - L Im Fit. revert L Fit Im. generalize (b_menus b). generalize 0%Q. induction names as [|n ns IH]; intros a [|m' ms] L Fit Im; cbn in L; try tauto; try destruct Im.
      - subst m'. destruct L as (-> & -> & _). cbn in Fit. inversion Fit; subst; assumption.
      - destruct L as (_ & _ & L). cbn in Fit. inversion Fit; subst. eapply IH; eassumption. }
    unfold inside. rewrite W. rewrite !andb_true_iff, !Qle_bool_iff. lra. }
  assert (Same : (forall m, In m (b_menus b) -> in_menu x' y' m = false) -> bar_inv names width b x' y').
  { intros N. split; [exact W|]. split; [exact L|]. rewrite Bo. split; [discriminate|]. intros _. exists k. split; [exact K|].
    intros j m Hj Hm. rewrite (N m (nth_error_In _ _ Hj)) in Hm. discriminate. }
  destruct (inside 0 (b_width b) 20 x' y') eqn:In_; [|apply Same, Out; reflexivity].
  pose proof (first_index_spec (in_menu x' y') (b_menus b)) as FI. destruct (first_index _ _) as [i|]; [|apply Same, FI].
  destruct FI as (mi & Hi & Hmi).
  assert (Nth : forall j m, nth_error (map (fun '(j, m) => set_open m (j =? i)) (combine (seq 0 (length (b_menus b))) (b_menus b))) j = Some m ->
     exists m0, nth_error (b_menus b) j = Some m0 /\ m = set_open m0 (j =? i)).
  { intros j m H. exact (@nth_open_only _ (b_menus b) (fun j m => set_open m (j =? i)) _ _ H). }
  split; [exact W|]. cbn [b_menus b_open b_width]. split; [|split; [discriminate|]].
  - eapply laid_set; [exact L| |].
    + rewrite map_length, combine_length, seq_length. lia.
    + intros j m m' H1 H2. destruct (Nth _ _ H2) as (m0 & H3 & ->). rewrite H1 in H3. injection H3 as <-. auto.
  - intros _. exists i. split.
    + split; [rewrite map_length, combine_length, seq_length; assert (i < length (b_menus b)) by (apply nth_error_Some; congruence); lia|].
      intros j m H. destruct (Nth _ _ H) as (m0 & _ & ->). reflexivity.
    + intros j m H Hm. destruct (Nth _ _ H) as (m0 & H0 & ->). rewrite (@in_menu_geom _ _ m0) in Hm by reflexivity.
      eapply menus_apart; [exact L|exact E|exact H0|exact Hi|exact Hm|exact Hmi].
Qed.

Lemma nth_error_set A (l : list A) i x j : i < length l -> nth_error (list_set l i x) j = if j =? i then Some x else nth_error l j.
Proof.
  revert i j. induction l as [|a l IH]; intros i j H; cbn in *; [lia|]. destruct i as [|i], j as [|j]; cbn; try reflexivity. apply IH. lia.
Qed.
Lemma set_len A (l : list A) i x : length (list_set l i x) = length l.
Proof. revert i. induction l as [|a l IH]; intros [|i]; cbn; auto. Qed.

Lemma press_inv names width b x y : bar_inv names width b x y -> off_edges names x -> bar_inv names width (bar_press b x y) x y.
Proof.
  intros (W & L & C & O) E. unfold bar_press. pose proof (last_index_spec (in_menu x y) (b_menus b)) as LI.
  destruct (last_index _ _) as [i|]; [|split; [exact W|split; [exact L|split; [exact C|exact O]]]].
  destruct LI as (mi & Hi & Hmi). rewrite Hi. assert (Li : i < length (b_menus b)) by (apply nth_error_Some; congruence).
  split; [exact W|]. cbn [b_menus b_open b_width].
  split; [|split].
  - eapply laid_set; [exact L|apply set_len|]. intros j m m' H1 H2. rewrite nth_error_set in H2 by exact Li.
    destruct (Nat.eqb_spec j i) as [->|]; [injection H2 as <-; rewrite Hi in H1; injection H1 as <-; auto|]. rewrite H1 in H2. injection H2 as <-. auto.
  - intros B. apply negb_false_iff in B. destruct (O B) as (k & [K1 K2] & U). pose proof (U _ _ Hi Hmi). subst k.
    apply Forall_forall. intros m Im. destruct (In_nth_error _ _ Im) as [j Hj]. rewrite nth_error_set in Hj by exact Li.
    destruct (j =? i) eqn:N; [injection Hj as <-; cbn; rewrite B; reflexivity|]. rewrite (K2 _ _ Hj). exact N.
  - intros B. apply negb_true_iff in B. specialize (C B). exists i. split.
    + split; [rewrite set_len; exact Li|]. intros j m Hj. rewrite nth_error_set in Hj by exact Li.
      destruct (j =? i) eqn:N; [injection Hj as <-; cbn; rewrite B; reflexivity|].
      rewrite Forall_forall in C. apply C. eapply nth_error_In, Hj.
    + intros j m Hj Hm. rewrite nth_error_set in Hj by exact Li. destruct (Nat.eqb_spec j i) as [->|N]; [reflexivity|].
      eapply menus_apart; [exact L|exact E|exact Hj|exact Hi|exact Hm|exact Hmi].
Qed.

Lemma bar_run_inv names width es : Forall (fun e => e <= width)%Q (edges 0 names) -> forall b x y, bar_inv names width b x y -> off_edges names x ->
  Forall (fun e => match e with Moved x _ => off_edges names x | Pressed => True end) es ->
  exists x' y', bar_inv names width (bar_run b x y es) x' y'.
Proof.
  intros Fit. induction es as [|e es IH]; intros b x y I E F; [exists x, y; exact I|]. inversion F as [|? ? F1 F2]; subst. destruct e as [x' y'|]; cbn [bar_run].
  - apply IH; [eapply move_inv; eassumption|exact F1|exact F2].
  - apply IH; [eapply press_inv; eassumption|exact E|exact F2].
Qed.

Lemma only_count k ms : only k ms -> length (filter m_open ms) = 1.
Proof.
  revert k. induction ms as [|m ms IH]; intros k [H1 H2]; cbn in *; [lia|]. pose proof (H2 0 m eq_refl) as E. destruct k as [|k]; cbn in E; rewrite E.
  - cbn. f_equal. assert (F : Forall (fun m => m_open m = false) ms).
    { apply Forall_forall. intros q Iq. destruct (In_nth_error _ _ Iq) as [j Hj]. apply (H2 (S j) q Hj). }
    clear - F. induction F as [|q l Hq F IH]; cbn; [reflexivity|]. rewrite Hq. exact IH.
  - apply (IH k). split; [lia|]. intros j q Hj. apply (H2 (S j) q Hj).
Qed.
Lemma none_count ms : Forall (fun m => m_open m = false) ms -> length (filter m_open ms) = 0.
Proof. induction 1 as [|q l Hq F IH]; cbn; [reflexivity|]. rewrite Hq. exact IH. Qed.

Lemma bar_inv_count names width b x y : bar_inv names width b x y -> open_menus b = if b_open b then 1 else 0.
Proof.
  intros (_ & _ & C & O). unfold open_menus. destruct (b_open b).
  - destruct (O eq_refl) as (k & K & _). eapply only_count, K.
  - apply none_count, C. reflexivity.
Qed.

(** Which menu is open. *)
Lemma menu_at_first x y names : forall a ms, laid a names ms -> menu_at a names x y = first_index (in_menu x y) ms.
Proof.
  induction names as [|n names IH]; intros a [|m ms] L; cbn in L; try contradiction; [reflexivity|]. destruct L as (L1 & L2 & L3). cbn [menu_at first_index].
  rewrite <- (IH _ _ L3). replace (in_menu x y m) with (Qle_bool a x && Qle_bool x (a + 10 * inject_Z (Z.of_nat n)) && Qle_bool 0 y && Qle_bool y 19)%Q; [reflexivity|].
  apply eq_true_iff_eq. rewrite in_menu_iff, !andb_true_iff, !Qle_bool_iff, L1, L2. split; intros H; repeat split; lra.
Qed.
Lemma last_first x y names ms : laid 0 names ms -> off_edges names x -> last_index (in_menu x y) ms = first_index (in_menu x y) ms.
Proof.
  intros L E. pose proof (last_index_spec (in_menu x y) ms) as A. pose proof (first_index_spec (in_menu x y) ms) as B.
  destruct (last_index _ _) as [i|], (first_index _ _) as [j|]; [|exfalso|exfalso|reflexivity].
  - destruct A as (m & A1 & A2), B as (m' & B1 & B2). f_equal. eapply menus_apart; [exact L|exact E|exact A1|exact B1|exact A2|exact B2].
  - destruct A as (m & A1 & A2). apply nth_error_In in A1. rewrite (B _ A1) in A2. discriminate.
  - destruct B as (m & A1 & A2). apply nth_error_In in A1. rewrite (A _ A1) in A2. discriminate.
Qed.
Definition shows (b : bar) (o : option nat) : Prop :=
  match o with Some k => b_open b = true /\ only k (b_menus b) | None => b_open b = false end.
Lemma only_same k k' ms : only k ms -> only k' ms -> k = k'.
Proof. intros [L H] [L' H']. destruct (nth_error ms k) as [m|] eqn:E; [|apply nth_error_None in E; lia]. pose proof (H k m E) as A. rewrite (H' k m E), Nat.eqb_refl in A. apply Nat.eqb_eq. exact A. Qed.
Lemma move_shows names width b x y x' y' o : bar_inv names width b x y -> off_edges names x' -> Forall (fun e => e <= width)%Q (edges 0 names) -> shows b o ->
  shows (bar_move b x' y') (match o, menu_at 0 names x' y' with Some _, Some j => Some j | _, _ => o end).
Proof.
  intros I E Fit S. pose proof (@move_inv _ _ _ _ _ x' y' I E Fit) as I'. destruct I as (W & L & C & O). rewrite (@menu_at_first _ _ _ _ _ L). unfold bar_move in *.
  destruct o as [k|]; cbn [shows] in *; [|rewrite S in *; cbn [andb] in *; exact S]. destruct S as [Bo K]. rewrite Bo in *. cbn [andb] in *.
  pose proof (first_index_spec (in_menu x' y') (b_menus b)) as FI. destruct (inside 0 (b_width b) 20 x' y') eqn:In_.
  - destruct (first_index (in_menu x' y') (b_menus b)) as [i|]; cbn [shows]; [|split; [exact Bo|exact K]]. destruct FI as (mi & Hi & Hm). split; [reflexivity|].
    destruct I' as (_ & _ & _ & O'). destruct (O' eq_refl) as (k' & K' & U). cbn [b_menus] in *.
    assert (Len : length (map (fun '(j, m) => set_open m (j =? i)) (combine (seq 0 (length (b_menus b))) (b_menus b))) = length (b_menus b)) by (rewrite map_length, combine_length, seq_length; lia).
    assert (Li : i < length (b_menus b)) by (apply nth_error_Some; congruence).
    destruct (nth_error (map (fun '(j, m) => set_open m (j =? i)) (combine (seq 0 (length (b_menus b))) (b_menus b))) i) as [m|] eqn:N; [|apply nth_error_None in N; lia].
    destruct (@nth_open_only _ (b_menus b) (fun j m => set_open m (j =? i)) _ _ N) as (m0 & N0 & Em). rewrite Hi in N0. injection N0 as <-.
    assert (EI : k' = i) by (symmetry; apply (U i m N); rewrite Em, (@in_menu_geom _ _ mi) by reflexivity; exact Hm). rewrite EI in K'. exact K'.
  - destruct (first_index (in_menu x' y') (b_menus b)) as [i|]; cbn [shows]; [|split; [exact Bo|exact K]]. exfalso. destruct FI as (mi & Hi & Hm).
    apply nth_error_In in Hi. rewrite <- not_true_iff_false in In_. apply In_. pose proof (@laid_right x' y' names _ _ _ L Hi Hm) as R. apply in_menu_iff in Hm.
    assert (Rt : (m_left mi + m_width mi <= width)%Q).
    { clear - L Hi Fit. revert L Fit Hi. generalize (b_menus b). generalize 0%Q. induction names as [|n ns IH]; intros a [|m' ms] L Fit Im; cbn in L; try tauto; try destruct Im.
      - subst m'. destruct L as (-> & -> & _). cbn in Fit. inversion Fit; subst; assumption.
      - destruct L as (_ & _ & L). cbn in Fit. inversion Fit; subst. eapply IH; eassumption. }
    unfold inside. rewrite W. rewrite !andb_true_iff, !Qle_bool_iff. lra.
Qed.
Lemma press_shows names width b x y o : bar_inv names width b x y -> off_edges names x -> shows b o ->
  shows (bar_press b x y) (match menu_at 0 names x y, o with None, _ => o | Some j, None => Some j | Some _, Some _ => None end).
Proof.
  intros I E S. pose proof (@press_inv _ _ _ _ _ I E) as I'. destruct I as (W & L & C & O). rewrite (@menu_at_first _ _ _ _ _ L), <- (@last_first _ y _ _ L E). unfold bar_press in *.
  pose proof (last_index_spec (in_menu x y) (b_menus b)) as LI. destruct (last_index _ _) as [i|]; [|exact S]. destruct LI as (mi & Hi & Hm).
  destruct o as [k|]; cbn [shows] in *; [destruct S as [S _]; rewrite S; reflexivity|]. rewrite S in *. rewrite Hi in *. split; [reflexivity|].
  destruct I' as (_ & _ & _ & O'). destruct (O' eq_refl) as (k' & K' & U). cbn [b_menus negb] in *. assert (Li : i < length (b_menus b)) by (apply nth_error_Some; congruence).
  assert (EI : k' = i) by (symmetry; apply (U i (set_open mi true)); [rewrite nth_error_set, Nat.eqb_refl by exact Li; reflexivity|exact Hm]). rewrite EI in K'. exact K'.
Qed.
Lemma run_shows names width es : Forall (fun e => e <= width)%Q (edges 0 names) -> forall b x y o, bar_inv names width b x y -> off_edges names x -> shows b o ->
  Forall (fun e => match e with Moved x _ => off_edges names x | Pressed => True end) es ->
  shows (bar_run b x y es) (menu_open names o x y es).
Proof.
  intros Fit. induction es as [|e es IH]; intros b x y o I E S F; [exact S|]. inversion F as [|? ? F1 F2]; subst. destruct e as [x' y'|]; cbn [bar_run menu_open].
  - apply IH; [eapply move_inv; eassumption|exact F1|eapply move_shows; eassumption|exact F2].
  - apply IH; [eapply press_inv; eassumption|exact E|eapply press_shows; eassumption|exact F2].
Qed.
Lemma laid_length names : forall a ms, laid a names ms -> length ms = length names.
Proof. induction names as [|n names IH]; intros a [|m ms] L; cbn in L; try tauto. cbn. f_equal. eapply IH. apply L. Qed.
Lemma only_map k : forall ms, only k ms -> map m_open ms = map (fun j => j =? k) (seq 0 (length ms)).
Proof.
  intros ms [_ H]. apply nth_ext with (d := false) (d' := false); [rewrite !map_length, seq_length; reflexivity|]. intros j J. rewrite map_length in J.
  destruct (nth_error ms j) as [m|] eqn:E; [|apply nth_error_None in E; lia]. rewrite (nth_indep _ false (m_open m)) by (rewrite map_length; lia). rewrite map_nth, (nth_error_nth _ _ m E), (H j m E).
  rewrite (nth_indep _ false (0 =? k)) by (rewrite map_length, seq_length; lia). rewrite (map_nth (fun j => j =? k)), seq_nth by lia. reflexivity.
Qed.
