(** The text box does what its specification says. *)
From Coq Require Import ZifyBool ZifyNat.
From Verif Require Import Base BaseFacts FloatModel PackingModel PackingProofs LayoutModel LayoutSpec CursorModel CursorSpec CursorProofs CursorProps
  TextBoxModel TextBoxSpec TextBoxLayoutProofs TextBoxUtfProofs.
Open Scope Z_scope.

Lemma valid_small c n : cp_get_position c <= n -> n < 2 ^ 31 - 1 -> cp_is_valid c = true.
Proof.
  intros C N. unfold cp_is_valid. destruct (Z.eqb_spec c invalid_value) as [->|]; [|reflexivity].
  exfalso. assert (cp_get_position invalid_value = 2 ^ 31 - 1) by reflexivity. lia.
Qed.
Lemma substr_ok t i n : 0 <= i <= size t -> substr t i n = Ok (before (after t i) n).
Proof. unfold substr, size. intros H. destruct (Z.ltb_spec (Z.of_nat (length t)) i); [lia|reflexivity]. Qed.
Lemma substr_from_ok t i : 0 <= i <= size t -> substr_from t i = Ok (after t i).
Proof. unfold substr_from, size. intros H. destruct (Z.ltb_spec (Z.of_nat (length t)) i); [lia|reflexivity]. Qed.
Lemma after_0 t : after t 0 = t.
Proof. reflexivity. Qed.

Section Box.
Variables (w : Q) (al : xalign) (build : bool -> list Z -> layout) (strip : list Z -> list Z) (tall : Q).
Variables (B : list Z -> Z -> Prop) (following preceding : list Z -> Z -> Z) (decode : list Z -> Z -> Z) (white : Z -> bool).
Hypothesis GS : good_stops B following preceding.
Hypothesis GL : good_layouts (build false) B.
Notation does := (does w al (build false) B following decode white).
Notation step := (step w al build strip tall following preceding decode white).

(** The invariant of the box. *)
Definition plain (b : box) : Prop := tb_rich b = false /\ tb_font b = true.
Definition fits (b : box) : Prop := sound (view_of b).
Definition shown (b : box) : Prop := (tb_ctrl b = tb_text b /\ tb_content b = tb_text b) /\
  (tb_text b <> [] -> tb_layout b = build false (tb_text b) /\ calc_cursor_pixel_pos (build false (tb_text b)) w al (tb_cursor b) = Ok (tb_info b)) /\
  (tb_text b = [] -> tb_info b = {| ci_x := 0; ci_y := 0; ci_height := tall; ci_line := 0 |}).
Definition ready (b : box) : Prop := plain b /\ fits b /\ shown b.

Lemma caret_exists t c : valid_utf8 t -> t <> [] -> size t < 2 ^ 31 - 1 ->
  exists i, calc_cursor_pixel_pos (build false t) w al c = Ok i /\ (ci_line i < length (lo_lines (build false t)))%nat.
Proof.
  intros V NE S. destruct (GL t V NE S) as (d & y & O & ST & ND & _). destruct (caret_defined d y _ w al c O ST ND) as (i & E & L).
  exists i. rewrite (stored_lines d y _ O ST). auto.
Qed.

(** Recomputing the layout. *)
Lemma recalc_ready b : plain b -> fits b -> exists b', recalc w al build strip tall b = Ok b' /\ ready b' /\ view_of b' = view_of b.
Proof.
  intros (R & F) S. unfold recalc. rewrite R, F. cbn [andb negb]. replace (if tb_focused b then false else false) with false by (destruct (tb_focused b); reflexivity).
  pose proof S as (V & SZ & _). cbn [view_of v_text] in V, SZ. destruct (tb_text b) as [|x t] eqn:ET.
  - eexists. split; [reflexivity|]. split; [|unfold view_of; cbn; rewrite ET; reflexivity]. split; [split; assumption|]. split.
    + unfold fits, view_of in *. cbn in *. rewrite ET in S. exact S.
    + split; cbn; [auto|]. split; [congruence|reflexivity].
  - rewrite <- ET in *. destruct (caret_exists (tb_text b) (tb_cursor b) V ltac:(congruence) SZ) as (i & E & _). rewrite E. cbn [obind].
    eexists. split; [reflexivity|]. split; [|reflexivity]. split; [split; assumption|]. split; [exact S|].
    split; cbn; [auto|]. split; [auto|intros Z0; congruence].
Qed.
Lemma set_text_ready b t : plain b -> valid_utf8 t -> size t < 2 ^ 31 - 1 -> on_char t (pos (view_of b)) -> on_char t (other (view_of b)) ->
  exists b', set_text w al build strip tall b t = Ok b' /\ ready b' /\ same_state (view_of b) (view_of b') /\
    v_text (view_of b') = t /\ v_cursor (view_of b') = v_cursor (view_of b) /\ v_anchor (view_of b') = v_anchor (view_of b).
Proof.
  intros P V S C A. unfold set_text. set (b1 := with_text b t (tb_content b) (tb_layout b) (tb_ctrl b) (tb_info b)).
  destruct (recalc_ready b1) as (b' & E & R & W); [exact P|split; [exact V|split; [exact S|split; [exact C|exact A]]]|].
  exists b'. rewrite W. split; [exact E|]. split; [exact R|]. repeat split.
Qed.

(** Moving the cursor. *)
Lemma moved_cursor b p sel : ready b -> tb_text b <> [] -> on_char (tb_text b) (cp_get_position p) ->
  exists b', set_cursor w al b p sel = Ok b' /\ ready b' /\ same_state (view_of b) (view_of b') /\ moved (view_of b) p sel (view_of b').
Proof.
  intros (P & S & (K & L & L0)) NE O. destruct (L NE) as (EL & _). pose proof S as (V & SZ & C & A). cbn [view_of v_text] in V, SZ, C, A.
  unfold set_cursor. cbn [with_cursor tb_layout]. rewrite EL.
  destruct (caret_exists (tb_text b) p V NE SZ) as (i & E & _). rewrite E. cbn [obind]. eexists. split; [reflexivity|].
  assert (AN : view_of (with_blink (with_visual (with_cursor b p (if sel then if cp_is_valid (tb_anchor b) then tb_anchor b else tb_cursor b else invalid_value)) i) f32_0 0) =
    {| v_text := tb_text b; v_cursor := p; v_anchor := if sel then Some (match v_anchor (view_of b) with Some a => a | None => tb_cursor b end) else None;
       v_focused := tb_focused b; v_editable := tb_editable b; v_multi := tb_multi b; v_drag := tb_drag b |}).
  { unfold view_of. cbn. f_equal. destruct sel; [|reflexivity]. destruct (cp_is_valid (tb_anchor b)) eqn:VA; [rewrite VA; reflexivity|].
    rewrite (valid_small (tb_cursor b) (size (tb_text b))); [reflexivity|apply C|exact SZ]. }
  split; [|rewrite AN; repeat split].
  split; [exact P|]. split.
  - unfold fits. rewrite AN. split; [exact V|]. split; [exact SZ|]. split; [exact O|]. unfold other. cbn [v_anchor v_text]. destruct sel; [|exact O].
    unfold other in A. destruct (v_anchor (view_of b)); [exact A|exact C].
  - split; [exact K|]. cbn. split; [auto|intros E0; congruence].
Qed.

Lemma stops t : valid_utf8 t -> size t < 2 ^ 31 - 1 ->
  0 <= size t < 2 ^ 31 /\ stops_ok (B t) (size t) /\ follows_stops (B t) (following t) /\ precedes_stops (B t) (preceding t) /\ (forall b, B t b -> on_char t b).
Proof. intros V S. split; [unfold size in *; lia|]. apply GS; assumption. Qed.

Definition arrives (t : list Z) (r : outcome Z) (target : Z -> Prop) : Prop := exists p, r = Ok p /\ on_char t (cp_get_position p) /\ target p.
Lemma to_right b : ready b -> arrives (tb_text b) (Ok (next_character (following (tb_ctrl b)) (tb_cursor b))) (char_right B (tb_text b) (tb_cursor b)).
Proof.
  intros (P & S & ((K & _) & _)). pose proof S as (V & SZ & C & _). destruct (stops _ V SZ) as (N & SO & SF & SP & SC). cbn [view_of v_text] in *. rewrite K.
  eexists. split; [reflexivity|]. destruct (C37_next_character _ _ _ (tb_cursor b) N SO SF) as [[NS _]|[NS E]].
  - split; [apply SC; apply NS|left; exact NS].
  - rewrite E. split; [exact C|right; auto].
Qed.
Lemma to_left b : ready b -> arrives (tb_text b) (Ok (prev_character (preceding (tb_ctrl b)) (tb_cursor b))) (char_left B (tb_text b) (tb_cursor b)).
Proof.
  intros (P & S & ((K & _) & _)). pose proof S as (V & SZ & C & _). destruct (stops _ V SZ) as (N & SO & SF & SP & SC). cbn [view_of v_text] in *. rewrite K.
  eexists. split; [reflexivity|]. destruct (C37_prev_character _ _ _ (tb_cursor b) N SO SP) as [[NS _]|[NS E]].
  - split; [apply SC; apply NS|left; exact NS].
  - rewrite E. split; [exact C|right; auto].
Qed.
Lemma to_word_right b : ready b ->
  arrives (tb_text b) (next_word (ctrl_memory b) (following (tb_ctrl b)) (decode (tb_ctrl b)) white (tb_cursor b)) (word_right B decode white (tb_text b) (tb_cursor b)).
Proof.
  intros (P & S & ((K & _) & _)). pose proof S as (V & SZ & C & _). destruct (stops _ V SZ) as (N & SO & SF & SP & SC). cbn [view_of v_text] in *. unfold ctrl_memory. rewrite K.
  destruct (C37_next_word_partial (tb_text b ++ [0]) _ _ _ (decode (tb_text b)) white (tb_cursor b) N SO SF) as (r & E & H);
    [rewrite app_length; cbn; unfold size; lia|apply C|].
  exists r. split; [exact E|]. cbv zeta in H. destruct H as [[H ->]|(H1 & H2 & H3 & H4 & H5)].
  - split; [exact C|left; auto].
  - split; [apply SC; exact H1|right; auto].
Qed.
Lemma to_word_left b : ready b ->
  arrives (tb_text b) (prev_word (ctrl_memory b) (preceding (tb_ctrl b)) (decode (tb_ctrl b)) white (tb_cursor b)) (word_left B decode white (tb_text b) (tb_cursor b)).
Proof.
  intros (P & S & ((K & _) & _)). pose proof S as (V & SZ & C & _). destruct (stops _ V SZ) as (N & SO & SF & SP & SC). cbn [view_of v_text] in *. unfold ctrl_memory. rewrite K.
  destruct (C37_prev_word (tb_text b ++ [0]) _ _ _ (decode (tb_text b)) white (tb_cursor b) N SO SP) as (r & E & H);
    [rewrite app_length; cbn; unfold size; lia|apply C|].
  exists r. split; [exact E|]. cbv zeta in H. destruct H as [[H ->]|(H1 & H2 & H3 & H4 & H5)].
  - split; [exact C|left; auto].
  - split; [apply SC; exact H1|right; auto].
Qed.
Lemma arrived b r target sel : ready b -> tb_text b <> [] -> arrives (tb_text b) r target ->
  exists b' p, (do p <- r; set_cursor w al b p sel) = Ok b' /\ ready b' /\ same_state (view_of b) (view_of b') /\ target p /\ moved (view_of b) p sel (view_of b').
Proof.
  intros R NE (p & -> & O & T). cbn [obind]. destruct (moved_cursor b p sel R NE O) as (b' & E & R' & SS & M). exists b', p. auto.
Qed.

(** What the layout answers. *)
Section Layout.
Variable b : box.
Hypothesis R : ready b.
Hypothesis NE : tb_text b <> [].
Lemma line_ok : tb_layout b = build false (tb_text b) /\ caret w al (build false) (tb_text b) (tb_cursor b) (tb_line b) (tb_x b) /\ (tb_line b < length (lo_lines (tb_layout b)))%nat.
Proof.
  destruct R as (_ & (V & SZ & _) & (_ & L & _)). destruct (L NE) as (EL & E). split; [exact EL|]. split; [exists (tb_info b); auto|].
  destruct (caret_exists (tb_text b) (tb_cursor b) V NE SZ) as (i' & E' & H). rewrite E in E'. inversion E'; subst i'. rewrite EL. exact H.
Qed.
Lemma to_line_start : arrives (tb_text b) (get_line_start_position (tb_layout b) (tb_line b)) (line_start w al (build false) (tb_text b) (tb_cursor b)).
Proof.
  destruct line_ok as (EL & CA & LL). destruct R as (_ & (V & SZ & _) & _). cbn [view_of v_text] in V, SZ. destruct (GL _ V NE SZ) as (d & y & O & ST & ND & _ & RO & BS).
  destruct (stops _ V SZ) as (_ & _ & _ & _ & SC). rewrite EL in *. rewrite (stored_lines d y _ O ST) in LL.
  destruct (start_at_stop _ d y _ _ O ST RO BS LL) as (c & E & BC). exists c. split; [exact E|]. split; [apply SC; exact BC|]. exists (tb_line b), (tb_x b). auto.
Qed.
Lemma to_line_end : arrives (tb_text b) (get_line_end_position (tb_layout b) (tb_line b)) (line_end w al (build false) (tb_text b) (tb_cursor b)).
Proof.
  destruct line_ok as (EL & CA & LL). destruct R as (_ & (V & SZ & _) & _). cbn [view_of v_text] in V, SZ. destruct (GL _ V NE SZ) as (d & y & O & ST & ND & _ & RO & BS).
  destruct (stops _ V SZ) as (_ & _ & _ & _ & SC). rewrite EL in *. rewrite (stored_lines d y _ O ST) in LL.
  destruct (end_at_stop _ d y _ _ O ST RO BS LL) as (c & E & BC). exists c. split; [exact E|]. split; [apply SC; exact BC|]. exists (tb_line b), (tb_x b). auto.
Qed.
Lemma in_line k x : (k < length (lo_lines (tb_layout b)))%nat ->
  arrives (tb_text b) (find_closest_cursor_position (following (tb_ctrl b)) (tb_layout b) w al k x) (fun p => find_closest_cursor_position (following (tb_text b)) (build false (tb_text b)) w al k x = Ok p).
Proof.
  intros LL. destruct line_ok as (EL & _ & _). destruct R as (_ & (V & SZ & _) & ((K & _) & _)). cbn [view_of v_text] in V, SZ. destruct (GL _ V NE SZ) as (d & y & O & ST & ND & _ & RO & BS).
  destruct (stops _ V SZ) as (N & SO & SF & _ & SC). rewrite EL, K in *. rewrite (stored_lines d y _ O ST) in LL.
  destruct (line_at_stop _ _ d y _ w al k x O ST (follows_walks _ _ _ N SO SF) RO BS LL) as (c & E & BC). exists c. split; [exact E|]. split; [apply SC; exact BC|exact E].
Qed.
Lemma to_hit x q : arrives (tb_text b) (closest_to_position (following (tb_ctrl b)) (tb_layout b) w al x q) (hit w al (build false) following (tb_text b) x q).
Proof.
  destruct line_ok as (EL & _ & _). destruct R as (_ & (V & SZ & _) & ((K & _) & _)). cbn [view_of v_text] in V, SZ. destruct (GL _ V NE SZ) as (d & y & O & ST & ND & HT & RO & BS).
  destruct (stops _ V SZ) as (N & SO & SF & _ & SC). rewrite EL, K in *.
  destruct (hit_at_stop _ _ d y _ w al x q O ST ND HT (follows_walks _ _ _ N SO SF) RO BS) as (c & E & BC). exists c. split; [exact E|]. split; [apply SC; exact BC|exact E].
Qed.
Lemma at_cursor : on_char (tb_text b) (cp_get_position (tb_cursor b)).
Proof. destruct R as (_ & (_ & _ & C & _) & _). exact C. Qed.
Lemma to_line_up : arrives (tb_text b) (if (0 <? tb_line b)%nat then find_closest_cursor_position (following (tb_ctrl b)) (tb_layout b) w al (tb_line b - 1) (tb_x b) else Ok (tb_cursor b))
  (line_up w al (build false) following (tb_text b) (tb_cursor b)).
Proof.
  destruct line_ok as (EL & CA & LL). destruct (Nat.ltb_spec 0 (tb_line b)) as [H|H].
  - destruct (in_line (tb_line b - 1) (tb_x b)) as (p & E & O & T); [lia|]. exists p. split; [exact E|]. split; [exact O|]. exists (tb_line b), (tb_x b). split; [exact CA|].
    destruct (tb_line b) as [|k]; [lia|]. replace (S k - 1)%nat with k in T by lia. exact T.
  - exists (tb_cursor b). split; [reflexivity|]. split; [apply at_cursor|]. exists (tb_line b), (tb_x b). split; [exact CA|]. destruct (tb_line b); [reflexivity|lia].
Qed.
Lemma to_line_down : arrives (tb_text b)
  (if (length (lo_lines (tb_layout b)) =? 0)%nat || (tb_line b <? length (lo_lines (tb_layout b)) - 1)%nat
   then find_closest_cursor_position (following (tb_ctrl b)) (tb_layout b) w al (tb_line b + 1) (tb_x b) else Ok (tb_cursor b))
  (line_down w al (build false) following (tb_text b) (tb_cursor b)).
Proof.
  destruct line_ok as (EL & CA & LL). destruct (Nat.eqb_spec (length (lo_lines (tb_layout b))) 0); [lia|]. cbn [orb].
  destruct (Nat.ltb_spec (tb_line b) (length (lo_lines (tb_layout b)) - 1)) as [H|H].
  - destruct (in_line (tb_line b + 1) (tb_x b)) as (p & E & O & T); [lia|]. exists p. split; [exact E|]. split; [exact O|]. exists (tb_line b), (tb_x b). split; [exact CA|].
    rewrite <- EL in *. destruct (Nat.ltb_spec (S (tb_line b)) (length (lo_lines (tb_layout b)))); [|lia]. replace (S (tb_line b)) with (tb_line b + 1)%nat by lia. exact T.
  - exists (tb_cursor b). split; [reflexivity|]. split; [apply at_cursor|]. exists (tb_line b), (tb_x b). split; [exact CA|]. rewrite <- EL in *.
    destruct (Nat.ltb_spec (S (tb_line b)) (length (lo_lines (tb_layout b)))); [lia|reflexivity].
Qed.
Lemma to_start : arrives (tb_text b) (Ok 0) text_start.
Proof.
  exists 0. split; [reflexivity|]. split; [|reflexivity]. change (cp_get_position 0) with 0. destruct R as (_ & (V & _) & _). cbn [view_of v_text] in V.
  pose proof (seam [] _ V) as H. exact H.
Qed.
Lemma to_end : arrives (tb_text b) (Ok (cp_make (Z.of_nat (length (tb_ctrl b))))) (text_end (tb_text b)).
Proof.
  destruct R as (_ & (V & SZ & _) & ((K & _) & _)). cbn [view_of v_text] in V, SZ. rewrite K. eexists. split; [reflexivity|].
  unfold text_end. rewrite make_position by (unfold size in SZ; lia). split; [|reflexivity].
  pose proof (seam (tb_text b) [] valid_nil) as H. rewrite app_nil_r in H. exact H.
Qed.
End Layout.

(** ** Editing *)
Lemma splice t i j s : valid_utf8 t -> on_char t i -> on_char t j -> valid_utf8 s -> valid_utf8 (before t i ++ s ++ after t j) /\ on_char (before t i ++ s ++ after t j) (i + size s).
Proof.
  intros V I J S. destruct (cut t i V I) as (V1 & _). destruct (cut t j V J) as (_ & V2). split; [apply valid_app; [exact V1|apply valid_app; assumption]|].
  rewrite app_assoc. pose proof (seam (before t i ++ s) _ V2) as H. rewrite size_app, size_before in H by apply I. exact H.
Qed.
Lemma splice_size t i j s : on_char t i -> on_char t j -> i <= j -> size (before t i ++ s ++ after t j) = size t - (j - i) + size s.
Proof. intros (I & _) (J & _) L. rewrite !size_app, size_before, size_after by lia. lia. Qed.

Lemma no_anchor b : v_anchor (view_of b) = None -> other (view_of b) = pos (view_of b).
Proof. unfold other. intros ->. reflexivity. Qed.
Lemma removed b i j : plain b -> valid_utf8 (tb_text b) -> size (tb_text b) < 2 ^ 31 - 1 -> on_char (tb_text b) i -> on_char (tb_text b) j -> i <= j ->
  pos (view_of b) = i -> v_anchor (view_of b) = None ->
  exists b', remove_text w al build strip tall b i j = Ok b' /\ ready b' /\ same_state (view_of b) (view_of b') /\ edited (view_of b) i j [] (view_of b').
Proof.
  intros P V SZ I J L C A. unfold remove_text. rewrite substr_ok by (destruct I; lia). rewrite substr_from_ok by apply J. cbn [obind]. rewrite after_0.
  destruct (splice _ i j [] V I J valid_nil) as (SV & SC). cbn [app] in *. replace (i + size []) with i in SC by (unfold size; cbn; lia).
  pose proof (splice_size _ i j [] I J L) as SS. cbn [app] in SS. change (size []) with 0 in SS.
  destruct (set_text_ready b (before (tb_text b) i ++ after (tb_text b) j) P SV) as (b' & E & R & S & T1 & T2 & T3); [lia|rewrite C; exact SC|rewrite no_anchor, C by exact A; exact SC|].
  exists b'. split; [exact E|]. split; [exact R|]. split; [exact S|]. split; [exact T1|]. split; [unfold pos; rewrite T2; fold (pos (view_of b)); rewrite C; change (size []) with 0; lia|rewrite T3; exact A].
Qed.
Lemma put b s : ready b -> v_anchor (view_of b) = None -> valid_utf8 s -> room (view_of b) s ->
  exists b', insert_text w al build strip tall b s (cp_get_position (tb_cursor b)) = Ok b' /\ ready b' /\ same_state (view_of b) (view_of b') /\
    edited (view_of b) (pos (view_of b)) (pos (view_of b)) s (view_of b').
Proof.
  intros (P & S & _) A VS RM. pose proof S as (V & SZ & C & _). unfold room in RM. cbn [view_of v_text] in V, SZ, C, RM. unfold pos in *. cbn [view_of v_cursor] in *.
  unfold insert_text. set (c := cp_get_position (tb_cursor b)) in *. fold (size s).
  set (b1 := with_cursor b (cp_make (c + size s)) (tb_anchor b)). pose proof (size_nonneg s) as SN.
  assert (C1 : cp_get_position (cp_make (c + size s)) = c + size s) by (apply make_position; destruct C; lia).
  destruct (splice _ c c s V C C VS) as (SV & SC). pose proof (splice_size _ c c s C C ltac:(lia)) as SS.
  assert (A1 : v_anchor (view_of b1) = None) by exact A.
  destruct (set_text_ready b1 (before (tb_text b) c ++ s ++ after (tb_text b) c) P SV) as (b' & E & R & ST & T1 & T2 & T3);
    [lia|unfold pos; cbn; rewrite C1; exact SC|rewrite no_anchor by exact A1; unfold pos; cbn; rewrite C1; exact SC|].
  exists b'. split.
  - change (tb_text b1) with (tb_text b). pose proof (size_nonneg (tb_text b)) as TN. destruct (Z.ltb_spec c (Z.of_nat (length (tb_text b)))) as [H|H].
    + rewrite substr_ok by lia. rewrite substr_from_ok by apply C. cbn [obind]. rewrite after_0. exact E.
    + assert (CE : c = size (tb_text b)) by (destruct C; unfold size in *; lia).
      replace (tb_text b ++ s) with (before (tb_text b) c ++ s ++ after (tb_text b) c); [exact E|].
      unfold before, after. rewrite firstn_all2, skipn_all2 by (unfold size in CE; lia). rewrite app_nil_r. reflexivity.
  - split; [exact R|]. split; [exact ST|]. split; [exact T1|]. split; [unfold pos; rewrite T2; exact C1|rewrite T3; exact A1].
Qed.
Lemma same_trans u v x : same_state u v -> same_state v x -> same_state u x.
Proof. intros ((A1 & A2) & A3 & A4) ((B1 & B2) & B3 & B4). repeat split; congruence. Qed.
Lemma same_refl v : same_state v v.
Proof. repeat split. Qed.
Lemma first_char v : sound v -> on_char (v_text v) (first v) /\ on_char (v_text v) (last v) /\ first v <= last v.
Proof.
  intros (_ & _ & P & O). unfold first, last. split; [|split; [|lia]].
  - destruct (Z.min_spec (pos v) (other v)) as [[_ ->]|[_ ->]]; assumption.
  - destruct (Z.max_spec (pos v) (other v)) as [[_ ->]|[_ ->]]; assumption.
Qed.

(** The selection goes. *)
Lemma cleared b : ready b -> proper (view_of b) ->
  exists b', remove_highlighted w al build strip tall b = Ok b' /\ ready b' /\ same_state (view_of b) (view_of b') /\
    if first (view_of b) =? last (view_of b) then b' = b /\ v_anchor (view_of b) = None else edited (view_of b) (first (view_of b)) (last (view_of b)) [] (view_of b').
Proof.
  intros R PR. pose proof R as (P & S & _). pose proof (first_char _ S) as (F & L & FL). pose proof S as (V & SZ & _ & _). unfold remove_highlighted.
  destruct (cp_is_valid (tb_anchor b)) eqn:VA.
  2:{ rewrite orb_true_r. exists b. split; [reflexivity|]. split; [exact R|]. split; [apply same_refl|].
      assert (A : v_anchor (view_of b) = None) by (cbn; rewrite VA; reflexivity). unfold first, last. rewrite no_anchor by exact A. rewrite Z.min_id, Z.max_id, Z.eqb_refl. auto. }
  assert (A : v_anchor (view_of b) = Some (tb_anchor b)) by (cbn; rewrite VA; reflexivity).
  pose proof (PR _ A) as NQ. cbn [negb]. rewrite orb_false_r. unfold cp_eqb. destruct (Z.eqb_spec (tb_anchor b) (tb_cursor b)) as [EQ|_]; [exfalso; apply NQ; rewrite EQ; reflexivity|].
  assert (OT : other (view_of b) = cp_get_position (tb_anchor b)) by (unfold other; rewrite A; reflexivity).
  assert (FI : first (view_of b) = Z.min (cp_get_position (tb_cursor b)) (cp_get_position (tb_anchor b))) by (unfold first; rewrite OT; reflexivity).
  assert (LA : last (view_of b) = Z.max (cp_get_position (tb_cursor b)) (cp_get_position (tb_anchor b))) by (unfold last; rewrite OT; reflexivity).
  unfold pos in NQ. cbn [view_of v_cursor] in NQ. destruct (Z.eqb_spec (first (view_of b)) (last (view_of b))) as [E|_]; [rewrite FI, LA in E; lia|].
  destruct (Z.ltb_spec (cp_get_position (tb_cursor b)) (cp_get_position (tb_anchor b))) as [H|H].
  - rewrite Z.min_l in FI by lia. rewrite Z.max_r in LA by lia.
    destruct (removed (with_cursor b (tb_cursor b) invalid_value) (first (view_of b)) (last (view_of b)) P V SZ F L FL) as (b' & E & R' & ST & ED); [rewrite FI; reflexivity|reflexivity|].
    exists b'. rewrite FI, LA in E at 1. split; [exact E|]. split; [exact R'|]. split; [exact ST|exact ED].
  - rewrite Z.min_r in FI by lia. rewrite Z.max_l in LA by lia.
    destruct (removed (with_cursor b (tb_anchor b) invalid_value) (first (view_of b)) (last (view_of b)) P V SZ F L FL) as (b' & E & R' & ST & ED); [rewrite FI; reflexivity|reflexivity|].
    exists b'. rewrite FI, LA in E at 1. split; [exact E|]. split; [exact R'|]. split; [exact ST|exact ED].
Qed.
Lemma before_before t i : before (before t i) i = before t i.
Proof. unfold before. rewrite firstn_firstn, Nat.min_id. reflexivity. Qed.
(** Clearing and then inserting is replacing. *)
Lemma cleared_put b b' b'' s : ready b -> same_state (view_of b) (view_of b') -> same_state (view_of b') (view_of b'') ->
  (if first (view_of b) =? last (view_of b) then b' = b /\ v_anchor (view_of b) = None else edited (view_of b) (first (view_of b)) (last (view_of b)) [] (view_of b')) ->
  edited (view_of b') (pos (view_of b')) (pos (view_of b')) s (view_of b'') -> inserted (view_of b) s (view_of b'').
Proof.
  intros R S1 S2 H E. split; [exact (same_trans _ _ _ S1 S2)|]. destruct (Z.eqb_spec (first (view_of b)) (last (view_of b))) as [EQ|_].
  - destruct H as [-> A]. assert (first (view_of b) = pos (view_of b)) by (unfold first; rewrite no_anchor by exact A; apply Z.min_id). rewrite <- EQ. rewrite H. exact E.
  - destruct H as (T & C & A). destruct E as (T' & C' & A'). change (size []) with 0 in C. rewrite Z.add_0_r in C. rewrite C in T', C'. cbn [app] in T.
    destruct R as (_ & S & _). pose proof (first_char _ S) as ((F & _) & _). assert (SB := size_before _ _ F).
    split; [|split; [exact C'|exact A']]. rewrite T', T. rewrite before_seam by (symmetry; exact SB). rewrite after_seam by (symmetry; exact SB). reflexivity.
Qed.
Lemma cleared_anchor b b' : (if first (view_of b) =? last (view_of b) then b' = b /\ v_anchor (view_of b) = None else edited (view_of b) (first (view_of b)) (last (view_of b)) [] (view_of b')) ->
  v_anchor (view_of b') = None.
Proof. destruct (_ =? _); [intros [-> A]; exact A|intros (_ & _ & A); exact A]. Qed.
Lemma cleared_room b b' s : ready b -> room (view_of b) s ->
  (if first (view_of b) =? last (view_of b) then b' = b /\ v_anchor (view_of b) = None else edited (view_of b) (first (view_of b)) (last (view_of b)) [] (view_of b')) -> room (view_of b') s.
Proof.
  intros R RM H. destruct (Z.eqb_spec (first (view_of b)) (last (view_of b))) as [EQ|_]; [destruct H as [-> _]; exact RM|].
  destruct H as (T & _ & _). unfold room in *. rewrite T. destruct R as (_ & S & _). destruct (first_char _ S) as (F & L & FL). rewrite splice_size by assumption. change (size []) with 0. lia.
Qed.
Lemma put_selected b s (m : outcome box) : ready b -> proper (view_of b) -> valid_utf8 s -> room (view_of b) s -> m = remove_highlighted w al build strip tall b ->
  exists b', (do b <- m; insert_text w al build strip tall b s (cp_get_position (tb_cursor b))) = Ok b' /\ ready b' /\ inserted (view_of b) s (view_of b').
Proof.
  intros R PR V RM ->. destruct (cleared b R PR) as (b1 & E & R1 & S1 & H). rewrite E. cbn [obind].
  destruct (put b1 s R1 (cleared_anchor _ _ H) V (cleared_room _ _ _ R RM H)) as (b2 & E2 & R2 & S2 & H2). exists b2. split; [exact E2|]. split; [exact R2|].
  exact (cleared_put _ _ _ _ R S1 S2 H H2).
Qed.
Lemma typed b c : ready b -> proper (view_of b) -> scalar c -> room (view_of b) (utf8 c) ->
  exists b', insert_typed w al build strip tall b c = Ok b' /\ ready b' /\ inserted (view_of b) (utf8 c) (view_of b').
Proof.
  intros R PR S RM. unfold insert_typed. rewrite append_utf8 by exact S. apply put_selected; [exact R|exact PR|apply valid_one; exact S|exact RM|].
  destruct (cp_is_valid (tb_anchor b)) eqn:V; [reflexivity|]. unfold remove_highlighted. rewrite V. rewrite orb_true_r. reflexivity.
Qed.
Lemma entered b : ready b -> proper (view_of b) -> room (view_of b) [10] ->
  exists b', (do b <- remove_highlighted w al build strip tall b; insert_typed w al build strip tall b 10) = Ok b' /\ ready b' /\ inserted (view_of b) [10] (view_of b').
Proof.
  intros R PR RM. destruct (put_selected b [10] _ R PR (valid_one 10 ltac:(unfold scalar; lia)) RM eq_refl) as (b' & E & H). exists b'. split; [|exact H].
  destruct (cleared b R PR) as (b1 & E1 & R1 & S1 & H1). rewrite E1 in *. cbn [obind] in *. unfold insert_typed. pose proof (cleared_anchor _ _ H1) as A. cbn in A.
  destruct (cp_is_valid (tb_anchor b1)); [discriminate|]. cbn [obind]. exact E.
Qed.

(** Backspace and Delete. *)
Lemma erased_none b (target : Z -> Z -> Prop) : ready b -> v_anchor (view_of b) = None -> target (tb_cursor b) (tb_cursor b) -> erased (view_of b) target (view_of b).
Proof.
  intros R A T. split; [apply same_refl|]. rewrite A. exists (tb_cursor b). split; [exact T|]. rewrite Z.min_id, Z.max_id. cbn [app].
  split; [symmetry; apply before_after|]. split; [change (size []) with 0; rewrite Z.add_0_r; reflexivity|exact A].
Qed.
Lemma erased_selection b (target : Z -> Z -> Prop) : ready b -> proper (view_of b) -> cp_is_valid (tb_anchor b) = true ->
  exists b', remove_highlighted w al build strip tall b = Ok b' /\ ready b' /\ erased (view_of b) target (view_of b').
Proof.
  intros R PR VA. destruct (cleared b R PR) as (b' & E & R' & S & H). exists b'. split; [exact E|]. split; [exact R'|]. split; [exact S|].
  assert (A : v_anchor (view_of b) = Some (tb_anchor b)) by (cbn; rewrite VA; reflexivity). rewrite A. destruct (_ =? _); [destruct H as [_ H]; congruence|exact H].
Qed.
Lemma text_nonempty b : ready b -> 0 < cp_get_position (tb_cursor b) \/ cp_get_position (tb_cursor b) < size (tb_text b) -> tb_text b <> [].
Proof. intros (_ & (_ & _ & (C & _) & _) & _) H E. unfold pos in C. cbn [view_of v_text v_cursor] in C. rewrite E in *. change (size []) with 0 in *. lia. Qed.
Lemma not_left b p : ready b -> cp_get_position (tb_cursor b) = 0 -> p = tb_cursor b -> char_left B (tb_text b) (tb_cursor b) p /\ word_left B decode white (tb_text b) (tb_cursor b) p.
Proof.
  intros (_ & (V & SZ & _) & _) C ->. destruct (stops _ V SZ) as (_ & (_ & _ & SR) & _). cbn [view_of v_text] in SR. rewrite <- (Z.add_0_r 0) in C.
  assert (H : forall x, B (tb_text b) x -> cp_get_position (tb_cursor b) <= x) by (intros x X; specialize (SR x X); lia). split; [right; auto|left; auto].
Qed.
Lemma not_right b p : ready b -> size (tb_text b) <= cp_get_position (tb_cursor b) -> p = tb_cursor b -> char_right B (tb_text b) (tb_cursor b) p /\ word_right B decode white (tb_text b) (tb_cursor b) p.
Proof.
  intros (_ & (V & SZ & _) & _) C ->. destruct (stops _ V SZ) as (_ & (_ & _ & SR) & _). cbn [view_of v_text] in SR.
  assert (H : forall x, B (tb_text b) x -> x <= cp_get_position (tb_cursor b)) by (intros x X; specialize (SR x X); lia). split; [right; auto|left; auto].
Qed.
Lemma left_le t c p : char_left B t c p \/ word_left B decode white t c p -> cp_get_position p <= cp_get_position c.
Proof. intros [[(_ & H & _)|[-> _]]|[[-> _]|(_ & H & _)]]; lia. Qed.
Lemma right_ge t c p : char_right B t c p \/ word_right B decode white t c p -> cp_get_position c <= cp_get_position p.
Proof. intros [[(_ & H & _)|[-> _]]|[[-> _]|(_ & H & _)]]; lia. Qed.

Lemma backspaced b (ctrl : bool) : ready b -> proper (view_of b) ->
  exists b', key_backspace w al build strip tall preceding decode white b ctrl = Ok b' /\ ready b' /\
    erased (view_of b) (if ctrl then word_left B decode white (tb_text b) else char_left B (tb_text b)) (view_of b').
Proof.
  intros R PR. unfold key_backspace. destruct (cp_is_valid (tb_anchor b)) eqn:VA; [apply erased_selection; assumption|].
  assert (A : v_anchor (view_of b) = None) by (cbn; rewrite VA; reflexivity).
  destruct (Z.ltb_spec 0 (cp_get_position (tb_cursor b))) as [L|L].
  2:{ exists b. split; [reflexivity|]. split; [exact R|]. apply erased_none; [exact R|exact A|]. pose proof (position_range (tb_cursor b)).
      destruct (not_left b _ R ltac:(lia) eq_refl). destruct ctrl; assumption. }
  pose proof (text_nonempty b R (or_introl L)) as NE.
  assert (M : exists b1 p, (if ctrl then move_prev_word w al preceding decode white b false else move_prev_char w al preceding b false) = Ok b1 /\ ready b1 /\
    same_state (view_of b) (view_of b1) /\ (if ctrl then word_left B decode white (tb_text b) else char_left B (tb_text b)) (tb_cursor b) p /\ moved (view_of b) p false (view_of b1)).
  { destruct ctrl; [exact (arrived b _ _ false R NE (to_word_left b R))|exact (arrived b _ _ false R NE (to_left b R))]. }
  destruct M as (b1 & p & E & R1 & S1 & T & (M1 & M2 & M3)). rewrite E. cbn [obind].
  assert (LE : cp_get_position p <= cp_get_position (tb_cursor b)) by (apply left_le with (t := tb_text b); destruct ctrl; auto).
  cbn [view_of v_text v_cursor] in M1, M2. pose proof R1 as (P1 & (V1 & SZ1 & C1 & _) & _). cbn [view_of v_text] in V1, SZ1.
  unfold pos in C1. cbn [view_of v_text v_cursor] in C1. rewrite M1, M2 in *.
  destruct (removed b1 (cp_get_position p) (cp_get_position (tb_cursor b)) P1) as (b' & E' & R' & S' & (D1 & D2 & D3)); try (rewrite M1); try assumption.
  { apply at_cursor; assumption. } { unfold pos. cbn. rewrite M2. reflexivity. }
  exists b'. split; [exact E'|]. split; [exact R'|]. split; [exact (same_trans _ _ _ S1 S')|]. rewrite A. exists p. split; [exact T|].
  unfold pos at 1 2. cbn [view_of v_cursor]. rewrite Z.min_r, Z.max_l by lia. cbn [view_of v_text] in D1. rewrite M1 in D1. split; [exact D1|]. split; [exact D2|exact D3].
Qed.
Lemma deleted b (ctrl : bool) : ready b -> proper (view_of b) ->
  exists b', key_delete w al build strip tall following decode white b ctrl = Ok b' /\ ready b' /\
    erased (view_of b) (if ctrl then word_right B decode white (tb_text b) else char_right B (tb_text b)) (view_of b').
Proof.
  intros R PR. unfold key_delete. destruct (cp_is_valid (tb_anchor b)) eqn:VA; [apply erased_selection; assumption|].
  assert (A : v_anchor (view_of b) = None) by (cbn; rewrite VA; reflexivity).
  destruct (Z.ltb_spec (cp_get_position (tb_cursor b)) (Z.of_nat (length (tb_text b)))) as [L|L]; fold (size (tb_text b)) in L.
  2:{ exists b. split; [reflexivity|]. split; [exact R|]. apply erased_none; [exact R|exact A|].
      destruct (not_right b _ R L eq_refl). destruct ctrl; assumption. }
  pose proof (text_nonempty b R (or_intror L)) as NE.
  assert (M : exists b1 p, (if ctrl then move_next_word w al following decode white b false else move_next_char w al following b false) = Ok b1 /\ ready b1 /\
    same_state (view_of b) (view_of b1) /\ (if ctrl then word_right B decode white (tb_text b) else char_right B (tb_text b)) (tb_cursor b) p /\ moved (view_of b) p false (view_of b1)).
  { destruct ctrl; [exact (arrived b _ _ false R NE (to_word_right b R))|exact (arrived b _ _ false R NE (to_right b R))]. }
  destruct M as (b1 & p & E & R1 & S1 & T & (M1 & M2 & M3)). rewrite E. cbn [obind].
  assert (LE : cp_get_position (tb_cursor b) <= cp_get_position p) by (apply right_ge with (t := tb_text b); destruct ctrl; auto).
  cbn [view_of v_text v_cursor] in M1, M2. pose proof R1 as (P1 & (V1 & SZ1 & C1 & _) & _). cbn [view_of v_text] in V1, SZ1.
  unfold pos in C1. cbn [view_of v_text v_cursor] in C1. rewrite M1, M2 in *.
  destruct (removed (with_cursor b1 (tb_cursor b) (tb_anchor b1)) (cp_get_position (tb_cursor b)) (cp_get_position p) P1) as (b' & E' & R' & S' & (D1 & D2 & D3));
    cbn [with_cursor tb_text]; try (rewrite M1); try assumption.
  { apply at_cursor; assumption. } { reflexivity. }
  exists b'. split; [exact E'|]. split; [exact R'|]. split; [exact (same_trans _ _ _ S1 S')|]. rewrite A. exists p. split; [exact T|].
  unfold pos at 1 2. cbn [view_of v_cursor]. rewrite Z.min_l, Z.max_r by lia. cbn [view_of v_text with_cursor tb_text] in D1. rewrite M1 in D1. split; [exact D1|]. split; [exact D2|exact D3].
Qed.

(** The clipboard. *)
Definition clip_ok (clip : option (list Z)) : Prop := match clip with Some s => valid_utf8 s | None => True end.
Lemma copies b clip : ready b -> clip_ok clip -> exists clip', copy b clip = Ok clip' /\ copied (view_of b) clip clip' /\ clip_ok clip'.
Proof.
  intros R CO. pose proof R as (_ & S & _). pose proof (first_char _ S) as (F & L & FL). pose proof S as (V & _). unfold copy, copied.
  destruct (cp_is_valid (tb_anchor b)) eqn:VA; cbn [negb].
  2:{ exists clip. assert (A : v_anchor (view_of b) = None) by (cbn; rewrite VA; reflexivity). unfold first, last. rewrite no_anchor, Z.min_id, Z.max_id, Z.eqb_refl by exact A. auto. }
  assert (OT : other (view_of b) = cp_get_position (tb_anchor b)) by (unfold other; cbn; rewrite VA; reflexivity).
  assert (FI : first (view_of b) = Z.min (cp_get_position (tb_cursor b)) (cp_get_position (tb_anchor b))) by (unfold first; rewrite OT; reflexivity).
  assert (LA : last (view_of b) = Z.max (cp_get_position (tb_cursor b)) (cp_get_position (tb_anchor b))) by (unfold last; rewrite OT; reflexivity).
  destruct (Z.eqb_spec (cp_get_position (tb_anchor b)) (cp_get_position (tb_cursor b))) as [E|E].
  { exists clip. split; [reflexivity|]. destruct (Z.eqb_spec (first (view_of b)) (last (view_of b))); [auto|lia]. }
  destruct (Z.eqb_spec (first (view_of b)) (last (view_of b))); [lia|]. exists (Some (selected (view_of b))).
  split; [|split; [reflexivity|]].
  - unfold selected. cbn [view_of v_text] in *. destruct (Z.ltb_spec (cp_get_position (tb_cursor b)) (cp_get_position (tb_anchor b))).
    + rewrite Z.min_l in FI by lia. rewrite Z.max_r in LA by lia. rewrite <- FI, <- LA. rewrite substr_ok by apply F. reflexivity.
    + rewrite Z.min_r in FI by lia. rewrite Z.max_l in LA by lia. rewrite <- FI, <- LA. rewrite substr_ok by apply F. reflexivity.
  - cbn. unfold selected. apply slice_valid; assumption.
Qed.

(** Focus. *)
Lemma unfocused b : ready b -> exists b', lose_focus w al build strip tall b = Ok b' /\ ready b' /\ left_alone (view_of b) (view_of b').
Proof.
  intros R. pose proof R as (P & S & K). unfold lose_focus. destruct (tb_focused b) eqn:F.
  - destruct S as (V & SZ & C & A). destruct (recalc_ready (with_focus (with_cursor b (tb_cursor b) invalid_value) false false) P) as (b' & E & R' & W).
    { split; [exact V|]. split; [exact SZ|]. split; [exact C|exact C]. }
    exists b'. split; [exact E|]. split; [exact R'|]. rewrite W. unfold left_alone, same_mode. cbn. rewrite F. repeat split.
  - exists b. split; [reflexivity|]. split; [exact R|]. unfold left_alone, same_mode. cbn. rewrite F. repeat split.
Qed.
Lemma with_focus_ready b f d : ready b -> ready (with_focus b f d).
Proof. intros R. exact R. Qed.
Lemma focuses b : ready b -> exists b', gain_focus w al build strip tall b = Ok b' /\ ready b' /\
  view_of b' = {| v_text := tb_text b; v_cursor := tb_cursor b; v_anchor := v_anchor (view_of b); v_focused := true; v_editable := tb_editable b; v_multi := tb_multi b; v_drag := tb_drag b |}.
Proof.
  intros R. pose proof R as (P & S & K). unfold gain_focus. destruct (tb_focused b) eqn:F.
  - exists b. split; [reflexivity|]. split; [exact R|]. unfold view_of. rewrite F. reflexivity.
  - destruct (recalc_ready (with_focus b true (tb_drag b)) P S) as (b' & E & R' & W). exists b'. split; [exact E|]. split; [exact R'|]. rewrite W. reflexivity.
Qed.

(** ** Every event *)
Lemma all_ok b : ready b -> tb_text b <> [] ->
  exists b', (do b <- move_text_start w al b false; move_text_end w al b true) = Ok b' /\ ready b' /\ same_state (view_of b) (view_of b') /\ tb_text b' = tb_text b /\
    (exists a, v_anchor (view_of b') = Some a /\ text_start a) /\ text_end (tb_text b) (tb_cursor b').
Proof.
  intros R NE. destruct (arrived b _ _ false R NE (to_start b R)) as (b1 & p & E1 & R1 & S1 & T1 & (M1 & M2 & M3)). cbn [obind] in E1. unfold move_text_start. rewrite E1. cbn [obind].
  cbn [view_of v_text v_cursor] in M1, M2. assert (NE1 : tb_text b1 <> []) by congruence.
  destruct (arrived b1 _ _ true R1 NE1 (to_end b1 R1)) as (b2 & q & E2 & R2 & S2 & T2 & (N1 & N2 & N3)). cbn [obind] in E2. unfold move_text_end. rewrite E2.
  cbn [view_of v_text v_cursor] in N1, N2. exists b2. split; [reflexivity|]. split; [exact R2|]. split; [exact (same_trans _ _ _ S1 S2)|]. split; [congruence|]. split.
  - exists p. split; [|exact T1]. rewrite N3, M3. cbn [view_of v_cursor]. rewrite M2. reflexivity.
  - rewrite N2. rewrite <- M1. exact T2.
Qed.

Lemma pressed_ok b x y sel n : ready b -> tb_text b <> [] ->
  exists b', press w al build strip tall following preceding decode white b x y sel n = Ok b' /\ ready b' /\ pressed w al (build false) B following decode white (view_of b) x y sel n (view_of b').
Proof.
  intros R NE. unfold press.
  assert (FIN : forall (m : outcome box), (exists b1, m = Ok b1 /\ ready b1 /\ same_state (view_of b) (view_of b1) /\ exists p, hit w al (build false) following (tb_text b) x y p /\
      match (if tb_focused b then n mod 4 else 0) with
      | 1 => tb_text b1 = tb_text b /\ exists a, word_left B decode white (tb_text b) p a /\ v_anchor (view_of b1) = Some a /\ word_right B decode white (tb_text b) a (tb_cursor b1)
      | 2 => tb_text b1 = tb_text b /\ exists a, line_start w al (build false) (tb_text b) p a /\ v_anchor (view_of b1) = Some a /\ line_end w al (build false) (tb_text b) a (tb_cursor b1)
      | 3 => tb_text b1 = tb_text b /\ exists a, text_start a /\ v_anchor (view_of b1) = Some a /\ text_end (tb_text b) (tb_cursor b1)
      | _ => moved (view_of b) p sel (view_of b1)
      end) ->
    exists b', (do b <- m; gain_focus w al build strip tall (with_focus b (tb_focused b) true)) = Ok b' /\ ready b' /\ pressed w al (build false) B following decode white (view_of b) x y sel n (view_of b')).
  { intros m (b1 & -> & R1 & S1 & p & H & M). cbn [obind]. destruct (focuses (with_focus b1 (tb_focused b1) true) (with_focus_ready _ _ _ R1)) as (b2 & E2 & R2 & W).
    exists b2. split; [exact E2|]. split; [exact R2|]. rewrite W. destruct S1 as ((S1 & S2) & _). split; [split; [exact S1|exact S2]|]. split; [reflexivity|]. split; [reflexivity|].
    exists p. split; [exact H|]. cbn [view_of v_focused v_text v_cursor v_anchor with_focus tb_text tb_cursor tb_anchor] in *. exact M. }
  destruct (tb_focused b) eqn:F.
  - apply FIN. destruct (arrived b _ _ sel R NE (to_hit b R NE x y)) as (b1 & p & E1 & R1 & S1 & T1 & M). unfold move_mouse. rewrite E1. cbn [obind].
    assert (M' := M). destruct M' as (M1 & M2 & M3). cbn [view_of v_text v_cursor] in M1, M2. assert (NE1 : tb_text b1 <> []) by congruence.
    assert (DD : forall mm, (exists b2, mm = Ok b2 /\ ready b2 /\ same_state (view_of b1) (view_of b2) /\
      match n mod 4 with
      | 1 => tb_text b2 = tb_text b /\ exists a, word_left B decode white (tb_text b) p a /\ v_anchor (view_of b2) = Some a /\ word_right B decode white (tb_text b) a (tb_cursor b2)
      | 2 => tb_text b2 = tb_text b /\ exists a, line_start w al (build false) (tb_text b) p a /\ v_anchor (view_of b2) = Some a /\ line_end w al (build false) (tb_text b) a (tb_cursor b2)
      | 3 => tb_text b2 = tb_text b /\ exists a, text_start a /\ v_anchor (view_of b2) = Some a /\ text_end (tb_text b) (tb_cursor b2)
      | _ => moved (view_of b) p sel (view_of b2)
      end) -> exists b2, mm = Ok b2 /\ ready b2 /\ same_state (view_of b) (view_of b2) /\ exists p, hit w al (build false) following (tb_text b) x y p /\
      match n mod 4 with
      | 1 => tb_text b2 = tb_text b /\ exists a, word_left B decode white (tb_text b) p a /\ v_anchor (view_of b2) = Some a /\ word_right B decode white (tb_text b) a (tb_cursor b2)
      | 2 => tb_text b2 = tb_text b /\ exists a, line_start w al (build false) (tb_text b) p a /\ v_anchor (view_of b2) = Some a /\ line_end w al (build false) (tb_text b) a (tb_cursor b2)
      | 3 => tb_text b2 = tb_text b /\ exists a, text_start a /\ v_anchor (view_of b2) = Some a /\ text_end (tb_text b) (tb_cursor b2)
      | _ => moved (view_of b) p sel (view_of b2)
      end).
    { intros mm (b2 & -> & R2 & S2 & H). exists b2. split; [reflexivity|]. split; [exact R2|]. split; [exact (same_trans _ _ _ S1 S2)|]. exists p. auto. }
    apply DD. clear DD FIN. pose proof (Z.mod_pos_bound n 4 ltac:(lia)) as NM.
    assert (CS : n mod 4 = 0 \/ n mod 4 = 1 \/ n mod 4 = 2 \/ n mod 4 = 3) by lia. destruct CS as [CS|[CS|[CS|CS]]]; rewrite CS.
    + exists b1. split; [reflexivity|]. split; [exact R1|]. split; [apply same_refl|exact M].
    + destruct (arrived b1 _ _ false R1 NE1 (to_word_left b1 R1)) as (b2 & a & E2 & R2 & S2 & T2 & (N1 & N2 & N3)). unfold move_prev_word. rewrite E2. cbn [obind].
      cbn [view_of v_text v_cursor] in N1, N2. assert (NE2 : tb_text b2 <> []) by congruence.
      destruct (arrived b2 _ _ true R2 NE2 (to_word_right b2 R2)) as (b3 & q & E3 & R3 & S3 & T3 & (O1 & O2 & O3)). unfold move_next_word. rewrite E3.
      cbn [view_of v_text v_cursor] in O1, O2. exists b3. split; [reflexivity|]. split; [exact R3|]. split; [exact (same_trans _ _ _ S2 S3)|]. split; [congruence|]. exists a.
      split; [rewrite <- M1, <- M2; exact T2|]. split; [rewrite O3, N3; cbn [view_of v_cursor]; rewrite N2; reflexivity|]. rewrite O2. rewrite N1, M1, N2 in T3. exact T3.
    + destruct (arrived b1 _ _ false R1 NE1 (to_line_start b1 R1 NE1)) as (b2 & a & E2 & R2 & S2 & T2 & (N1 & N2 & N3)). unfold move_line_start. rewrite E2. cbn [obind].
      cbn [view_of v_text v_cursor] in N1, N2. assert (NE2 : tb_text b2 <> []) by congruence.
      destruct (arrived b2 _ _ true R2 NE2 (to_line_end b2 R2 NE2)) as (b3 & q & E3 & R3 & S3 & T3 & (O1 & O2 & O3)). unfold move_line_end. rewrite E3.
      cbn [view_of v_text v_cursor] in O1, O2. exists b3. split; [reflexivity|]. split; [exact R3|]. split; [exact (same_trans _ _ _ S2 S3)|]. split; [congruence|]. exists a.
      split; [rewrite <- M1, <- M2; exact T2|]. split; [rewrite O3, N3; cbn [view_of v_cursor]; rewrite N2; reflexivity|]. rewrite O2. rewrite N1, M1, N2 in T3. exact T3.
    + destruct (all_ok b1 R1 NE1) as (b2 & E2 & R2 & S2 & T2 & (a & A1 & A2) & C2). rewrite E2. exists b2. split; [reflexivity|]. split; [exact R2|]. split; [exact S2|].
      split; [congruence|]. exists a. split; [exact A2|]. split; [exact A1|]. rewrite M1 in C2. exact C2.
  - apply FIN. clear FIN. pose proof R as (P & S & _). destruct (recalc_ready b P S) as (b0 & E0 & R0 & W). rewrite E0. cbn [obind].
    assert (T0 : tb_text b0 = tb_text b) by (change (v_text (view_of b0) = v_text (view_of b)); rewrite W; reflexivity). assert (NE0 : tb_text b0 <> []) by congruence.
    destruct (arrived b0 _ _ sel R0 NE0 (to_hit b0 R0 NE0 x y)) as (b1 & p & E1 & R1 & S1 & T1 & M). unfold move_mouse. rewrite E1. rewrite W in S1, M. rewrite T0 in T1.
    exists b1. split; [reflexivity|]. split; [exact R1|]. split; [exact S1|]. exists p. auto.
Qed.

Lemma step_ok b clip c : ready b -> clip_ok clip -> allowed (view_of b) clip c ->
  exists b' clip', step (b, clip) c = Ok (b', clip') /\ ready b' /\ clip_ok clip' /\ does (view_of b) clip c (view_of b') clip'.
Proof.
  intros R CO AL.
  assert (SELF : forall P : Prop, P -> exists b' clip', Ok (b, clip) = Ok (b', clip') /\ ready b' /\ clip_ok clip' /\ P /\ b' = b /\ clip' = clip) by (intros P H; exists b, clip; auto 10).
  assert (NOFOC : tb_focused b = false -> exists b' clip', Ok (b, clip) = Ok (b', clip') /\ ready b' /\ clip_ok clip' /\ (view_of b' = view_of b /\ clip' = clip)) by (intros _; exists b, clip; auto 10).
  assert (KEEP : forall (m : outcome box) (P : view -> Prop), (exists b', m = Ok b' /\ ready b' /\ P (view_of b')) ->
    exists b' clip', (do b <- m; Ok (b, clip)) = Ok (b', clip') /\ ready b' /\ clip_ok clip' /\ (P (view_of b') /\ clip' = clip)).
  { intros m P (b' & -> & R' & H). exists b', clip. auto 10. }
  assert (KEEP' : forall (m : outcome box) (P : view -> Prop), (exists b', m = Ok b' /\ ready b' /\ P (view_of b')) ->
    exists b' clip', (do b <- m; Ok (b, clip)) = Ok (b', clip') /\ ready b' /\ clip_ok clip' /\ (clip' = clip /\ P (view_of b'))).
  { intros m P (b' & -> & R' & H). exists b', clip. auto 10. }
  assert (GO : forall r (target : Z -> Z -> Prop) sel, tb_text b <> [] -> arrives (tb_text b) r (target (tb_cursor b)) ->
    exists b' clip', (do b <- (do p <- r; set_cursor w al b p sel); Ok (b, clip)) = Ok (b', clip') /\ ready b' /\ clip_ok clip' /\ (goes (view_of b) target sel (view_of b') /\ clip' = clip)).
  { intros r target sel NE A. apply KEEP. destruct (arrived b r _ sel R NE A) as (b' & p & E & R' & S & T & M). exists b'. split; [exact E|]. split; [exact R'|]. split; [exact S|]. exists p. auto. }
  unfold allowed in AL. unfold TextBoxSpec.does. change (v_text (view_of b)) with (tb_text b) in *. change (v_focused (view_of b)) with (tb_focused b) in *.
  change (v_editable (view_of b)) with (tb_editable b) in *. change (v_multi (view_of b)) with (tb_multi b) in *.
  destruct c; cbn [TextBoxModel.step]; try (destruct (tb_focused b) eqn:F; [|exact (NOFOC eq_refl)]); cbn [key on_key].
  - apply GO; [exact AL|apply to_line_up; assumption].
  - apply GO; [exact AL|apply to_line_down; assumption].
  - destruct ctrl; [apply GO; [exact AL|apply to_word_left; assumption]|].
    unfold move_prev_char. exact (GO (Ok (prev_character (preceding (tb_ctrl b)) (tb_cursor b))) _ sel AL (to_left b R)).
  - destruct ctrl; [apply GO; [exact AL|apply to_word_right; assumption]|].
    exact (GO (Ok (next_character (following (tb_ctrl b)) (tb_cursor b))) _ sel AL (to_right b R)).
  - destruct ctrl; [exact (GO (Ok 0) (fun _ => text_start) sel AL (to_start b R))|apply GO; [exact AL|apply to_line_start; assumption]].
  - destruct ctrl; [exact (GO (Ok (cp_make (Z.of_nat (length (tb_ctrl b))))) (fun _ => text_end (tb_text b)) sel AL (to_end b R))|apply GO; [exact AL|apply to_line_end; assumption]].
  - apply KEEP. apply backspaced; [exact R|apply AL].
  - apply KEEP. apply deleted; [exact R|apply AL].
  - change (v_multi (view_of b)) with (tb_multi b). unfold key_enter. destruct (tb_multi b) eqn:M.
    + apply KEEP with (P := inserted (view_of b) [10]). destruct (AL eq_refl) as (_ & PR & RM). apply entered; assumption.
    + apply KEEP with (P := left_alone (view_of b)). apply unfocused. exact R.
  - apply KEEP with (P := inserted (view_of b) [9]). destruct AL as (_ & PR & RM). exact (typed b 9 R PR ltac:(unfold scalar; lia) RM).
  - change (v_editable (view_of b)) with (tb_editable b). destruct (tb_editable b) eqn:ED; [|exists b, clip; auto 10].
    destruct (copies b clip R CO) as (clip' & E & C & CO'). rewrite E. cbn [obind].
    destruct (cleared b R (AL eq_refl)) as (b' & E' & R' & S' & H). rewrite E'. cbn [obind]. exists b', clip'. split; [reflexivity|]. split; [exact R'|]. split; [exact CO'|].
    split; [|exact C]. destruct (_ =? _); [destruct H as [-> _]; reflexivity|split; [exact S'|exact H]].
  - destruct (copies b clip R CO) as (clip' & E & C & CO'). rewrite E. cbn [obind]. exists b, clip'. auto 10.
  - change (v_editable (view_of b)) with (tb_editable b). unfold paste. destruct (tb_editable b) eqn:ED.
    + destruct (AL eq_refl) as (PR & s & -> & RM). apply KEEP' with (P := fun v => exists s0, Some s = Some s0 /\ inserted (view_of b) s0 v).
      destruct (put_selected b s _ R PR CO RM eq_refl) as (b' & E & R' & I). exists b'. eauto 10.
    + exists b, clip. auto 10.
  - destruct (all_ok b R AL) as (b' & E & R' & S & T & A & C). rewrite E. cbn [obind]. exists b', clip. auto 10.
  - destruct (tb_focused b) eqn:F; cbn [andb]; [|exists b, clip; auto 10]. destruct (tb_editable b) eqn:ED; cbn [andb]; [|exists b, clip; auto 10]. destruct (AL eq_refl) as (PR & SC & RM).
    apply KEEP' with (P := fun v => inserted (view_of b) (utf8 c) v). apply typed; assumption.
  - apply KEEP. apply pressed_ok; assumption.
  - exists (if tb_focused b then with_focus b true false else b), clip. split; [reflexivity|]. destruct (tb_focused b) eqn:F; (split; [exact R|]); (split; [exact CO|]); cbn; rewrite ?F; repeat split.
  - change (v_drag (view_of b)) with (tb_drag b). destruct (tb_focused b) eqn:F; cbn [andb]; [|exists b, clip; auto 10]. destruct (tb_drag b) eqn:D; [|exists b, clip; auto 10].
    destruct (GO _ (fun _ => hit w al (build false) following (tb_text b) x y) true AL (to_hit b R AL x y)) as (b' & clip' & E & R' & C' & G & EC).
    exists b', clip'. auto 10.
  - apply KEEP. apply unfocused. exact R.
  - destruct AL as (V & SZ & C & A). pose proof R as (P & _). destruct (set_text_ready b t P V SZ C A) as (b' & E & R' & H). rewrite E. cbn [obind]. exists b', clip. auto 10.
  - exists b, s. auto 10.
  - exists (update b dt), clip. split; [reflexivity|]. unfold update. destruct (flash_loop _ _ _) as (t & n). split; [exact R|]. auto.
  - eexists _, clip. split; [reflexivity|]. split; [exact R|]. split; [exact CO|]. repeat split.
  - subst x. pose proof R as ((RI & FO) & S & _). destruct (recalc_ready (with_modes b (tb_editable b) false (tb_multi b) (tb_selectable b)) (conj eq_refl FO) S) as (b' & E & R' & W).
    rewrite E. cbn [obind]. exists b', clip. split; [reflexivity|]. split; [exact R'|]. split; [exact CO|]. rewrite W. split; reflexivity.
  - eexists _, clip. split; [reflexivity|]. split; [exact R|]. split; [exact CO|]. repeat split.
  - eexists _, clip. split; [reflexivity|]. split; [exact R|]. split; [exact CO|]. split; reflexivity.
Qed.

Lemma steps_ok cs : forall b clip, ready b -> clip_ok clip -> allowed_all w al (build false) B following decode white (view_of b) clip cs ->
  exists b' clip', steps w al build strip tall following preceding decode white (b, clip) cs = Ok (b', clip') /\ ready b' /\
    does_all w al (build false) B following decode white (view_of b) clip cs (view_of b') clip'.
Proof.
  induction cs as [|c cs IH]; intros b clip R CO AL.
  - exists b, clip. split; [reflexivity|]. split; [exact R|]. split; reflexivity.
  - destruct AL as (A1 & A2). destruct (step_ok b clip c R CO A1) as (b1 & clip1 & E & R1 & C1 & D). cbn [steps]. rewrite E. cbn [obind].
    pose proof R1 as (_ & S1 & _). destruct (IH b1 clip1 R1 C1 (A2 _ _ D S1)) as (b' & clip' & E' & R' & D'). exists b', clip'. split; [exact E'|]. split; [exact R'|].
    exists (view_of b1), clip1. auto.
Qed.
Lemma fresh_ready e m t : valid_utf8 t -> size t < 2 ^ 31 - 1 ->
  exists b, set_text w al build strip tall (fresh e m) t = Ok b /\ ready b /\ view_of b = shows t e m.
Proof.
  intros V S. assert (O : on_char t 0) by exact (seam [] t V). destruct (set_text_ready (fresh e m) t (conj eq_refl eq_refl) V S O O) as (b & E & R & ((S1 & S2) & S3 & S4) & T1 & T2 & T3).
  exists b. split; [exact E|]. split; [exact R|]. destruct (view_of b). cbn in *. subst. reflexivity.
Qed.
End Box.
