(** The properties of C31 - C36, stated on the tables of a document. *)
From Coq Require Import Lqa Qabs.
From Verif Require Import Base BaseFacts PackingModel PackingProofs LayoutModel LayoutSpec LayoutProofs LayoutGeomProofs LayoutCaretProofs
  LayoutCursorProofs LayoutHitProofs.
Open Scope Z_scope.

Set Implicit Arguments.
Lemma t_C31_line_geometry : forall d y w a,
  (forall d1 s d2, d = d1 ++ s :: d2 ->
     (exists h, get_line_height (layout_of d y) (length d1) = Ok h /\ (h == sl_height s)%Q) /\
     exists x, get_line_x_start (layout_of d y) (length d1) w a = Ok x /\
       match a with
       | XLeft => (x == 0)%Q
       | XRight => (x + line_width s == w)%Q
       | XCenter => (x == w - (x + line_width s))%Q
       end) /\
  (get_text_height (layout_of d y) == heights d)%Q /\
  (exists calls, for_each_line (layout_of d y) w a = Ok calls /\ Forall2 call_eq calls (expected_calls w a 0 y d)).
Proof.
  intros d y w a. split; [|split; [apply text_height_of|apply for_each_line_of]].
  intros d1 s d2 ->. split; [apply line_height_of|]. rewrite line_x_start_of. eexists. split; [reflexivity|].
  destruct a; try reflexivity; ring.
Qed.

Lemma t_C31_heights_nonnegative : forall d y i h, Forall (fun s => 0 <= sl_height s)%Q d ->
  (i < length d)%nat -> get_line_height (layout_of d y) i = Ok h -> (0 <= h)%Q.
Proof.
  intros d y i h F Hi E. destruct (nth_error d i) as [s|] eqn:Es; [|apply nth_error_None in Es; lia].
  destruct (split_nth _ _ Es) as [Ed L]. destruct (line_height_of y (firstn i d) s (skipn (S i) d)) as (h' & Eh & Hh).
  rewrite <- Ed, L, E in Eh. inversion Eh; subst h'. rewrite Hh. rewrite Forall_forall in F. apply F. eapply nth_error_In; eauto.
Qed.

Lemma t_C31_text_width : forall d y, let w := get_text_width (layout_of d y) in
  (0 <= w)%Q /\ (forall s, In s d -> (line_width s <= w)%Q) /\ ((w == 0)%Q \/ exists s, In s d /\ w = line_width s).
Proof. exact text_width_of. Qed.

Lemma t_C31_closest_line : forall d y q, Forall (fun s => 0 <= sl_height s)%Q d ->
  exists r, get_closest_line_to_height (layout_of d y) q = Ok r /\ (r <= length d)%nat /\
    (forall i, (i < r)%nat -> (bottom d i < q)%Q) /\ (forall i, (r <= i < length d)%nat -> (q <= bottom d i)%Q).
Proof. exact closest_line_of. Qed.

Lemma t_C32_interior : forall d y c i r, doc_ok d -> nth_error (doc_runs d) i = Some r ->
  sr_start r < cp_get_position c < sr_end r + sr_offset r ->
  exists run line, get_run_containing_cursor (layout_of d y) c = Ok (Z.of_nat run, line) /\
    run_on_line d run line /\ run_holds d run (cp_get_position c).
Proof. intros d y c i r. apply cursor_inside. Qed.

Lemma t_C32_every_position : forall d y c r0 rn, doc_ok d -> joined d -> Forall run_ok (doc_runs d) ->
  nth_error (doc_runs d) 0 = Some r0 -> nth_error (doc_runs d) (length (doc_runs d) - 1) = Some rn ->
  sr_start r0 <= cp_get_position c <= sr_end rn + sr_offset rn ->
  exists run line, get_run_containing_cursor (layout_of d y) c = Ok (Z.of_nat run, line) /\
    run_on_line d run line /\ run_holds d run (cp_get_position c).
Proof.
  intros d y c r0 rn OK J R E0 En Hp. apply (@cursor_joined d y c r0 rn OK J); auto.
  intros t Ht. rewrite Forall_forall in R. destruct (R _ Ht) as (? & ? & ? & _). lia.
Qed.

Lemma t_C32_boundary_policy : forall d y c i k r q, doc_ok d -> joined d -> Forall run_ok (doc_runs d) ->
  nth_error (doc_runs d) i = Some r -> nth_error (doc_runs d) (S i) = Some q -> cp_get_position c = sr_start q -> run_on_line d i k ->
  (keeps_cursor d i k r q (cp_get_affinity c) ->
     get_run_containing_cursor (layout_of d y) c = Ok (Z.of_nat i, k)) /\
  (~ keeps_cursor d i k r q (cp_get_affinity c) ->
     exists line, get_run_containing_cursor (layout_of d y) c = Ok (Z.of_nat (S i), line) /\ run_on_line d (S i) line).
Proof.
  intros d y c i k r q OK J R Er Eq Hp Hk.
  assert (LE : forall t, In t (doc_runs d) -> sr_start t <= sr_end t + sr_offset t).
  { intros t Ht. rewrite Forall_forall in R. destruct (R _ Ht) as (? & ? & ? & _). lia. }
  destruct (@cursor_boundary d y c i r q OK J LE Er Eq Hp k Hk) as (line & E & O). cbv zeta in E, O.
  destruct (J _ _ _ Er Eq) as (_ & _ & Dir). specialize (Dir k Hk).
  set (a := cp_get_affinity c) in *. unfold affinity_prefer_prev_run in E, O. unfold keeps_cursor.
  destruct (Nat.eqb_spec (S i) (run_first d (S k))) as [Hb|Hb]; cbn [negb andb orb] in E, O.
  - assert (N : ~ run_on_line d (S i) k) by (intros [_ [_ H]]; unfold run_first in Hb; lia).
    rewrite !orb_false_r in E, O. split.
    + intros [[H _]|[[H _]|(_ & Ho & Ha)]]; [contradiction|contradiction|]. rewrite Ho, Ha in E, O. cbn in E, O.
      rewrite (on_line_unique Hk O). exact E.
    + intros K. exists line. destruct (Z.eqb_spec (sr_offset r) 0) as [Ho|Ho]; cbn [andb] in E, O; [|auto].
      destruct a; cbn [affinity_eqb] in E, O; [auto|]. exfalso. apply K. right. right. auto.
  - assert (Y : run_on_line d (S i) k).
    { destruct Hk as [Hk1 Hk2]. split; [exact Hk1|]. unfold run_first in Hb. lia. }
    split.
    + intros [(_ & H1 & H2 & H3)|[(_ & H1 & H2 & H3)|(H & _)]]; [| |contradiction];
        rewrite H1, H2, H3 in E, O; cbn in E, O; rewrite (on_line_unique Hk O); exact E.
    + intros K. exists line. destruct (sr_rtl r), (sr_rtl q), a; cbn in E, O; auto; exfalso; apply K; [left|right; left]; auto.
Qed.

Lemma t_C33_caret : forall d y pre r post, doc_runs d = pre ++ r :: post -> run_ok r -> qnondecreasing (run_xs r) ->
  forall p, sr_start r <= p <= sr_end r -> exists x, get_glyph_offset_in_run (layout_of d y) (length pre) p = Ok x /\
  (run_first_x r <= x <= sr_end_x r)%Q /\
  (forall k, (k <= run_len r)%nat -> nth k (logical_chars r) (sr_end r) = p ->
     (forall j, (j < k)%nat -> nth j (logical_chars r) (sr_end r) < p) -> (x == nth k (logical_xs r) 0)%Q) /\
  (forall q, p <= q <= sr_end r -> exists z, get_glyph_offset_in_run (layout_of d y) (length pre) q = Ok z /\ reads r x z).
Proof.
  intros d y pre r post E OK M p Hp. destruct (@run_caret d y pre r post E OK p Hp) as (g & x & Ex & C).
  exists x. split; [exact Ex|]. split; [exact (caret_bounds OK M C)|]. split.
  - intros k Hk Ek Hj. exact (caret_boundary OK C Hk Ek Hj).
  - intros q Hq. destruct (@run_caret d y pre r post E OK q ltac:(lia)) as (h & z & Ez & Cz). exists z. split; [exact Ez|].
    eapply caret_mono; [exact OK|exact M|exact C|exact Cz|lia].
Qed.

Lemma t_C33_interpolation : forall d y pre r post, doc_runs d = pre ++ r :: post -> run_ok r ->
  forall p k, (k < run_len r)%nat -> nth k (logical_chars r) (sr_end r) < p <= char_after r k ->
  exists x, get_glyph_offset_in_run (layout_of d y) (length pre) p = Ok x /\
  (x == lerp (nth k (logical_xs r) 0) (nth (S k) (logical_xs r) 0) (nth k (logical_chars r) (sr_end r)) (char_after r k) p)%Q.
Proof.
  intros d y pre r post E OK p k Hk Hp.
  assert (Hr : sr_start r <= p <= sr_end r).
  { pose proof (run_ok_chars OK Hk). pose proof (@run_ok_range r (S k) OK) as R. fold (char_after r k) in R. lia. }
  destruct (@run_caret d y pre r post E OK p Hr) as (g & x & Ex & C). exists x. split; [exact Ex|].
  assert (g = S k).
  { destruct C as (Hg & Lo & Hi & _). destruct (lt_eq_lt_dec g (S k)) as [[H|H]|H]; [|exact H|].
    - specialize (Hi k ltac:(lia)). lia.
    - specialize (Lo (S k) H). unfold char_after in Hp. lia. }
  subst g. apply C.
Qed.

Lemma t_C33_empty_run : forall d y pre r post, doc_runs d = pre ++ r :: post -> run_ok r -> sr_glyphs r = [] ->
  exists x, get_glyph_offset_in_run (layout_of d y) (length pre) (sr_start r) = Ok x /\ (x == sr_end_x r)%Q.
Proof.
  intros d y pre r post E OK G. pose proof OK as (O1 & _).
  destruct (@run_caret d y pre r post E OK (sr_start r) ltac:(lia)) as (g & x & Ex & C). exists x. split; [exact Ex|].
  assert (L : run_len r = 0%nat) by (unfold run_len; rewrite G; reflexivity).
  rewrite (caret_boundary OK C (k := 0)); [|lia|apply run_ok_first; exact OK|lia].
  pose proof (logical_first_last r) as FL. destruct (sr_rtl r); destruct FL as [F1 F2]; [rewrite F1; reflexivity|].
  rewrite L in F2. rewrite F2. reflexivity.
Qed.

Lemma t_C34_position_range : forall d y pre r post, doc_runs d = pre ++ r :: post -> run_ok r -> qnondecreasing (run_xs r) ->
  forall first last, first <= last ->
  let cut p := Z.max (Z.min p (sr_end r)) (sr_start r) in
  exists a b, get_position_range_in_run (layout_of d y) (length pre) first last = Ok (a, b) /\
    (run_first_x r <= a)%Q /\ (a <= b)%Q /\ (b <= sr_end_x r)%Q /\
    get_glyph_offset_in_run (layout_of d y) (length pre) (cut first) = Ok (if sr_rtl r then b else a) /\
    get_glyph_offset_in_run (layout_of d y) (length pre) (cut last) = Ok (if sr_rtl r then a else b).
Proof. intros d y pre r post E OK M first last H cut. exact (@range_of d y pre r post E OK M first last H). Qed.

Lemma t_C34_contains_range : forall d y pre r post, doc_runs d = pre ++ r :: post ->
  forall first last, first < last -> sr_start r < sr_end r ->
  exists b, run_contains_char_range (layout_of d y) (length pre) first last = Ok b /\
    (b = true <-> exists c, first <= c < last /\ sr_start r <= c < sr_end r).
Proof.
  intros d y pre r post E first last H1 H2. destruct (@doc_run_view d y pre r post E) as (V & _).
  unfold run_contains_char_range. rewrite V. eexists. split; [reflexivity|]. cbn [vrun_of ru_start ru_end].
  rewrite andb_true_iff, !Z.ltb_lt. split; [intros [H3 H4]; exists (Z.max first (sr_start r)); lia|intros (c & H3 & H4); lia].
Qed.

Lemma t_C35_terminates : forall following d y k s w al x, forward following ->
  nth_error d k = Some s -> sl_runs s <> [] -> Forall run_ok (sl_runs s) ->
  exists c, find_closest_cursor_position following (layout_of d y) w al k x = Ok c.
Proof. exact hit_terminates. Qed.

Lemma t_C35_legal : forall B following d y k s w al x, walks B following -> nth_error d k = Some s -> sl_runs s <> [] ->
  Forall run_ok (sl_runs s) -> Forall (begins_at_stops B) (sl_runs s) ->
  exists c r, find_closest_cursor_position following (layout_of d y) w al k x = Ok c /\
    In r (sl_runs s) /\ B (cp_get_position c) /\ sr_start r <= cp_get_position c <= sr_end r.
Proof. exact hit_legal. Qed.

Lemma t_C35_nearest : forall B following d y k s w al x, walks B following -> nth_error d k = Some s -> sl_runs s <> [] ->
  Forall run_ok (sl_runs s) -> Forall (begins_at_stops B) (sl_runs s) ->
  Forall (fun r => increasing (logical_chars r)) (sl_runs s) ->
  Forall (fun r => qnondecreasing (run_xs r)) (sl_runs s) -> adjacent (sl_runs s) ->
  let l := layout_of d y in
  let first := length (doc_runs (firstn k d)) in
  let caret j p X := exists r, nth_error (sl_runs s) j = Some r /\ sr_start r <= p <= sr_end r /\
                               get_glyph_offset_in_run l (first + j) p = Ok X in
  exists x0 c j X, get_line_x_start l k w al = Ok x0 /\
    find_closest_cursor_position following l w al k x = Ok c /\ B (cp_get_position c) /\ caret j (cp_get_position c) X /\
    forall i p Y, B p -> caret i p Y -> (Qabs (x - x0 - X) <= Qabs (x - x0 - Y))%Q.
Proof. intros. apply (@hit_nearest B following d y k s w al x); assumption. Qed.

Lemma t_C35_round_trip : forall B following d y k s w al, walks B following -> nth_error d k = Some s -> sl_runs s <> [] ->
  Forall run_ok (sl_runs s) -> Forall (begins_at_stops B) (sl_runs s) ->
  Forall (fun r => increasing (logical_chars r)) (sl_runs s) ->
  Forall (fun r => qnondecreasing (run_xs r)) (sl_runs s) -> adjacent (sl_runs s) ->
  let l := layout_of d y in
  let first := length (doc_runs (firstn k d)) in
  let caret j p X := exists r, nth_error (sl_runs s) j = Some r /\ sr_start r <= p <= sr_end r /\
                               get_glyph_offset_in_run l (first + j) p = Ok X in
  forall j p X x0, B p -> caret j p X -> get_line_x_start l k w al = Ok x0 ->
  (forall i q Y, B q -> caret i q Y -> (Y == X)%Q -> q = p) ->
  exists c, find_closest_cursor_position following l w al k (x0 + X)%Q = Ok c /\ cp_get_position c = p.
Proof.
  intros B following d y k s w al W Es NE OK ST ONE MX ADJ l first caret j p X x0 Bp CX E0 U.
  destruct (@hit_nearest B following d y k s w al (x0 + X)%Q W Es NE OK ST ONE MX ADJ) as (x0' & c & j' & X' & E0' & Ec & Bc & CX' & Near).
  fold l in E0'. rewrite E0 in E0'. inversion E0'; subst x0'. exists c. split; [exact Ec|].
  apply (U j' (cp_get_position c) X' Bc CX'). specialize (Near j p X Bp CX).
  assert (Z : (x0 + X - x0 - X == 0)%Q) by ring. rewrite Z in Near. change (Qabs 0) with 0%Q in Near.
  revert Near. apply Qabs_case; intros; lra.
Qed.

Lemma t_C35_on_line : forall B following d y k s w al x, walks B following -> doc_ok d -> joined d -> Forall run_ok (doc_runs d) ->
  Forall (fun r => sr_rtl r = false) (doc_runs d) ->
  (forall i r q, nth_error (doc_runs d) i = Some r -> nth_error (doc_runs d) (S i) = Some q -> sr_start q = sr_end q -> sr_offset r <> 0) ->
  nth_error d k = Some s -> Forall (begins_at_stops B) (sl_runs s) ->
  exists c run, find_closest_cursor_position following (layout_of d y) w al k x = Ok c /\
    get_run_containing_cursor (layout_of d y) c = Ok (run, k).
Proof. exact hit_on_line. Qed.

Lemma t_C36_line_start_partial : forall d y k s, nth_error d k = Some s -> sl_runs s <> [] -> Forall run_ok (sl_runs s) ->
  (forall r q, In r (sl_runs s) -> In q (sl_runs s) -> r = q \/ sr_end r <= sr_start q \/ sr_end q <= sr_start r) ->
  (forall r, In r (sl_runs s) -> sr_start r < sr_end r \/ sl_runs s = [r]) ->
  exists c r, get_line_start_position (layout_of d y) k = Ok c /\ In r (sl_runs s) /\
    (forall q, In q (sl_runs s) -> sr_start r <= sr_start q) /\
    (sr_rtl r = false -> cp_get_position c = sr_start r /\ cp_get_affinity c = ADefault) /\
    (sr_rtl r = true -> cp_get_position c = sr_end r).
Proof.
  intros d y k s Es NE OK DIS NON. destruct (line_start_of d y k Es NE) as (r & Hr & Min & E).
  rewrite Forall_forall in OK. pose proof (OK _ Hr) as (O1 & O2 & _).
  eexists. exists r. split; [exact E|]. split; [exact Hr|]. split.
  - intros q Hq. specialize (Min q Hq). destruct (NON r Hr) as [H|H].
    + destruct (DIS r q Hr Hq) as [->|[H'|H']]; [lia|lia|]. pose proof (OK _ Hq) as (Q1 & _). lia.
    + rewrite H in Hq. destruct Hq as [<-|[]]. lia.
  - split; intros ->; rewrite cp_make_position by lia; [|reflexivity]. split; [reflexivity|].
    unfold cp_make, cp_get_affinity. rewrite wrap_small by lia. rewrite Z.shiftr_div_pow2, Z.div_small by lia. reflexivity.
Qed.

Lemma t_C36_line_end_partial : forall d y k s, nth_error d k = Some s -> sl_runs s <> [] -> Forall run_ok (sl_runs s) ->
  exists c j r, get_line_end_position (layout_of d y) k = Ok c /\ nth_error (sl_runs s) j = Some r /\
    (forall q, In q (sl_runs s) -> sr_end q <= sr_end r) /\
    (sr_rtl r = false -> cp_get_position c = sr_end r) /\ (sr_rtl r = true -> cp_get_position c = sr_start r) /\
    cp_get_affinity c = (if (S j =? length (sl_runs s))%nat && (sr_offset r =? 0) then AOpposite else ADefault).
Proof.
  intros d y k s Es NE OK. destruct (line_end_of d y k Es NE) as (j & r & Hr & Max & E).
  rewrite Forall_forall in OK. pose proof (OK _ (nth_error_In _ _ Hr)) as (O1 & O2 & _).
  eexists. exists j, r. split; [exact E|]. split; [exact Hr|]. split; [exact Max|].
  split; [intros ->; rewrite make_cursor_position by lia; reflexivity|].
  split; [intros ->; rewrite make_cursor_position by lia; reflexivity|].
  apply make_cursor_affinity. destruct (sr_rtl r); lia.
Qed.

Lemma t_C36_on_line : forall d y k s c, doc_ok d -> joined d -> Forall run_ok (doc_runs d) ->
  Forall (fun r => sr_rtl r = false) (doc_runs d) ->
  (forall i r q, nth_error (doc_runs d) i = Some r -> nth_error (doc_runs d) (S i) = Some q -> sr_start q = sr_end q -> sr_offset r <> 0) ->
  nth_error d k = Some s ->
  get_line_start_position (layout_of d y) k = Ok c \/ get_line_end_position (layout_of d y) k = Ok c ->
  exists run, get_run_containing_cursor (layout_of d y) c = Ok (run, k).
Proof.
  intros d y k s c DOK J OKs LTRs SEP Es H. rewrite Forall_forall in OKs, LTRs.
  assert (Sub : forall t, In t (sl_runs s) -> In t (doc_runs d)).
  { intros t Ht. unfold doc_runs. apply in_flat_map. exists s. split; [exact (nth_error_In _ _ Es)|exact Ht]. }
  assert (NE : sl_runs s <> []) by (unfold doc_ok in DOK; rewrite Forall_forall in DOK; apply DOK, (nth_error_In _ _ Es)).
  assert (LE : forall t, In t (doc_runs d) -> sr_start t <= sr_end t + sr_offset t).
  { intros t Ht. destruct (OKs _ Ht) as (? & ? & ? & _). lia. }
  destruct H as [H|H].
  - destruct (line_start_of d y k Es NE) as (r & Hr & Min & E). rewrite E in H. inversion H; subst c. clear H E.
    rewrite (LTRs _ (Sub _ Hr)). pose proof (OKs _ (Sub _ Hr)) as (O1 & O2 & O3 & _).
    assert (EA : cp_get_affinity (cp_make (sr_start r)) = ADefault).
    { unfold cp_make, cp_get_affinity. rewrite wrap_small by lia. rewrite Z.shiftr_div_pow2, Z.div_small by lia. reflexivity. }
    apply In_nth_error in Hr as (j & Ej).
    assert (Hj : (j < length (sl_runs s))%nat) by (apply nth_error_Some; congruence).
    apply (@cursor_on_line d y (cp_make (sr_start r)) k s j r); try assumption; rewrite ?cp_make_position by lia; [lia| |].
    + intros. exact EA.
    + intros Hp Hl q Eq. exfalso.
      destruct (J (run_first d k + j)%nat r q) as (_ & Hlt & _); [rewrite (line_runs d k Es Hj); exact Ej|exact Eq|]. lia.
  - destruct (line_end_of d y k Es NE) as (j & r & Ej & Max & E). rewrite E in H. inversion H; subst c. clear H E.
    pose proof (nth_error_In _ _ Ej) as Hr. rewrite (LTRs _ (Sub _ Hr)). pose proof (OKs _ (Sub _ Hr)) as (O1 & O2 & O3 & _).
    assert (P : 0 <= sr_end r < 2 ^ 31) by lia. set (o := (S j =? length (sl_runs s))%nat && (sr_offset r =? 0)).
    assert (Hj : (j < length (sl_runs s))%nat) by (apply nth_error_Some; congruence).
    apply (@cursor_on_line d y (make_cursor (sr_end r) o) k s j r); auto;
      rewrite ?(make_cursor_position o P), ?(make_cursor_affinity o P); [lia| |].
    + intros Hp Hj0 i' q Hi' Eq Ho. exfalso. eapply (SEP i' q r); [exact Eq| |lia|exact Ho].
      rewrite <- Hi'. rewrite (line_runs d k Es Hj). exact Ej.
    + intros Hp Hl q _. split; [lia|]. unfold o. rewrite (proj2 (Nat.eqb_eq _ _) Hl). rewrite (proj2 (Z.eqb_eq (sr_offset r) 0)) by lia. reflexivity.
Qed.
