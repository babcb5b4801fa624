(** Cursor movement (C37), hit testing (C56) and ownership of the iterator (C57). *)
From Coq Require Import ZifyBool ZifyNat QArith.
From Verif Require Import Base BaseFacts PackingModel PackingProofs LayoutModel LayoutSpec LayoutProofs LayoutProps CursorModel CursorSpec CursorProofs.
Open Scope Z_scope.

(** ** C37 *)

(** A character to the right: to the next stop, or nowhere at the end. *)
Theorem C37_next_character : forall B n following c, 0 <= n < 2 ^ 31 -> stops_ok B n -> follows_stops B following ->
  let x := cp_get_position c in let r := next_character following c in
  (next_stop B x (cp_get_position r) /\ cp_get_affinity r = ADefault) \/ ((forall b, B b -> b <= x) /\ r = c).
Proof.
  intros B n following c N S F. cbv zeta. unfold next_character. destruct (following_spec B n following (fun z => z) (fun _ => true) N S F c) as [(r & -> & RD & NX & RR)|[-> AL]].
  - rewrite (proj2 (Z.eqb_neq _ _) RD), make_position, make_affinity by exact RR. left. auto.
  - rewrite Z.eqb_refl. right. auto.
Qed.
Print Assumptions C37_next_character.
(** A character to the left: to the stop before, or nowhere at the start. *)
Theorem C37_prev_character : forall B n preceding c, 0 <= n < 2 ^ 31 -> stops_ok B n -> precedes_stops B preceding ->
  let x := cp_get_position c in let r := prev_character preceding c in
  (prev_stop B x (cp_get_position r) /\ cp_get_affinity r = ADefault) \/ ((forall b, B b -> x <= b) /\ r = c).
Proof.
  intros B n preceding c N S P. cbv zeta. unfold prev_character. destruct (preceding_spec B n preceding (fun z => z) (fun _ => true) N S P c) as [(r & -> & RD & NX & RR)|[-> AL]].
  - rewrite (proj2 (Z.eqb_neq _ _) RD), make_position, make_affinity by exact RR. left. auto.
  - rewrite Z.eqb_refl. right. auto.
Qed.
Print Assumptions C37_prev_character.

(** From a stop before the end, left undoes right. *)
Theorem C37_prev_undoes_next : forall B n following preceding c, 0 <= n < 2 ^ 31 -> stops_ok B n -> follows_stops B following -> precedes_stops B preceding ->
  B (cp_get_position c) -> cp_get_position c < n ->
  cp_get_position (prev_character preceding (next_character following c)) = cp_get_position c.
Proof.
  intros B n following preceding c N S F P BC L. destruct S as (S0 & SN & SR).
  destruct (C37_next_character B n following c N (conj S0 (conj SN SR)) F) as [[(N1 & N2 & N3) _]|[A _]]; [|specialize (A n SN); lia].
  destruct (C37_prev_character B n preceding (next_character following c) N (conj S0 (conj SN SR)) P) as [[(P1 & P2 & P3) _]|[A _]].
  - specialize (P3 _ BC N2). destruct (Z.eq_dec (cp_get_position (prev_character preceding (next_character following c))) (cp_get_position c)); [assumption|].
    specialize (N3 _ P1 ltac:(lia)). lia.
  - specialize (A _ BC). lia.
Qed.
Print Assumptions C37_prev_undoes_next.
(** And right undoes left. *)
Theorem C37_next_undoes_prev : forall B n following preceding c, 0 <= n < 2 ^ 31 -> stops_ok B n -> follows_stops B following -> precedes_stops B preceding ->
  B (cp_get_position c) -> 0 < cp_get_position c ->
  cp_get_position (next_character following (prev_character preceding c)) = cp_get_position c.
Proof.
  intros B n following preceding c N S F P BC L. destruct S as (S0 & SN & SR).
  destruct (C37_prev_character B n preceding c N (conj S0 (conj SN SR)) P) as [[(P1 & P2 & P3) _]|[A _]]; [|specialize (A 0 S0); lia].
  destruct (C37_next_character B n following (prev_character preceding c) N (conj S0 (conj SN SR)) F) as [[(N1 & N2 & N3) _]|[A _]].
  - specialize (N3 _ BC P2). destruct (Z.eq_dec (cp_get_position (next_character following (prev_character preceding c))) (cp_get_position c)); [assumption|].
    specialize (P3 _ N1 ltac:(lia)). lia.
  - specialize (A _ BC). lia.
Qed.
Print Assumptions C37_next_undoes_prev.

(** A word to the right: to the next stop that starts a word or is a line break, else
    to the end.  A byte after the text must be readable. *)
Theorem C37_next_word_partial : forall text B n following decode white c, 0 <= n < 2 ^ 31 -> stops_ok B n -> follows_stops B following ->
  n < Z.of_nat (length text) -> cp_get_position c <= n ->
  exists r, next_word text following decode white c = Ok r /\ let x := cp_get_position c in let q := cp_get_position r in
    (((forall b, B b -> b <= x) /\ r = c) \/
     (B q /\ x < q /\ cp_get_affinity r = ADefault /\ (forall b, B b -> x < b < q -> ~ starts_word B decode white x b) /\
      (starts_word B decode white x q \/ forall b, B b -> b <= q))).
Proof.
  intros text B n following decode white c N S F R C. unfold next_word. pose proof (position_range c) as PR.
  rewrite get_ok by lia. cbn [obind].
  apply (next_loop text B n following decode white N S F (cp_get_position c) R); auto; try lia.
Qed.
Print Assumptions C37_next_word_partial.
(** A word to the left: to the last stop that is the first of a word or a line break,
    else to the start. *)
Theorem C37_prev_word : forall text B n preceding decode white c, 0 <= n < 2 ^ 31 -> stops_ok B n -> precedes_stops B preceding ->
  n <= Z.of_nat (length text) -> cp_get_position c <= n ->
  exists r, prev_word text preceding decode white c = Ok r /\ let x := cp_get_position c in let q := cp_get_position r in
    (((forall b, B b -> x <= b) /\ r = c) \/
     (B q /\ q < x /\ cp_get_affinity r = ADefault /\ (forall b, B b -> q < b < x -> ~ first_of_word B decode white b) /\
      (first_of_word B decode white q \/ forall b, B b -> q <= b))).
Proof.
  intros text B n preceding decode white c N S P R C. unfold prev_word. pose proof (position_range c) as PR.
  destruct (prev_loop text B n preceding decode white N S P (cp_get_position c) R (length text) c true) as (r & E & H); auto; try lia.
  exists r. split; [exact E|]. cbv zeta in *. destruct H as [[[_ A] ->]|(A1 & A2 & A3 & A4 & A5)]; [left; auto|right].
  repeat split; auto. destruct A3 as [A3|A3]; [exact A3|subst r; lia].
Qed.
Print Assumptions C37_prev_word.

(** "ab cd": stops at every byte. *)
Definition dtext : list Z := [97; 98; 32; 99; 100; 0].
Definition dB (b : Z) : Prop := 0 <= b <= 5.
Definition dfollowing (x : Z) : Z := if x <? 5 then x + 1 else -1.
Definition dpreceding (x : Z) : Z := if 0 <? x then Z.min 5 (x - 1) else -1.
Definition ddecode (x : Z) : Z := nth (Z.to_nat x) dtext 0.
Definition dwhite (c : Z) : bool := (c =? 32) || (c =? 10).
Example C37_used : stops_ok dB 5 /\ follows_stops dB dfollowing /\ precedes_stops dB dpreceding /\
  next_word dtext dfollowing ddecode dwhite 0 = Ok 3 /\ next_word dtext dfollowing ddecode dwhite 3 = Ok 5 /\
  prev_word dtext dpreceding ddecode dwhite 5 = Ok 3 /\ prev_word dtext dpreceding ddecode dwhite 3 = Ok 0 /\ prev_word dtext dpreceding ddecode dwhite 0 = Ok 0.
Proof.
  split; [unfold stops_ok, dB; repeat split; intros; lia|]. split; [|split; [|repeat split; reflexivity]].
  - intros x X. unfold dfollowing, next_stop, dB, DONE. destruct (Z.ltb_spec x 5); [left; repeat split; intros; lia|right; split; [reflexivity|intros; lia]].
  - intros x X. unfold dpreceding, prev_stop, dB, DONE. destruct (Z.ltb_spec 0 x); [left; repeat split; intros; lia|right; split; [reflexivity|intros; lia]].
Qed.

(** A word to the right reads the byte after the text whenever it gets to the end: when
    that byte is not readable, the end is never reached. *)
Theorem C37_end_of_text_refuted : forall text B n following decode white c r, 0 <= n < 2 ^ 31 -> stops_ok B n -> follows_stops B following ->
  n = Z.of_nat (length text) -> cp_get_position c <= n -> next_word text following decode white c = Ok r -> cp_get_position r < n.
Proof.
  intros text B n following decode white c r N S F R C E. unfold next_word in E. apply obind_ok_inv in E. destruct E as (x & E1 & E2).
  assert (GE : forall i y, u8_get text decode i = Ok y -> i < n).
  { intros i y H. unfold u8_get, zget in H. destruct (i <? 0); [discriminate|]. destruct (vget text (Z.to_nat i)) eqn:V; [|discriminate|discriminate]. apply vget_ok in V.
    assert (nth_error text (Z.to_nat i) <> None) by congruence. apply nth_error_Some in H0. lia. }
  assert (CL : cp_get_position c < n) by exact (GE _ _ E1). clear E1 C.
  revert c CL E2. generalize (white x) as w. generalize (length text) as fuel. intros fuel. clear x.
  induction fuel as [|fuel IH]; intros w c CL E; cbn [next_word_loop] in E; destruct (following_spec B n following (fun z => z) (fun _ => true) N S F c) as [(q & EQ & RD & NX & RR)|[EQ AL]]; rewrite EQ in E.
  - rewrite (proj2 (Z.eqb_neq _ _) RD) in E. discriminate.
  - rewrite Z.eqb_refl in E. inversion E; subst. exact CL.
  - rewrite (proj2 (Z.eqb_neq _ _) RD) in E. apply obind_ok_inv in E. destruct E as (y & E1 & E2). pose proof (GE _ _ E1) as QN.
    destruct (_ || _); [inversion E2; subst; rewrite make_position by exact RR; exact QN|]. eapply IH; [|exact E2]. rewrite make_position by exact RR. exact QN.
  - rewrite Z.eqb_refl in E. inversion E; subst. exact CL.
Qed.
Print Assumptions C37_end_of_text_refuted.
Example C37_end_of_text_used : next_word (firstn 5 dtext) dfollowing ddecode dwhite 3 = UB /\ next_word (firstn 5 dtext) dfollowing ddecode dwhite 0 = Ok 3.
Proof. split; reflexivity. Qed.

(** ** C56 *)

(** A click goes to the line it is on, or the last one below the text, and there to
    the caret that is found for it, which is a stop of that line. *)
Theorem C56_hit : forall B following d y w al x q lay, doc_ok d -> stored d y lay -> d <> [] -> Forall (fun s => 0 <= sl_height s)%Q d ->
  walks B following -> Forall run_ok (doc_runs d) -> Forall (begins_at_stops B) (doc_runs d) ->
  exists k s c r, nth_error d k = Some s /\ (forall i, (i < k)%nat -> (bottom d i < q)%Q) /\ ((q <= bottom d k)%Q \/ S k = length d) /\
    closest_to_position following lay w al x q = Ok c /\ find_closest_cursor_position following lay w al k x = Ok c /\
    In r (sl_runs s) /\ B (cp_get_position c) /\ sr_start r <= cp_get_position c <= sr_end r.
Proof.
  intros B following d y w al x q lay OKD ST NE HT W RO BS.
  destruct (C31_closest_line d y q lay OKD ST HT) as (k0 & E & K1 & K2 & K3).
  assert (LL : length (lo_lines lay) = length d).
  { rewrite (stored_eq OKD ST). cbn [layout_of lo_lines]. unfold doc_lines. apply length_lines_of. }
  set (k := if (k0 =? length (lo_lines lay))%nat then (length (lo_lines lay) - 1)%nat else k0).
  assert (LD : (0 < length d)%nat) by (destruct d; [congruence|cbn; lia]).
  assert (KL : (k < length d)%nat) by (unfold k; rewrite LL; destruct (Nat.eqb_spec k0 (length d)); lia).
  destruct (nth_error d k) as [s|] eqn:NS; [|apply nth_error_None in NS; lia].
  assert (IS : In s d) by exact (nth_error_In _ _ NS).
  assert (SUB : forall r, In r (sl_runs s) -> In r (doc_runs d)) by (intros r R; unfold doc_runs; apply in_flat_map; exists s; auto).
  destruct (C35_legal B following d y k s w al x lay OKD ST W NS) as (c & r & E2 & IR & BC & RG).
  - unfold doc_ok in OKD. rewrite Forall_forall in OKD. exact (OKD s IS).
  - apply Forall_forall. intros r R. rewrite Forall_forall in RO. apply RO, SUB, R.
  - apply Forall_forall. intros r R. rewrite Forall_forall in BS. apply BS, SUB, R.
  - exists k, s, c, r. split; [exact NS|]. split; [|split].
    + intros i I. apply K2. unfold k in I. rewrite LL in I. destruct (Nat.eqb_spec k0 (length d)); lia.
    + unfold k. rewrite LL. destruct (Nat.eqb_spec k0 (length d)); [right; lia|left; apply K3; lia].
    + split; [|auto]. unfold closest_to_position. rewrite E. cbn [obind]. exact E2.
Qed.
Print Assumptions C56_hit.
Example C56_used : closest_to_position each (layout_of sample 0) 100 XRight (20 + 44) 5 = Ok 5 /\ doc_ok sample /\ Forall run_ok (doc_runs sample).
Proof.
  split; [vm_compute; reflexivity|]. split; [exact sample_ok|]. unfold sample, doc_runs, run_ok. cbn -[Z.pow]. repeat constructor; cbn -[Z.pow]; lia.
Qed.
(** The height is measured from the first line, not from where the text is placed: with
    the text placed at 100, a click on its first line goes to the last. *)
Theorem C56_vertical_start_refuted : exists d y c, doc_ok d /\ (y == 100)%Q /\ (1 < length d)%nat /\
  closest_to_position each (layout_of d y) 100 XLeft 0 (y + 5) = Ok c /\ find_closest_cursor_position each (layout_of d y) 100 XLeft 0 0 <> Ok c.
Proof.
  exists sample, 100%Q. eexists. split; [exact sample_ok|]. split; [reflexivity|]. split; [cbn; lia|]. split; [vm_compute; reflexivity|]. vm_compute. discriminate.
Qed.
Print Assumptions C56_vertical_start_refuted.

(** ** C57 *)

(** In every history without undefined behaviour each controller owns an iterator of
    its own that is not deleted, and no iterator is deleted twice. *)
Theorem C57_owners_partial : forall os w, cc_steps cw_empty os = Ok w ->
  initialised w /\ NoDup (owners w ++ cw_deleted w).
Proof.
  intros os w E. destruct (steps_good os cw_empty w) as (I & ND & _); auto.
  split; [intros c []|]. split; [constructor|intros p []].
Qed.
Print Assumptions C57_owners_partial.
Example C57_used : exists w, cc_steps cw_empty [CNew; CNew; CSetText 0 [1]; CMoveAssign 1 0; CDestroy 0; CMoveAssign 1 1; CDestroy 1] = Ok w /\ cw_deleted w = [1%nat; 0%nat].
Proof. eexists. split; reflexivity. Qed.
(** Constructing a controller from another is always undefined: the pointer that is
    swapped has no value. *)
Theorem C57_move_construct_refuted : forall w from c, cc_get w from = Ok c -> cc_step w (CMoveNew from) = UB.
Proof.
  intros w from c G. cbn [cc_step]. unfold cc_move_assign, cc_get in *. cbn [cw_all]. rewrite vget_mid. cbn [obind].
  assert (L : (from < length (cw_all w))%nat).
  { destruct (vget (cw_all w) from) eqn:V; [|discriminate|discriminate]. apply vget_ok in V. apply nth_error_Some. congruence. }
  rewrite vget_app1 by exact L. rewrite G. reflexivity.
Qed.
Print Assumptions C57_move_construct_refuted.
Example C57_move_construct_used : exists w c, cc_steps cw_empty [CNew; CSetText 0 [1]] = Ok w /\ cc_get w 0 = Ok c.
Proof. eexists. eexists. split; reflexivity. Qed.
(** Assignment moves the iterator but not the text: the two no longer agree. *)
Theorem C57_move_text_refuted : exists os w, cc_steps cw_empty os = Ok w /\ ~ in_step w.
Proof.
  exists [CNew; CNew; CSetText 0 [1; 2]; CMoveAssign 1 0]. eexists. split; [reflexivity|]. intros H.
  specialize (H {| cc_iter := Some 0%nat; cc_text := [] |} 0%nat). cbn in H. specialize (H ltac:(right; left; reflexivity) eq_refl). discriminate.
Qed.
Print Assumptions C57_move_text_refuted.
