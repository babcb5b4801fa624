(** C117: edits that take each other back. *)
From Coq Require Import ZifyBool ZifyNat.
From Verif Require Import Base FloatModel BaseFacts PackingModel LayoutModel LayoutSpec CursorModel CursorSpec TextBoxModel TextBoxSpec
  TextBoxLayoutProofs TextBoxUtfProofs TextBoxProofs TextBoxExample TextBoxProps.
Open Scope Z_scope.

(** ** Lists *)
Lemma before_all t i : 0 <= i <= size t -> size (before t i) = i.
Proof. unfold before, size. intros H. rewrite firstn_length. lia. Qed.
Lemma skip_twice {A} a b (l : list A) : skipn (a + b) l = skipn a (skipn b l).
Proof. revert l. induction b as [|b IH]; intros l; [rewrite Nat.add_0_r; reflexivity|]. rewrite Nat.add_succ_r. destruct l; [destruct a; reflexivity|apply IH]. Qed.
Lemma parts t i j : 0 <= i <= j -> j <= size t -> before t i ++ before (after t i) (j - i) ++ after t j = t.
Proof.
  unfold before, after, size. intros H1 H2. replace (Z.to_nat j) with (Z.to_nat (j - i) + Z.to_nat i)%nat by lia.
  rewrite skip_twice. rewrite (firstn_skipn (Z.to_nat (j - i))). apply firstn_skipn.
Qed.
Lemma before_app a b i : size a = i -> before (a ++ b) i = a.
Proof. unfold before, size. intros <-. rewrite Nat2Z.id, firstn_app, firstn_all, Nat.sub_diag. cbn. apply app_nil_r. Qed.
Lemma after_app a b i : size a = i -> after (a ++ b) i = b.
Proof. unfold after, size. intros <-. rewrite Nat2Z.id, skipn_app, skipn_all, Nat.sub_diag. reflexivity. Qed.
Lemma size_app a b : size (a ++ b) = size a + size b.
Proof. unfold size. rewrite app_length. lia. Qed.

Section Laws.
Variables (w : Q) (al : xalign) (build : bool -> list Z -> layout) (strip : list Z -> list Z) (tall : Q).
Variables (B : list Z -> Z -> Prop) (following preceding : list Z -> Z -> Z) (decode : list Z -> Z -> Z) (white : Z -> bool).
Hypothesis GS : good_stops B following preceding.
Hypothesis GL : good_layouts (build false) B.
Notation run := (steps w al build strip tall following preceding decode white).
Notation may := (allowed_all w al (build false) B following decode white).
Notation all := (does_all w al (build false) B following decode white).

Lemma history_ready cs : forall b clip, ready w al build tall b -> clip_ok clip -> may (view_of b) clip cs ->
  exists b' clip', run (b, clip) cs = Ok (b', clip') /\ ready w al build tall b' /\ clip_ok clip'.
Proof.
  induction cs as [|c cs IH]; intros b clip R CO AL.
  - exists b, clip. split; [reflexivity|]. split; [exact R|exact CO].
  - destruct AL as (A1 & A2). destruct (step_ok w al build strip tall B following preceding decode white GS GL b clip c R CO A1) as (b1 & clip1 & E & R1 & C1 & D).
    cbn [steps]. rewrite E. cbn [obind]. pose proof R1 as (_ & S1 & _). destruct (IH b1 clip1 R1 C1 (A2 _ _ D S1)) as (b' & clip' & E' & R' & C'). exists b', clip'. auto.
Qed.
Lemma reached editable multi t clip cs : valid_utf8 t -> size t < 2 ^ 31 - 1 -> match clip with Some s => valid_utf8 s | None => True end ->
  may (shows t editable multi) clip cs ->
  exists b clip', run (fresh editable multi, clip) (CReplace t :: cs) = Ok (b, clip') /\ ready w al build tall b /\ clip_ok clip'.
Proof.
  intros V SZ CO AL. destruct (fresh_ready w al build strip tall B GL editable multi t V SZ) as (b0 & E & R & W). cbn [steps step]. rewrite E. cbn [obind].
  rewrite <- W in AL. exact (history_ready cs b0 clip R CO AL).
Qed.
Lemma ready_sound b : ready w al build tall b -> sound (view_of b).
Proof. intros (_ & S & _). exact S. Qed.
Lemma run_two b clip c1 c2 : ready w al build tall b -> clip_ok clip -> may (view_of b) clip [c1; c2] ->
  exists b1 clip1 b2 clip2, run (b, clip) [c1; c2] = Ok (b2, clip2) /\ sound (view_of b1) /\
    does w al (build false) B following decode white (view_of b) clip c1 (view_of b1) clip1 /\
    does w al (build false) B following decode white (view_of b1) clip1 c2 (view_of b2) clip2.
Proof.
  intros R CO (A1 & A2). destruct (step_ok w al build strip tall B following preceding decode white GS GL b clip c1 R CO A1) as (b1 & clip1 & E1 & R1 & C1 & D1).
  pose proof (ready_sound b1 R1) as S1. destruct (A2 _ _ D1 S1) as (A3 & _).
  destruct (step_ok w al build strip tall B following preceding decode white GS GL b1 clip1 c2 R1 C1 A3) as (b2 & clip2 & E2 & R2 & C2 & D2).
  exists b1, clip1, b2, clip2. cbn [steps]. rewrite E1. cbn [obind]. rewrite E2. cbn [obind]. auto.
Qed.

Lemma range v : sound v -> 0 <= first v <= last v /\ last v <= size (v_text v).
Proof. intros (_ & _ & (P & _) & (O & _)). unfold first, last. lia. Qed.
Lemma no_anchor b : v_anchor (view_of b) = None -> cp_is_valid (tb_anchor b) = false.
Proof. cbn. destruct (cp_is_valid (tb_anchor b)); [discriminate|reflexivity]. Qed.

Lemma cut_paste b clip : ready w al build tall b -> clip_ok clip -> tb_focused b = true -> tb_editable b = true -> first (view_of b) < last (view_of b) ->
  exists b', run (b, clip) [KCut; KPaste] = Ok (b', Some (selected (view_of b))) /\ tb_text b' = tb_text b /\
    cp_get_position (tb_cursor b') = last (view_of b) /\ cp_is_valid (tb_anchor b') = false.
Proof.
  intros R CO FO ED LT. remember (view_of b) as v eqn:Hv. pose proof (ready_sound b R) as S. rewrite <- Hv in S. destruct (range v S) as [R1 R2].
  assert (FO' : v_focused v = true) by (rewrite Hv; exact FO). assert (ED' : v_editable v = true) by (rewrite Hv; exact ED). assert (TX : tb_text b = v_text v) by (rewrite Hv; reflexivity).
  assert (NEQ : (first v =? last v) = false) by (apply Z.eqb_neq; clear - LT; lia).
  assert (PR : proper v).
  { intros a Ha E. unfold first, last, other in LT. rewrite Ha in LT. clear - LT E. lia. }
  assert (Sel : size (selected v) = last v - first v).
  { unfold selected. rewrite before_all; [reflexivity|]. unfold after, size. rewrite skipn_length. unfold size in R2. clear - R1 R2. lia. }
  destruct (run_two b clip KCut KPaste R CO) as (b1 & clip1 & b2 & clip2 & E & S1 & D1 & D2).
  { split; [rewrite <- Hv; cbn; rewrite FO'; auto|]. rewrite <- Hv. intros v1 c1 D S1. split; [|intros; exact I]. cbn in D |- *. rewrite FO', ED' in D.
    destruct D as [D C]. rewrite NEQ in D. unfold copied in C. rewrite NEQ in C.
    destruct D as (((M1 & M2) & M3 & M4) & T & P & A). rewrite M3, FO'. intros _. split; [intros a Ha; congruence|]. exists (selected v). split; [exact C|].
    unfold room. rewrite T, !size_app, Sel, before_all by (clear - R1 R2; lia). destruct S as (_ & SZ & _).
    unfold after, size in *. rewrite skipn_length. cbn [length]. clear - R1 R2 SZ. lia. }
  rewrite <- Hv in D1. rewrite TX. cbn in D1, D2. rewrite FO', ED' in D1. destruct D1 as [D1 C1]. unfold copied in C1. rewrite NEQ in D1, C1.
  destruct D1 as (((M1 & M2) & M3 & M4) & T1 & P1 & A1). cbn in M1, M3. rewrite M3, FO', M1, ED' in D2. destruct D2 as (-> & s & Hs & (_ & T2 & P2 & A2)).
  rewrite C1 in *. injection Hs as <-. exists b2. split; [exact E|].
  assert (O1 : other (view_of b1) = pos (view_of b1)) by (unfold other; rewrite A1; reflexivity).
  assert (Q : pos (view_of b1) = first v) by (rewrite P1; apply Z.add_0_r).
  assert (F1 : first (view_of b1) = first v) by (unfold first at 1; rewrite O1, Q; apply Z.min_id).
  assert (L1 : last (view_of b1) = first v) by (unfold last at 1; rewrite O1, Q; apply Z.max_id).
  split; [|split; [|exact (no_anchor b2 A2)]].
  - change (tb_text b2) with (v_text (view_of b2)). rewrite T2, T1, F1, L1. cbn [app]. rewrite before_app, after_app by (apply before_all; clear - R1 R2; lia).
    apply (parts (v_text v)); clear - R1 R2; lia.
  - change (pos (view_of b2) = last v). rewrite P2, F1, Sel. clear. lia.
Qed.

Lemma copy_paste b clip : ready w al build tall b -> clip_ok clip -> tb_focused b = true -> tb_editable b = true -> first (view_of b) < last (view_of b) ->
  room (view_of b) (selected (view_of b)) ->
  exists b', run (b, clip) [KCopy; KPaste] = Ok (b', Some (selected (view_of b))) /\ tb_text b' = tb_text b /\
    cp_get_position (tb_cursor b') = last (view_of b) /\ cp_is_valid (tb_anchor b') = false.
Proof.
  intros R CO FO ED LT RM. remember (view_of b) as v eqn:Hv. pose proof (ready_sound b R) as S. rewrite <- Hv in S. destruct (range v S) as [R1 R2].
  assert (FO' : v_focused v = true) by (rewrite Hv; exact FO). assert (ED' : v_editable v = true) by (rewrite Hv; exact ED). assert (TX : tb_text b = v_text v) by (rewrite Hv; reflexivity).
  assert (NEQ : (first v =? last v) = false) by (apply Z.eqb_neq; clear - LT; lia).
  assert (PR : proper v).
  { intros a Ha E. unfold first, last, other in LT. rewrite Ha in LT. clear - LT E. lia. }
  assert (Sel : size (selected v) = last v - first v).
  { unfold selected. rewrite before_all; [reflexivity|]. unfold after, size. rewrite skipn_length. unfold size in R2. clear - R1 R2. lia. }
  destruct (run_two b clip KCopy KPaste R CO) as (b1 & clip1 & b2 & clip2 & E & S1 & D1 & D2).
  { split; [exact I|]. rewrite <- Hv. intros v1 c1 D S1. split; [|intros; exact I]. cbn in D |- *. rewrite FO' in D. destruct D as [-> C].
    unfold copied in C. rewrite NEQ in C. rewrite FO'. intros _. split; [exact PR|]. exists (selected v). auto. }
  rewrite <- Hv in D1. rewrite TX. cbn in D1, D2. rewrite FO' in D1. destruct D1 as [V1 C1]. unfold copied in C1. rewrite NEQ in C1.
  assert (F1 : tb_focused b1 = true) by (change (v_focused (view_of b1) = true); rewrite V1; exact FO').
  assert (G1 : tb_editable b1 = true) by (change (v_editable (view_of b1) = true); rewrite V1; exact ED').
  rewrite F1, G1 in D2. destruct D2 as (-> & s & Hs & (_ & T2 & P2 & A2)). rewrite C1 in *. injection Hs as <-. rewrite V1 in *. exists b2. split; [exact E|].
  split; [|split; [|exact (no_anchor b2 A2)]].
  - change (tb_text b2) with (v_text (view_of b2)). rewrite T2. apply (parts (v_text v)); clear - R1 R2; lia.
  - change (pos (view_of b2) = last v). rewrite P2, Sel. clear. lia.
Qed.

(** Putting [s] in and going back over it. *)
Lemma put_back b clip c s : ready w al build tall b -> clip_ok clip -> tb_focused b = true -> tb_editable b = true -> cp_is_valid (tb_anchor b) = false ->
  allowed (view_of b) clip c -> (forall v1 clip1, does w al (build false) B following decode white (view_of b) clip c v1 clip1 -> inserted (view_of b) s v1 /\ clip1 = clip) ->
  let t := tb_text b in let p := cp_get_position (tb_cursor b) in
  prev_stop (B (before t p ++ s ++ after t p)) (p + size s) p ->
  exists b', run (b, clip) [c; KBackspace false] = Ok (b', clip) /\ tb_text b' = t /\ cp_get_position (tb_cursor b') = p /\ cp_is_valid (tb_anchor b') = false.
Proof.
  intros R CO FO ED NA AL IN t p PS. remember (view_of b) as v eqn:Hv. pose proof (ready_sound b R) as S. rewrite <- Hv in S. destruct (range v S) as [R1 R2].
  assert (AN : v_anchor v = None) by (rewrite Hv; cbn; rewrite NA; reflexivity).
  assert (O : other v = pos v) by (unfold other; rewrite AN; reflexivity).
  assert (Fv : first v = p) by (unfold first; rewrite O, Z.min_id, Hv; reflexivity). assert (Lv : last v = p) by (unfold last; rewrite O, Z.max_id, Hv; reflexivity). assert (TX : v_text v = t) by (rewrite Hv; reflexivity).
  destruct (run_two b clip c (KBackspace false) R CO) as (b1 & clip1 & b2 & clip2 & E & S1 & D1 & D2).
  { rewrite <- Hv. split; [exact AL|]. intros v1 c1 D S1. split; [|intros; exact I]. destruct (IN v1 c1 D) as [(((M1 & M2) & M3 & M4) & _) _].
    destruct (IN v1 c1 D) as [(_ & (_ & _ & A)) _]. unfold allowed. rewrite M3, Hv. cbn. rewrite FO. split; [rewrite M1, Hv; exact ED|]. intros a Ha. congruence. }
  rewrite <- Hv in D1. destruct (IN _ _ D1) as [(((M1 & M2) & M3 & M4) & (T1 & P1 & A1)) ->]. rewrite Fv, Lv in T1. rewrite Fv in P1.
  assert (F1 : tb_focused b1 = true) by (change (v_focused (view_of b1) = true); rewrite M3, Hv; exact FO).
  cbn in D2. rewrite F1 in D2. destruct D2 as [(_ & D2) ->]. change (if cp_is_valid (tb_anchor b1) then Some (tb_anchor b1) else None) with (v_anchor (view_of b1)) in D2. rewrite A1 in D2.
  destruct D2 as (q & CL & (T2 & P2 & A2)).
  rewrite TX in T1. change (tb_text b1) with (v_text (view_of b1)) in CL. rewrite T1 in CL.
  assert (Hq : cp_get_position q = p).
  { unfold char_left in CL.
    unfold pos in P1. rewrite P1 in CL. destruct PS as (Q1 & Q2 & Q3). destruct CL as [(C1 & C2 & C3)|[_ C]].
    - specialize (C3 _ Q1 Q2). specialize (Q3 _ C1 C2). clear - C3 Q3. lia.
    - specialize (C _ Q1). clear - C Q2. lia. }
  rewrite Hq, P1 in T2, P2. destruct PS as (_ & Q2 & _).
  rewrite Z.min_r in T2, P2 by (clear - Q2; lia). rewrite Z.max_l in T2 by (clear - Q2; lia). rewrite T1 in T2.
  assert (Sp : size (before t p) = p) by (apply before_all; rewrite <- TX, <- Fv; clear - R1 R2; lia).
  exists b2. split; [exact E|]. split; [|split; [|exact (no_anchor b2 A2)]].
  - change (tb_text b2) with (v_text (view_of b2)). rewrite T2. rewrite before_app by exact Sp. rewrite (app_assoc (before t p) s). rewrite after_app by (rewrite size_app, Sp; reflexivity).
    cbn [app]. unfold before, after. apply firstn_skipn.
  - change (pos (view_of b2) = p). rewrite P2. apply Z.add_0_r.
Qed.
End Laws.

(** ** C117 *)

(** After any history of C44: cutting a selection and pasting puts the text back, and so does
    copying it and pasting over it.  The clipboard has what was selected, the cursor is
    after it, nothing is selected. *)
Theorem C117_cut_paste : forall w al build strip tall B following preceding decode white editable multi t clip cs,
  good_stops B following preceding -> good_layouts (build false) B ->
  valid_utf8 t -> size t < 2 ^ 31 - 1 -> match clip with Some s => valid_utf8 s | None => True end ->
  allowed_all w al (build false) B following decode white (shows t editable multi) clip cs ->
  let run := steps w al build strip tall following preceding decode white in
  exists b clip', run (fresh editable multi, clip) (CReplace t :: cs) = Ok (b, clip') /\
    (tb_focused b = true -> tb_editable b = true -> first (view_of b) < last (view_of b) ->
     forall c, c = KCut \/ c = KCopy /\ room (view_of b) (selected (view_of b)) ->
     exists b', run (b, clip') [c; KPaste] = Ok (b', Some (selected (view_of b))) /\ tb_text b' = tb_text b /\
       cp_get_position (tb_cursor b') = last (view_of b) /\ cp_is_valid (tb_anchor b') = false).
Proof.
  intros w al build strip tall B following preceding decode white e m t clip cs GS GL V SZ CO AL run.
  destruct (reached w al build strip tall B following preceding decode white GS GL e m t clip cs V SZ CO AL) as (b & clip' & E & R & C).
  exists b, clip'. split; [exact E|]. intros FO ED LT c [->|[-> RM]].
  - exact (cut_paste w al build strip tall B following preceding decode white GS GL b clip' R C FO ED LT).
  - exact (copy_paste w al build strip tall B following preceding decode white GS GL b clip' R C FO ED LT RM).
Qed.
Print Assumptions C117_cut_paste.

(** After any history of C44, with nothing selected: Backspace takes back a typed character, a
    line feed from Enter and a tab, if the caret can stop before it. *)
Theorem C117_backspace : forall w al build strip tall B following preceding decode white editable multi t clip cs,
  good_stops B following preceding -> good_layouts (build false) B ->
  valid_utf8 t -> size t < 2 ^ 31 - 1 -> match clip with Some s => valid_utf8 s | None => True end ->
  allowed_all w al (build false) B following decode white (shows t editable multi) clip cs ->
  let run := steps w al build strip tall following preceding decode white in
  exists b clip', run (fresh editable multi, clip) (CReplace t :: cs) = Ok (b, clip') /\
    (tb_focused b = true -> tb_editable b = true -> cp_is_valid (tb_anchor b) = false ->
     let p := cp_get_position (tb_cursor b) in
     forall c s, (exists ch, c = CType ch /\ scalar ch /\ s = utf8 ch) \/ (c = KEnter /\ tb_multi b = true /\ s = [10]) \/ (c = KTab /\ s = [9]) ->
     room (view_of b) s -> prev_stop (B (before (tb_text b) p ++ s ++ after (tb_text b) p)) (p + size s) p ->
     exists b', run (b, clip') [c; KBackspace false] = Ok (b', clip') /\ tb_text b' = tb_text b /\ cp_get_position (tb_cursor b') = p /\
       cp_is_valid (tb_anchor b') = false).
Proof.
  intros w al build strip tall B following preceding decode white e m t clip cs GS GL V SZ CO AL run.
  destruct (reached w al build strip tall B following preceding decode white GS GL e m t clip cs V SZ CO AL) as (b & clip' & E & R & C).
  exists b, clip'. split; [exact E|]. intros FO ED NA p c s H RM PS.
  assert (PR : proper (view_of b)) by (intros a Ha; cbn in Ha; rewrite NA in Ha; discriminate).
  apply (put_back w al build strip tall B following preceding decode white GS GL b clip' c s R C FO ED NA); [| |exact PS].
  - destruct H as [(ch & -> & SC & ->)|[(-> & MU & ->)|(-> & ->)]]; cbn; rewrite FO; auto.
  - intros v1 clip1 D. destruct H as [(ch & -> & SC & ->)|[(-> & MU & ->)|(-> & ->)]]; cbn in D; rewrite FO in D.
    + rewrite ED in D. destruct D as [-> D]. auto.
    + rewrite MU in D. exact D.
    + exact D.
Qed.
Print Assumptions C117_backspace.

(** "hé", both characters selected with Shift: cut and paste.  Then "x" and Backspace. *)
Example C117_used : let cs := [CPress 0 5 false 0; KRight false true; KRight false true] in
  valid_utf8 he /\
  exists b b1 b2, e_steps (fresh true true, None) (CReplace he :: cs) = Ok (b, None) /\ tb_focused b = true /\ tb_editable b = true /\
    first (view_of b) = 0 /\ last (view_of b) = 3 /\ e_steps (b, None) [KCut; KPaste] = Ok (b1, Some he) /\ tb_text b1 = he /\
    cp_is_valid (tb_anchor b1) = false /\ tb_cursor b1 = 3 /\ prev_stop (on_char (he ++ [120])) 4 3 /\
    e_steps (b1, Some he) [CType 120; KBackspace false] = Ok (b2, Some he) /\ tb_text b2 = he.
Proof.
  split; [exists [104; 233]; split; [repeat constructor; unfold scalar; lia|reflexivity]|]. do 3 eexists.
  split; [vm_compute; reflexivity|]. split; [reflexivity|]. split; [reflexivity|]. split; [reflexivity|]. split; [reflexivity|]. split; [vm_compute; reflexivity|].
  split; [reflexivity|]. split; [reflexivity|]. split; [reflexivity|]. split.
  { split; [|split; [lia|intros; lia]]. split; [split; vm_compute; discriminate|]. intros b Hb. vm_compute in Hb. injection Hb as <-. lia. }
  split; [vm_compute; reflexivity|reflexivity].
Qed.

(** Where the caret cannot stop before what was typed, Backspace takes more: after "e" an
    accent is typed that joins it (U+0301), and Backspace deletes both. *)
Definition joining_next (t : list Z) (x : Z) : Z := if (size t =? 3) then (if x <? 3 then 3 else -1) else e_following t x.
Definition joining_prev (t : list Z) (x : Z) : Z := if (size t =? 3) then (if 0 <? x then 0 else -1) else e_preceding t x.
Theorem C117_accent_refuted : let run := steps 100 XLeft e_build e_strip 12%Q joining_next joining_prev e_decode e_white in
  exists b b1 b2, run (fresh true true, None) [CReplace [101]; CPress 100 5 false 0] = Ok (b, None) /\ tb_text b = [101] /\ cp_get_position (tb_cursor b) = 1 /\
    run (b, None) [CType 769] = Ok (b1, None) /\ tb_text b1 = [101; 204; 129] /\ run (b1, None) [KBackspace false] = Ok (b2, None) /\ tb_text b2 = [].
Proof. do 3 eexists. split; [vm_compute; reflexivity|]. split; [reflexivity|]. split; [reflexivity|]. split; [vm_compute; reflexivity|]. split; [reflexivity|]. split; [vm_compute; reflexivity|reflexivity]. Qed.
Print Assumptions C117_accent_refuted.
