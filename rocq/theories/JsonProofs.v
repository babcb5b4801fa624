(** Proofs about JSON descriptions. *)
From Coq Require Import String Sorted ZifyBool ZifyNat.
From Verif Require Import Base BaseFacts BuilderModel FontModel FontSpec JsonModel JsonSpec.
Open Scope Z_scope.

Lemma name_eqb_iff a b : name_eqb a b = true <-> a = b.
Proof. unfold name_eqb. destruct (list_eq_dec Z.eq_dec a b); split; congruence. Qed.

(** ** Fields *)
Lemma lookup_field o k v : lookup (lit k) o = Some v <-> field o k v.
Proof.
  unfold field. induction o as [|[x y] o IH]; cbn [lookup].
  - split; [discriminate|]. intros (a & b & E & _). destruct a; discriminate.
  - destruct (name_eqb x (lit k)) eqn:N.
    + apply name_eqb_iff in N. split.
      * intros E. inversion E; subst. exists [], o. split; [reflexivity|intros []].
      * intros (a & b & E & NI). destruct a as [|p a]; [inversion E; reflexivity|]. inversion E; subst. destruct NI. left. reflexivity.
    + assert (x <> lit k) by (intros E; apply name_eqb_iff in E; congruence). rewrite IH. split.
      * intros (a & b & -> & NI). exists ((x, y) :: a), b. split; [reflexivity|]. cbn. tauto.
      * intros (a & b & E & NI). destruct a as [|p a]; [inversion E; subst; congruence|]. inversion E; subst. exists a, b. split; [reflexivity|]. cbn in NI. tauto.
Qed.
Lemma get_field_some {A} o k (get : json -> option A) x : get_field o (lit k) get = Some x <-> exists v, field o k v /\ get v = Some x.
Proof.
  unfold get_field. destruct (lookup (lit k) o) as [v|] eqn:E.
  - apply lookup_field in E. split; [intros H; eauto|]. intros (v' & F & G). apply lookup_field in E, F. congruence.
  - split; [discriminate|]. intros (v & F & _). apply lookup_field in F. congruence.
Qed.
Lemma get_field_none {A} o k (get : json -> option A) : get_field o (lit k) get = None <-> forall v x, field o k v -> get v <> Some x.
Proof.
  split.
  - intros E v x F G. assert (get_field o (lit k) get = Some x) by (apply get_field_some; eauto). congruence.
  - intros H. destruct (get_field o (lit k) get) as [x|] eqn:E; [|reflexivity]. apply get_field_some in E. destruct E as (v & F & G). destruct (H v x F G).
Qed.
Lemma get_string_iff v s : get_string v = Some s <-> v = JStr s.
Proof. destruct v; cbn; split; congruence. Qed.
Lemma get_array_iff v s : get_array v = Some s <-> v = JArr s.
Proof. destruct v; cbn; split; congruence. Qed.
Lemma get_object_iff v s : get_object v = Some s <-> v = JObj s.
Proof. destruct v; cbn; split; congruence. Qed.
Lemma get_int64_iff v z : get_int64 v = Some z <-> v = JInt z /\ - 2 ^ 63 <= z < 2 ^ 63.
Proof.
  destruct v as [|b|z'| | | | |]; cbn [get_int64]; try (split; [discriminate|intros [E _]; discriminate]).
  destruct ((- 2 ^ 63 <=? z') && (z' <? 2 ^ 63)) eqn:C; (split; [intros E|intros [E R]]); try discriminate; inversion E; subst; [split; [reflexivity|lia]|reflexivity|lia].
Qed.
Lemma field_string o k s : get_field o (lit k) get_string = Some s <-> field o k (JStr s).
Proof. rewrite get_field_some. split; [intros (v & F & G); apply get_string_iff in G; subst; exact F|]. intros F. exists (JStr s). split; [exact F|reflexivity]. Qed.
Lemma field_array o k s : get_field o (lit k) get_array = Some s <-> field o k (JArr s).
Proof. rewrite get_field_some. split; [intros (v & F & G); apply get_array_iff in G; subst; exact F|]. intros F. exists (JArr s). split; [exact F|reflexivity]. Qed.
Lemma field_unique o k v w : field o k v -> field o k w -> v = w.
Proof. rewrite <- !lookup_field. congruence. Qed.

(** ** Faces *)
Lemma read_face_iff v f : read_face v = Some f <-> face_described v f.
Proof.
  unfold read_face, face_described. destruct (get_object v) as [o|] eqn:EO.
  2:{ split; [discriminate|]. intros (o & -> & _). discriminate. }
  apply get_object_iff in EO. subst v. split.
  - destruct (get_field o (lit "name") get_string) as [n|] eqn:EN; [|discriminate].
    destruct (get_field o (lit "uri") get_string) as [u|] eqn:EU; [|discriminate].
    destruct (get_field o (lit "weight") get_int64) as [w|] eqn:EW; [|discriminate].
    destruct ((w <? 100) || (900 <? w) || negb (Z.rem w 100 =? 0)) eqn:CW; [discriminate|].
    destruct (get_field o (lit "style") get_string) as [s|] eqn:ES; [|discriminate].
    destruct (negb (name_eqb s (lit "normal")) && negb (name_eqb s (lit "italic"))) eqn:CS; [discriminate|].
    intros E. injection E as <-. cbn [fd_name fd_uri fd_weight fd_style]. exists o. apply field_string in EN, EU, ES. apply get_field_some in EW. destruct EW as (v & FW & GW).
    apply get_int64_iff in GW. destruct GW as [-> _]. split; [reflexivity|]. split; [exact EN|]. split; [exact EU|].
    assert (RM : Z.rem w 100 = 0) by lia. pose proof (Z.quot_rem' w 100) as QR. assert (Q : Z.quot (w - 100) 100 = Z.quot w 100 - 1).
    { rewrite Z.quot_div_nonneg by lia. rewrite Z.quot_div_nonneg by lia. replace (w - 100) with (w + (-1) * 100) by lia. rewrite Z.div_add by lia. lia. }
    rewrite Q. split; [lia|]. split; [replace (100 * (Z.quot w 100 - 1 + 1)) with w by lia; exact FW|].
    destruct (name_eqb s (lit "italic")) eqn:NI.
    + apply name_eqb_iff in NI. subst s. right. auto.
    + cbn [negb andb] in CS. rewrite andb_true_r in CS. apply negb_false_iff, name_eqb_iff in CS. subst s. left. auto.
  - intros (o' & E & FN & FU & RW & FW & FS). inversion E; subst o'. destruct f as [n u w st]. cbn [fd_name fd_uri fd_weight fd_style] in *.
    apply field_string in FN, FU. rewrite FN, FU. assert (GW : get_field o (lit "weight") get_int64 = Some (100 * (w + 1))).
    { apply get_field_some. eexists. split; [exact FW|]. apply get_int64_iff. split; [reflexivity|lia]. }
    rewrite GW. assert (RM : Z.rem (100 * (w + 1)) 100 = 0) by (rewrite Z.mul_comm; apply Z.rem_mul; lia).
    replace ((100 * (w + 1) <? 100) || (900 <? 100 * (w + 1)) || negb (Z.rem (100 * (w + 1)) 100 =? 0)) with false by (rewrite RM; cbn; lia).
    assert (Q : Z.quot (100 * (w + 1) - 100) 100 = w) by (replace (100 * (w + 1) - 100) with (w * 100) by lia; apply Z.quot_mul; lia). rewrite Q.
    destruct FS as [[-> FS]|[-> FS]]; apply field_string in FS; rewrite FS; reflexivity.
Qed.
Lemma read_faces_iff vs fs : read_faces vs = inl fs <-> Forall2 face_described vs fs.
Proof.
  revert fs. induction vs as [|v vs IH]; cbn [read_faces]; intros fs.
  - split; [intros E; inversion E; constructor|intros F; inversion F; reflexivity].
  - destruct (read_face v) as [f|] eqn:EF.
    + apply read_face_iff in EF. split.
      * destruct (read_faces vs) as [gs|e] eqn:EG; [|discriminate]. intros E. inversion E; subst. constructor; [exact EF|apply IH; reflexivity].
      * intros F. inversion F as [|? f' ? gs F1 F2]; subst. apply read_face_iff in F1, EF. apply IH in F2. rewrite F2. congruence.
    + split; [discriminate|]. intros F. inversion F as [|? f' ? gs F1 F2]; subst. apply read_face_iff in F1. congruence.
Qed.
Lemma read_faces_invalid vs e : read_faces vs = inr e -> e = JInvalid.
Proof. revert e. induction vs as [|v vs IH]; cbn [read_faces]; intros e; [discriminate|]. destruct (read_face v); [|congruence]. destruct (read_faces vs) as [|e']; [discriminate|]. intros E. inversion E; subst. apply IH. reflexivity. Qed.

(** ** Families *)
Lemma read_names_iff vs ns : read_names vs = inl ns <-> vs = List.map JStr ns.
Proof.
  revert ns. induction vs as [|v vs IH]; cbn [read_names]; intros ns.
  - split; [intros E; inversion E; reflexivity|destruct ns; [reflexivity|discriminate]].
  - destruct (get_string v) as [s|] eqn:G.
    + apply get_string_iff in G. subst v. split.
      * destruct (read_names vs) as [l|] eqn:R; [|discriminate]. intros E. inversion E; subst. cbn. f_equal. apply IH. reflexivity.
      * destruct ns as [|n ns]; [discriminate|]. cbn. intros E. inversion E; subst. specialize (IH ns). destruct IH as [_ IH]. rewrite IH by reflexivity. reflexivity.
    + split; [discriminate|]. destruct ns as [|n ns]; [discriminate|]. cbn. intros E. inversion E; subst. discriminate.
Qed.
Lemma read_names_invalid vs e : read_names vs = inr e -> e = JInvalid.
Proof. revert e. induction vs as [|v vs IH]; cbn [read_names]; intros e; [discriminate|]. destruct (get_string v); [|congruence]. destruct (read_names vs) as [|e']; [discriminate|]. intros E. inversion E; subst. apply IH. reflexivity. Qed.
Lemma read_families_iff o k ns : read_families o (lit k) = inl ns <-> optional o k (fun vs ns => vs = List.map JStr ns) ns.
Proof.
  unfold read_families, optional. destruct (get_field o (lit k) get_array) as [vs|] eqn:E.
  - apply field_array in E. rewrite read_names_iff. split; [intros ->; left; eauto|]. intros [(vs' & F & ->)|[N _]]; [|destruct (N _ E)].
    pose proof (field_unique _ _ _ _ E F) as U. congruence.
  - split.
    + intros H. inversion H; subst. right. split; [|reflexivity]. intros vs F. apply field_array in F. congruence.
    + intros [(vs & F & _)|[_ ->]]; [apply field_array in F; congruence|reflexivity].
Qed.
Lemma read_families_invalid o k e : read_families o k = inr e -> e = JInvalid.
Proof. unfold read_families. destruct (get_field o k get_array); [apply read_names_invalid|discriminate]. Qed.

(** ** Scripts *)
Section Scripts.
Variables (limit : nat) (code_of : name -> script_answer).
Local Notation described := (script_described limit code_of).

Definition bit (bits : list bool) (c : Z) : Prop := zget bits c = Ok true.
Lemma zget_set (bits : list bool) i c : 0 <= i < Z.of_nat (length bits) -> zget (list_set bits (Z.to_nat i) true) c = if c =? i then Ok true else zget bits c.
Proof.
  intros R. unfold zget. destruct (c <? 0) eqn:N; [destruct (c =? i) eqn:E; [lia|reflexivity]|]. unfold vget.
  destruct (c =? i) eqn:E.
  - assert (c = i) by lia. subst. rewrite nth_error_list_set_same by lia. reflexivity.
  - rewrite nth_error_list_set_other by lia. reflexivity.
Qed.
Lemma described_unique v c c' : described v c -> described v c' -> c = c'.
Proof. intros (_ & [->|(s & -> & H)]) (_ & [E|(s' & E & H')]); congruence. Qed.
Lemma read_scripts_ok vs : Z.of_nat limit <= 2 ^ 31 -> forall bits, length bits = limit ->
  match read_scripts limit code_of bits vs with
  | Ok (inl out) => length out = limit /\ Forall (fun v => exists c, described v c) vs /\ forall c, bit out c <-> bit bits c \/ exists v, In v vs /\ described v c
  | Ok (inr e) => ~ Forall (fun v => exists c, described v c) vs /\ (e = JInvalid \/ e = JThrew)
  | UB => ~ Forall (fun v => exists c, described v c) vs
  | OutOfFuel => False
  end.
Proof.
  intros LL. induction vs as [|v vs IH]; intros bits LB; cbn [read_scripts].
  - split; [exact LB|]. split; [constructor|]. intros c. split; [auto|intros [H|(v & [] & _)]; exact H].
  - assert (STEP : forall c, described v c ->
      match read_scripts limit code_of (list_set bits (Z.to_nat c) true) vs with
      | Ok (inl out) => length out = limit /\ Forall (fun v => exists c, described v c) (v :: vs) /\ forall c, bit out c <-> bit bits c \/ exists x, In x (v :: vs) /\ described x c
      | Ok (inr e) => ~ Forall (fun v => exists c, described v c) (v :: vs) /\ (e = JInvalid \/ e = JThrew)
      | UB => ~ Forall (fun v => exists c, described v c) (v :: vs)
      | OutOfFuel => False
      end).
    { intros c D. specialize (IH (list_set bits (Z.to_nat c) true)). rewrite length_list_set in IH. specialize (IH LB). pose proof D as ([R0 R1] & _).
      destruct (read_scripts limit code_of (list_set bits (Z.to_nat c) true) vs) as [[out|e]| |]; [| | |exact IH].
      - destruct IH as (I1 & I2 & I3). split; [exact I1|]. split; [constructor; eauto|]. intros x. rewrite I3. unfold bit at 1. rewrite zget_set by lia. destruct (x =? c) eqn:E.
        + assert (x = c) by lia. subst x. split; [intros _; right; exists v; split; [left; reflexivity|exact D]|intros _; left; reflexivity].
        + fold (bit bits x). split; [intros [H|(y & H & H')]; [auto|right; exists y; split; [right; exact H|exact H']]|].
          intros [H|(y & [<-|H] & H')]; [auto|exfalso; pose proof (described_unique _ _ _ D H'); lia|eauto].
      - destruct IH as [IH IE]. split; [|exact IE]. intros F. inversion F; auto.
      - intros F. inversion F; auto. }
    destruct (get_int64 v) as [c|] eqn:GI.
    + apply get_int64_iff in GI. destruct GI as [-> RC]. destruct (Z.of_nat limit <=? c) eqn:CL.
      { split; [|auto]. intros F. inversion F as [|? ? (x & (R & [E|(s & E & _)])) _]; [inversion E; lia|discriminate]. }
      cbn [get_uint64]. destruct ((0 <=? c) && (c <? 2 ^ 64)) eqn:CU.
      * unfold bit_set. rewrite LB. destruct ((0 <=? c) && (c <? Z.of_nat limit)) eqn:CB; [|lia]. apply STEP. split; [lia|left; reflexivity].
      * split; [|auto]. intros F. inversion F as [|? ? (x & (R & [E|(s & E & _)])) _]; [inversion E; lia|discriminate].
    + assert (NI : forall x, described v x -> v <> JInt x).
      { intros x (R & _) ->. assert (get_int64 (JInt x) = Some x) by (apply get_int64_iff; split; [reflexivity|lia]). congruence. }
      destruct (get_string v) as [s|] eqn:GS.
      * apply get_string_iff in GS. subst v. destruct (code_of s) as [| |c] eqn:SC.
        -- split; [|auto]. intros F. inversion F as [|? ? (x & D) _]. pose proof D as (R & [E|(s' & E & HH)]); [discriminate|]. congruence.
        -- intros F. inversion F as [|? ? (x & D) _]. pose proof D as (R & [E|(s' & E & HH)]); [discriminate|]. congruence.
        -- unfold bit_set. rewrite LB. destruct ((0 <=? c) && (c <? Z.of_nat limit)) eqn:CB.
           ++ apply STEP. split; [lia|right; eauto].
           ++ split; [|auto]. intros F. inversion F as [|? ? (x & D) _]. pose proof D as (R & [E|(s' & E & HH)]); [discriminate|]. assert (x = c) by congruence. lia.
      * split; [|auto]. intros F. inversion F as [|? ? (x & D) _]. pose proof D as (R & [E|(s' & E & HH)]); [apply (NI x D E)|subst; discriminate].
Qed.
(** With plain entries nothing else happens than acceptance or [INVALID_JSON]. *)
Lemma read_scripts_plain vs : Z.of_nat limit <= 2 ^ 31 -> forall bits, length bits = limit ->
  Forall (fun v => match v with JInt c => 0 <= c | JStr s => match code_of s with SFailed => True | SNone => False | SCode c => 0 <= c < Z.of_nat limit end | _ => True end) vs ->
  exists x, read_scripts limit code_of bits vs = Ok x /\ forall e, x = inr e -> e = JInvalid.
Proof.
  intros LL. induction vs as [|v vs IH]; intros bits LB P; cbn [read_scripts]; [eexists; split; [reflexivity|discriminate]|]. inversion P as [|? ? P1 P2]; subst.
  assert (INV : exists x, Ok (inr JInvalid) = Ok x /\ forall e, x = @inr (list bool) _ e -> e = JInvalid) by (eexists; split; [reflexivity|congruence]).
  destruct (get_int64 v) as [c|] eqn:GI.
  - apply get_int64_iff in GI. destruct GI as [-> RC]. destruct (Z.of_nat (length bits) <=? c) eqn:CL; [exact INV|].
    cbn [get_uint64]. destruct ((0 <=? c) && (c <? 2 ^ 64)) eqn:CU; [|lia]. unfold bit_set. destruct ((0 <=? c) && (c <? Z.of_nat (length bits))) eqn:CB; [|lia].
    apply IH; [apply length_list_set|exact P2].
  - destruct (get_string v) as [s|] eqn:GS; [|exact INV]. apply get_string_iff in GS. subst v. destruct (code_of s) as [| |c]; [exact INV|destruct P1|].
    unfold bit_set. destruct ((0 <=? c) && (c <? Z.of_nat (length bits))) eqn:CB; [|lia]. apply IH; [apply length_list_set|exact P2].
Qed.

Lemma seq_sorted n k : StronglySorted Z.lt (List.map Z.of_nat (seq k n)).
Proof.
  revert k. induction n as [|n IH]; intros k; cbn; [constructor|]. constructor; [apply IH|]. apply Forall_forall. intros x IN. apply in_map_iff in IN. destruct IN as (y & <- & IN). apply in_seq in IN. lia.
Qed.
Lemma filter_sorted {A} (R : A -> A -> Prop) f l : StronglySorted R l -> StronglySorted R (List.filter f l).
Proof.
  induction 1 as [|x l S IH F]; cbn; [constructor|]. destruct (f x); [|exact IH]. constructor; [exact IH|]. apply Forall_forall. intros y IN. apply filter_In in IN. rewrite Forall_forall in F. apply F, IN.
Qed.
Lemma codes_in bits c : length bits = limit -> In c (codes_of limit bits) <-> bit bits c.
Proof.
  intros LB. unfold codes_of. rewrite filter_In. unfold bit. split.
  - intros [_ H]. destruct (zget bits c) as [[]| |]; congruence.
  - intros H. rewrite H. split; [|reflexivity]. apply in_map_iff. unfold zget, vget in H. destruct (c <? 0) eqn:N; [discriminate|]. exists (Z.to_nat c). split; [lia|]. apply in_seq.
    destruct (nth_error bits (Z.to_nat c)) eqn:E; [|discriminate]. assert (nth_error bits (Z.to_nat c) <> None) by congruence. apply nth_error_Some in H0. lia.
Qed.
Lemma sorted_ext l m : StronglySorted Z.lt l -> StronglySorted Z.lt m -> (forall x, In x l <-> In x m) -> l = m.
Proof.
  intros S. revert m. induction S as [|x l S IH F]; intros m T H.
  - destruct m as [|y m]; [reflexivity|]. destruct (proj2 (H y)); left; reflexivity.
  - destruct T as [|y m T G]; [destruct (proj1 (H x)); left; reflexivity|]. rewrite Forall_forall in F, G.
    assert (E : x = y).
    { destruct (proj1 (H x) (or_introl eq_refl)) as [E|INx]; [auto|]. destruct (proj2 (H y) (or_introl eq_refl)) as [E|INy]; [auto|]. specialize (F _ INy). specialize (G _ INx). lia. }
    subst y. f_equal. apply IH; [exact T|]. intros z. split; intros IN.
    + destruct (proj1 (H z) (or_intror IN)) as [E|I2]; [|exact I2]. specialize (F _ IN). lia.
    + destruct (proj2 (H z) (or_intror IN)) as [E|I2]; [|exact I2]. specialize (G _ IN). lia.
Qed.
Lemma no_bits c : ~ bit (repeat false limit) c.
Proof.
  unfold bit, zget, vget. destruct (c <? 0); [discriminate|]. destruct (nth_error (repeat false limit) (Z.to_nat c)) eqn:E; [|discriminate]. apply nth_error_In, repeat_spec in E. subst. discriminate.
Qed.
Definition read_codes (o : list (name * json)) : outcome (read (list Z)) :=
  match get_field o (lit "scripts") get_array with
  | Some vs => do b <- read_scripts limit code_of (repeat false limit) vs; Ok (match b with inl bits => inl (codes_of limit bits) | inr e => inr e end)
  | None => Ok (inl [])
  end.
Lemma read_codes_ok o : Z.of_nat limit <= 2 ^ 31 ->
  match read_codes o with
  | Ok (inl cs) => forall cs', optional o "scripts" (scripts_described limit code_of) cs' <-> cs' = cs
  | Ok (inr e) => (forall cs', ~ optional o "scripts" (scripts_described limit code_of) cs') /\ (e = JInvalid \/ e = JThrew)
  | UB => forall cs', ~ optional o "scripts" (scripts_described limit code_of) cs'
  | OutOfFuel => False
  end.
Proof.
  intros LL. unfold read_codes. destruct (get_field o (lit "scripts") get_array) as [vs|] eqn:E.
  - apply field_array in E. assert (OPT : forall cs', optional o "scripts" (scripts_described limit code_of) cs' <-> scripts_described limit code_of vs cs').
    { intros cs'. split; [|intros H; left; eauto]. intros [(vs' & F & H)|[N _]]; [|destruct (N _ E)]. pose proof (field_unique _ _ _ _ E F) as U. inversion U; subst. exact H. }
    pose proof (read_scripts_ok vs LL (repeat false limit) (repeat_length _ _)) as R.
    destruct (read_scripts limit code_of (repeat false limit) vs) as [[bits|e]| |]; cbn [obind].
    + destruct R as (LB & F & B). intros cs'. rewrite OPT.
      assert (CI : forall c, In c (codes_of limit bits) <-> exists v, In v vs /\ described v c).
      { intros c. rewrite codes_in by exact LB. rewrite B. split; [intros [H|H]; [destruct (no_bits _ H)|exact H]|auto]. }
      assert (SO : StronglySorted Z.lt (codes_of limit bits)) by (apply filter_sorted, seq_sorted). split.
      * intros (S' & _ & I'). apply sorted_ext; [exact S'|exact SO|]. intros c. rewrite I', CI. reflexivity.
      * intros ->. split; [exact SO|]. split; [exact F|exact CI].
    + destruct R as [R RE]. split; [|exact RE]. intros cs' H. apply OPT in H. destruct H as (_ & F & _). auto.
    + intros cs' H. apply OPT in H. destruct H as (_ & F & _). auto.
    + exact R.
  - intros cs'. split.
    + intros [(vs & F & _)|[_ H]]; [apply field_array in F; congruence|exact H].
    + intros ->. right. split; [|reflexivity]. intros vs F. apply field_array in F. congruence.
Qed.
End Scripts.

(** ** The whole *)
Section Whole.
Variables (limit : nat) (map_file : nat -> name -> option Z) (code_of : name -> script_answer).
Hypothesis (LL : Z.of_nat limit <= 2 ^ 31).
Local Notation reg := (register_json limit map_file code_of).

(** One walk through the function. *)
Lemma register_cases r j :
  (exists d, describes limit code_of j d /\ (forall d', describes limit code_of j d' -> d' = d) /\
     reg r j = do (r', e) <- register_family limit map_file r d; Ok (r', JDone e)) \/
  ((forall d, ~ describes limit code_of j d) /\ (reg r j = Ok (r, JInvalid) \/
     (exists o, j = JObj o /\ ((exists e, read_codes limit code_of o = Ok (inr e) /\ reg r j = Ok (r, e)) \/ (read_codes limit code_of o = UB /\ reg r j = UB))))).
Proof.
  unfold register_json. destruct (get_object j) as [o|] eqn:EO.
  2:{ right. split; [|auto]. intros d (o & vs & fs & -> & _). discriminate. }
  apply get_object_iff in EO. subst j. destruct (get_field o (lit "name") get_string) as [n|] eqn:EN.
  2:{ right. split; [|auto]. intros d (o' & vs & fs & E & FN & _). inversion E; subst. apply field_string in FN. congruence. }
  apply field_string in EN. pose proof (read_codes_ok limit code_of o LL) as RC.
  match goal with |- context [obind ?x _] => change x with (read_codes limit code_of o) end.
  destruct (read_codes limit code_of o) as [[cs|e]| |] eqn:EC; cbn [obind].
  - destruct (read_families o (lit "linked_families")) as [linked|e] eqn:EL.
    2:{ right. split; [|left; apply read_families_invalid in EL; subst; reflexivity]. intros d (o' & vs & fs & E & _ & _ & L & _). inversion E; subst. apply read_families_iff in L. congruence. }
    destruct (read_families o (lit "fallback_families")) as [fallback|e] eqn:EB.
    2:{ right. split; [|left; apply read_families_invalid in EB; subst; reflexivity]. intros d (o' & vs & fs & E & _ & _ & _ & B & _). inversion E; subst. apply read_families_iff in B. congruence. }
    destruct (get_field o (lit "faces") get_array) as [vs|] eqn:EF.
    2:{ right. split; [|left; reflexivity]. intros d (o' & vs & fs & E & _ & _ & _ & _ & F & _). inversion E; subst. apply field_array in F. congruence. }
    destruct (read_faces vs) as [fs|e] eqn:ER.
    2:{ right. split; [|left; apply read_faces_invalid in ER; subst; reflexivity]. intros d (o' & vs' & fs & E & _ & _ & _ & _ & F & F2 & _). inversion E; subst. apply field_array in F. apply read_faces_iff in F2. congruence. }
    left. eexists. split; [|split; [|reflexivity]].
    + exists o, vs, fs. cbn [fy_name fy_scripts fy_linked fy_fallback fy_faces]. split; [reflexivity|]. split; [exact EN|]. split; [apply RC; reflexivity|]. split; [apply read_families_iff; exact EL|].
      split; [apply read_families_iff; exact EB|]. split; [apply field_array; exact EF|]. split; [apply read_faces_iff; exact ER|reflexivity].
    + intros [n' cs' l' b' f'] (o' & vs' & fs' & E & D1 & D2 & D3 & D4 & D5 & D6 & D7). cbn [fy_name fy_scripts fy_linked fy_fallback fy_faces] in *. inversion E; subst o'.
      pose proof (field_unique _ _ _ _ EN D1) as U. injection U as U. apply RC in D2. apply read_families_iff in D3, D4. apply field_array in D5. assert (vs' = vs) by congruence. subst vs'.
      apply read_faces_iff in D6. assert (fs' = fs) by congruence. subst. f_equal; congruence.
  - right. destruct RC as [RC RE]. split; [|right; exists o; split; [reflexivity|left; exists e; auto]]. intros d (o' & vs & fs & E & _ & S & _). inversion E; subst. apply (RC _ S).
  - right. split; [|right; exists o; auto]. intros d (o' & vs & fs & E & _ & S & _). inversion E; subst. apply (RC _ S).
  - destruct RC.
Qed.

Lemma json_accepts r j d : describes limit code_of j d -> reg r j = do (r', e) <- register_family limit map_file r d; Ok (r', JDone e).
Proof. intros D. destruct (register_cases r j) as [(d' & _ & U & E)|[N _]]; [rewrite (U _ D); exact E|destruct (N _ D)]. Qed.
Lemma json_rejects r j : (forall d, ~ describes limit code_of j d) -> reg r j = Ok (r, JInvalid) \/ reg r j = Ok (r, JThrew) \/ reg r j = UB.
Proof.
  intros N. destruct (register_cases r j) as [(d' & D & _)|[_ [E|(o & -> & [(e & E & F)|[E F]])]]]; [destruct (N _ D)|auto| |auto].
  pose proof (read_codes_ok limit code_of o LL) as RC. rewrite E in RC. destruct RC as [_ [-> | ->]]; auto.
Qed.
Lemma json_plain r j : plain_scripts limit code_of j -> (forall d, ~ describes limit code_of j d) -> reg r j = Ok (r, JInvalid).
Proof.
  intros P N. destruct (register_cases r j) as [(d' & D & _)|[_ [E|(o & -> & H)]]]; [destruct (N _ D)|exact E|].
  assert (PC : exists x, read_codes limit code_of o = Ok x /\ forall e, x = inr e -> e = JInvalid).
  { unfold read_codes. destruct (get_field o (lit "scripts") get_array) as [vs|] eqn:F; [|eexists; split; [reflexivity|discriminate]]. apply field_array in F.
    destruct (read_scripts_plain limit code_of vs LL (repeat false limit) (repeat_length _ _)) as (x & E & X).
    { apply Forall_forall. intros v IN. exact (P o vs v eq_refl F IN). }
    rewrite E. cbn [obind]. eexists. split; [reflexivity|]. intros e. destruct x as [bits|e']; [discriminate|]. intros H'. inversion H'; subst. apply X. reflexivity. }
  destruct PC as (x & E & X). destruct H as [(e & E' & H)|[E' _]]; rewrite E in E'; [inversion E'; subst x|discriminate]. rewrite H, (X e eq_refl). reflexivity.
Qed.

(** ** Directories *)
(** A success is the success of each JSON file. *)
Lemma path_success entries : forall r r', register_path limit map_file code_of r entries = Ok (r', JDone RNone) <->
  exists ds es, Forall2 (describes limit code_of) (List.map snd (List.filter fst entries)) ds /\ registrations limit map_file r ds = Ok (r', es) /\ Forall (eq RNone) es.
Proof.
  induction entries as [|[b j] entries IH]; intros r r'; cbn [register_path List.filter List.map fst].
  - split.
    + intros E. inversion E; subst. exists [], []. split; [constructor|]. split; [reflexivity|constructor].
    + intros (ds & es & F & E & _). inversion F; subst. cbn in E. inversion E; reflexivity.
  - destruct b; [|apply IH]. split.
    + intros H. apply obind_ok_inv in H. destruct H as ([r1 e] & E1 & E2).
      destruct (register_cases r j) as [(d & D & _ & E)|[N _]].
      * rewrite E1 in E. symmetry in E. apply obind_ok_inv in E. destruct E as ([r2 e2] & E3 & E4). inversion E4; subst. destruct e2; try discriminate.
        apply IH in E2. destruct E2 as (ds & es & F & E5 & F2). exists (d :: ds), (RNone :: es). split; [constructor; assumption|]. cbn [registrations]. rewrite E3. cbn [obind]. rewrite E5. split; [reflexivity|constructor; auto].
      * destruct (json_rejects r j N) as [E|[E|E]]; rewrite E in E1; inversion E1; subst; discriminate.
    + intros (ds & es & F & E & F2). cbn [snd List.map] in F. inversion F as [|? d ? ds' D F']; subst. rewrite (json_accepts r j d D). cbn [registrations] in E.
      apply obind_ok_inv in E. destruct E as ([r1 e1] & E1 & E). apply obind_ok_inv in E. destruct E as ([r2 es2] & E2 & E). inversion E; subst. inversion F2; subst. rewrite E1. cbn [obind]. apply IH. exists ds', es2. auto.
Qed.
(** A failure is that of the first file that fails; the ones before it are registered. *)
Lemma path_failure entries : forall r r' e, register_path limit map_file code_of r entries = Ok (r', e) -> e <> JDone RNone ->
  exists before j after r1, entries = before ++ (true, j) :: after /\ register_path limit map_file code_of r before = Ok (r1, JDone RNone) /\ reg r1 j = Ok (r', e).
Proof.
  induction entries as [|[b j] entries IH]; intros r r' e; cbn [register_path].
  - intros E N. inversion E; subst. congruence.
  - intros H N. destruct b.
    + apply obind_ok_inv in H. destruct H as ([r1 e1] & E1 & E2). assert (D : e1 = JDone RNone \/ e1 <> JDone RNone) by (destruct e1 as [[]| |]; try (right; discriminate); auto).
      destruct D as [->|D].
      * destruct (IH _ _ _ E2 N) as (a & x & b & r2 & -> & P & Q). exists ((true, j) :: a), x, b, r2. split; [reflexivity|]. split; [cbn [register_path]; rewrite E1; exact P|exact Q].
      * exists [], j, entries, r. split; [reflexivity|]. split; [reflexivity|]. destruct e1 as [[]| |]; try congruence; inversion E2; subst; exact E1.
    + destruct (IH _ _ _ H N) as (a & x & b & r2 & -> & P & Q). exists ((false, j) :: a), x, b, r2. auto.
Qed.
End Whole.
