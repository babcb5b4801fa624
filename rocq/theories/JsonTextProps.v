(** C107: families from the bytes of files. *)
From Coq Require Import String.
From Verif Require Import Base BaseFacts BuilderModel FontModel FontSpec FontProps FileModel ReadModel ReadProps JsonModel JsonSpec JsonProofs JsonProps JsonTextModel JsonTextSpec.
Open Scope Z_scope.

Lemma strlen_text t m : textual t -> strlen (t ++ 0 :: m) = Ok (List.length t).
Proof.
  induction t as [|c t IH]; intros N; [reflexivity|]. cbn [app strlen]. destruct (Z.eqb_spec c 0) as [->|]; [destruct N; left; reflexivity|].
  rewrite IH by (intros IN; apply N; right; exact IN). reflexivity.
Qed.
Lemma strlen_none t : textual t -> strlen t = UB.
Proof.
  induction t as [|c t IH]; intros N; [reflexivity|]. cbn [app strlen]. destruct (Z.eqb_spec c 0) as [->|]; [destruct N; left; reflexivity|].
  rewrite IH by (intros IN; apply N; right; exact IN). reflexivity.
Qed.
Lemma firstn_text {A} (t m : list A) : firstn (List.length t) (t ++ m) = t.
Proof. rewrite firstn_app, Nat.sub_diag, firstn_all. cbn. apply app_nil_r. Qed.
Lemma text_inside t z s : textual t -> (64 <= s - Z.of_nat (List.length t) < 2 ^ 64) -> (63 <= List.length z)%nat ->
  json_text {| vw_memory := t ++ 0 :: z; vw_size := s |} = Ok (Some t).
Proof.
  intros N Hs L. unfold json_text. cbn [vw_memory vw_size]. rewrite strlen_text by exact N. cbn [obind]. unfold PADDED.
  rewrite (Z.mod_small _ (2 ^ 64)) by lia. destruct (Z.ltb_spec (s - Z.of_nat (List.length t)) 64); [lia|]. rewrite app_length. cbn [List.length].
  destruct (Z.leb_spec (Z.of_nat (List.length t) + 64) (Z.of_nat (List.length t + S (List.length z)))); [|lia]. rewrite firstn_text. reflexivity.
Qed.

Lemma extension_json n : name_eqb (extension n) (lit ".json") = true <-> exists stem, stem <> [] /\ n = stem ++ lit ".json".
Proof.
  assert (D : forall l e, last_dot l = Some e -> exists s, l = s ++ e).
  { induction l as [|c l IH]; intros e E; [discriminate|]. cbn [last_dot] in E. destruct (last_dot l) as [e'|].
    - injection E as <-. destruct (IH _ eq_refl) as (s & ->). exists (c :: s). reflexivity.
    - destruct (Z.eqb_spec c 46); [|discriminate]. injection E as <-. exists []. reflexivity. }
  assert (J : forall s, last_dot (s ++ lit ".json") = Some (lit ".json")).
  { induction s as [|c s IH]; [reflexivity|]. cbn [app last_dot]. rewrite IH. reflexivity. }
  unfold name_eqb. destruct (list_eq_dec Z.eq_dec (extension n) (lit ".json")) as [E|E]; split; intros H; try discriminate; try reflexivity.
  - unfold extension in E. destruct (name_eqb n (lit "..")); [discriminate|]. destruct n as [|c n]; [discriminate|]. destruct (last_dot n) as [e|] eqn:L; [|discriminate].
    subst e. destruct (D _ _ L) as (s & ->). exists (c :: s). split; [discriminate|reflexivity].
  - exfalso. apply E. destruct H as (stem & NE & ->). destruct stem as [|c s]; [congruence|]. unfold extension. cbn [app]. rewrite J.
    unfold name_eqb. destruct (list_eq_dec Z.eq_dec (c :: s ++ lit ".json") (lit "..")) as [Q|Q]; [|reflexivity].
    exfalso. apply (f_equal (@List.length Z)) in Q. cbn [List.length] in Q. rewrite app_length in Q. cbn in Q. lia.
Qed.

Section Props.
Variables (limit : nat) (map_file : nat -> name -> option Z) (code_of : name -> script_answer) (tree : list Z -> json).
Notation reg_json := (register_json limit map_file code_of).
Notation reg_data := (register_data limit map_file code_of tree).
Notation reg_file := (register_file limit map_file code_of tree).
Notation reg_dir := (register_directory limit map_file code_of tree).
Notation path := (register_path limit map_file code_of).

Lemma file_zero f a r o t z : readable f a -> textual t -> fi_bytes f = t ++ z -> (z = [] \/ exists z', z = 0 :: z') ->
  reg_file r a o = (do x <- reg_json r (tree t); Ok (o, x)).
Proof.
  intros (F & T & D & M & Mem) N E Z. unfold register_file.
  rewrite (proj2 (C103_bytes_partial a o) (fi_bytes f) (conj F (conj T (conj D M))) Mem). cbn [obind]. cbv zeta. unfold register_data.
  assert (H : exists w, fi_bytes f ++ repeat 0 (Z.to_nat PADDED) = t ++ 0 :: w /\ List.length w = (List.length z + 63)%nat).
  { rewrite E. destruct Z as [->|(z' & ->)].
    - exists (repeat 0 63). rewrite app_nil_r. split; reflexivity.
    - exists (z' ++ repeat 0 (Z.to_nat PADDED)). split; [rewrite <- app_assoc; reflexivity|]. change (Z.to_nat PADDED) with 64%nat. rewrite app_length, repeat_length. cbn [List.length]. lia. }
  destruct H as (w & -> & L). rewrite E, app_length in M. unfold MAX_SIZE in M.
  rewrite text_inside; [cbn [obind]; reflexivity|exact N| |lia]. rewrite app_length. cbn [List.length]. lia.
Qed.

Definition entry (f : file) : bool * json := (name_eqb (extension (fi_name f)) (lit ".json"), tree (fi_bytes f)).
Lemma directory_path : forall fs answers r o, Forall2 readable fs answers -> (forall f, In f fs -> json_file f -> textual (fi_bytes f)) ->
  reg_dir r (combine (List.map fi_name fs) answers) o = (do x <- path r (List.map entry fs); Ok (o, x)).
Proof.
  intros fs answers r o R. revert r o. induction R as [|f a fs answers Rf R IH]; intros r o T; [reflexivity|].
  cbn [List.map combine register_directory]. unfold entry at 1. destruct (name_eqb (extension (fi_name f)) (lit ".json")) eqn:X; cbn [register_path].
  - rewrite (file_zero f a r o (fi_bytes f) []); [|assumption| |symmetry; apply app_nil_r|left; reflexivity].
    + destruct (reg_json r (tree (fi_bytes f))) as [[r1 e]| |]; cbn [obind]; [|reflexivity..].
      destruct e as [[]| |]; try reflexivity. apply IH. intros g IN. apply T. right. exact IN.
    + apply T; [left; reflexivity|]. apply extension_json. exact X.
  - apply IH. intros g IN. apply T. right. exact IN.
Qed.
Lemma files_filter fs : exists js, json_files fs js /\ List.map snd (List.filter fst (List.map entry fs)) = List.map (fun f => tree (fi_bytes f)) js.
Proof.
  induction fs as [|f fs (js & J & E)]; [exists []; split; [constructor|reflexivity]|]. cbn [List.map List.filter]. unfold entry at 1. cbn [fst].
  destruct (name_eqb (extension (fi_name f)) (lit ".json")) eqn:X.
  - exists (f :: js). split; [constructor; [apply extension_json; exact X|exact J]|]. cbn [List.map snd]. rewrite E. reflexivity.
  - exists js. split; [constructor; [intros Y; apply extension_json in Y; congruence|exact J]|exact E].
Qed.
Lemma files_unique fs js : json_files fs js -> forall js', json_files fs js' -> js' = js.
Proof. induction 1 as [|f fs js Y J IH|f fs js Y J IH]; intros js' H; inversion H; subst; try contradiction; f_equal; auto. Qed.
End Props.

(** ** C107 *)

(** A file without zero bytes is read whole: registering it is registering the family its text
    describes, and it is closed again. *)
Theorem C107_file : forall limit map_file code_of tree f a r o, readable f a -> textual (fi_bytes f) ->
  register_file limit map_file code_of tree r a o = (do x <- register_json limit map_file code_of r (tree (fi_bytes f)); Ok (o, x)).
Proof. intros. eapply file_zero; [eassumption|assumption|symmetry; apply app_nil_r|left; reflexivity]. Qed.
Print Assumptions C107_file.

(** A file that cannot be opened is refused and registers nothing, given that the empty text is
    no JSON object. *)
Theorem C107_missing : forall limit map_file code_of tree a r o, ra_file a = None -> (forall m, tree [] <> JObj m) ->
  register_file limit map_file code_of tree r a o = Ok (o, (r, JInvalid)).
Proof.
  intros * F N. unfold register_file. rewrite (proj1 (C103_bytes_partial a o) F). cbn [obind]. cbv zeta. unfold register_data.
  change (([] : list Z) ++ repeat 0 (Z.to_nat PADDED)) with (([] : list Z) ++ 0 :: repeat 0 63). rewrite text_inside; [|intros []|cbn; lia|cbn; lia]. cbn [obind]. unfold register_json.
  destruct (tree []) eqn:E; try reflexivity. destruct (N _ eq_refl).
Qed.
Print Assumptions C107_missing.

(** A file for which memory is short, or whose length is not known, ends in an exception and
    registers nothing; a directory is not read on.  The stream stays open (C103). *)
Theorem C107_threw : forall limit map_file code_of tree a r o f, ra_file a = Some f -> ra_memory a = false \/ ra_tell a = -1 ->
  register_file limit map_file code_of tree r a o = Ok (Stream f :: o, (r, JThrew)) /\
  forall stem rest, stem <> [] -> register_directory limit map_file code_of tree r ((stem ++ lit ".json", a) :: rest) o = Ok (Stream f :: o, (r, JThrew)).
Proof.
  intros * F C. assert (R : register_file limit map_file code_of tree r a o = Ok (Stream f :: o, (r, JThrew))).
  { unfold register_file, file_read_bytes. rewrite F. cbv zeta. replace ((MAX_SIZE <? ra_tell a mod 2 ^ 64) || negb (ra_memory a))%bool with true; [reflexivity|].
    destruct C as [->| ->]; [cbn [negb]; rewrite Bool.orb_true_r; reflexivity|reflexivity]. }
  split; [exact R|]. intros stem rest NE. cbn [register_directory]. rewrite (proj2 (extension_json (stem ++ lit ".json")) (ex_intro _ stem (conj NE eq_refl))), R. reflexivity.
Qed.
Print Assumptions C107_threw.
Example C107_threw_used : register_directory 10 mf codes (fun _ => JBad) rg_empty [(lit "a.json", {| ra_file := Some 3; ra_tell := -1; ra_memory := true; ra_data := [] |}); (lit "b.json", {| ra_file := None; ra_tell := 0; ra_memory := true; ra_data := [] |})] [] = Ok ([Stream 3], (rg_empty, JThrew)).
Proof. reflexivity. Qed.

(** A directory is registered exactly when every file in it that is named as a JSON file, and no
    other, describes a family and these can be registered one after the other. *)
Theorem C107_directory : forall limit map_file code_of tree fs answers r o o' r', Z.of_nat limit <= 2 ^ 31 ->
  Forall2 readable fs answers -> (forall f, In f fs -> json_file f -> textual (fi_bytes f)) ->
  register_directory limit map_file code_of tree r (combine (List.map fi_name fs) answers) o = Ok (o', (r', JDone RNone)) <->
  o' = o /\ exists js ds es, json_files fs js /\ Forall2 (fun f d => describes limit code_of (tree (fi_bytes f)) d) js ds /\
    registrations limit map_file r ds = Ok (r', es) /\ Forall (eq RNone) es.
Proof.
  intros * LL R T. rewrite (directory_path limit map_file code_of tree fs answers r o R T).
  destruct (files_filter tree fs) as (js & J & E).
  assert (P : forall ds, Forall2 (describes limit code_of) (List.map (fun f => tree (fi_bytes f)) js) ds <-> Forall2 (fun f d => describes limit code_of (tree (fi_bytes f)) d) js ds).
  { intros ds. clear. revert ds. induction js as [|f js IH]; intros ds; cbn [List.map]; split; intros H; inversion H; subst; constructor; try assumption; apply IH; assumption. }
  split.
  - intros H. destruct (register_path limit map_file code_of r (List.map (entry tree) fs)) as [[r1 e]| |] eqn:X; try discriminate. cbn [obind] in H. injection H as <- <- ->.
    split; [reflexivity|]. apply path_success in X; [|exact LL]. destruct X as (ds & es & D & S & N). rewrite E in D. apply P in D. exists js, ds, es. auto.
  - intros (-> & js' & ds & es & J' & D & S & N). rewrite (files_unique _ _ J _ J') in D. apply P in D. rewrite <- E in D.
    assert (X : register_path limit map_file code_of r (List.map (entry tree) fs) = Ok (r', JDone RNone)) by (apply path_success; [exact LL|exists ds, es; auto]).
    rewrite X. reflexivity.
Qed.
Print Assumptions C107_directory.

(** Bytes given by the program are read if they end with a zero byte and at least 63 bytes more;
    then the text is what is before the first zero.  Missing: texts given as they are. *)
Theorem C107_data_partial : forall limit map_file code_of tree r t z rest, textual t -> (63 <= List.length z)%nat -> Z.of_nat (List.length z) < 2 ^ 63 ->
  register_data limit map_file code_of tree r (view_of (t ++ 0 :: z) rest) = register_json limit map_file code_of r (tree t).
Proof.
  intros * N L B. unfold register_data, view_of. rewrite <- app_assoc. cbn [app]. rewrite text_inside; [reflexivity|exact N| |rewrite app_length; lia].
  rewrite app_length. cbn [List.length]. lia.
Qed.
Print Assumptions C107_data_partial.

(** A text that is given as it is, as a string literal for example, is refused, whatever family it
    describes. *)
Theorem C107_literal_refuted : forall limit map_file code_of tree r t rest, textual t ->
  register_data limit map_file code_of tree r (view_of t (0 :: rest)) = Ok (r, JInvalid).
Proof.
  intros * N. unfold register_data, view_of, json_text. cbn [vw_memory vw_size]. rewrite strlen_text by exact N. cbn [obind]. rewrite Z.sub_diag. reflexivity.
Qed.
Print Assumptions C107_literal_refuted.
(** A part of a longer text is not read to its own end but to the end of the longer one. *)
Theorem C107_part_refuted : forall limit map_file code_of tree r t u z, textual (t ++ u) -> u <> [] -> Z.of_nat (List.length u) < 2 ^ 63 -> (63 <= List.length z)%nat ->
  register_data limit map_file code_of tree r (view_of t (u ++ 0 :: z)) = register_json limit map_file code_of r (tree (t ++ u)).
Proof.
  intros * N NE B L. unfold register_data, view_of, json_text. cbn [vw_memory vw_size]. rewrite app_assoc, strlen_text by exact N. cbn [obind]. unfold PADDED.
  assert (0 < Z.of_nat (List.length u)) by (destruct u; [congruence|cbn [List.length]; lia]).
  replace ((Z.of_nat (List.length t) - Z.of_nat (List.length (t ++ u))) mod 2 ^ 64) with (2 ^ 64 - Z.of_nat (List.length u)).
  2: { rewrite app_length. apply Z.mod_unique with (q := -1); [left|]; lia. }
  destruct (Z.ltb_spec (2 ^ 64 - Z.of_nat (List.length u)) 64); [lia|]. rewrite (app_length (t ++ u)). cbn [List.length].
  destruct (Z.leb_spec (Z.of_nat (List.length (t ++ u)) + 64) (Z.of_nat (List.length (t ++ u) + S (List.length z)))); [|lia]. rewrite firstn_text. reflexivity.
Qed.
Print Assumptions C107_part_refuted.
(** Without a zero byte behind it, memory beyond what may be read is read. *)
Theorem C107_unterminated_refuted : forall limit map_file code_of tree r t, textual t -> register_data limit map_file code_of tree r (view_of t []) = UB.
Proof. intros * N. unfold register_data, view_of, json_text. cbn [vw_memory]. rewrite app_nil_r, strlen_none by exact N. reflexivity. Qed.
Print Assumptions C107_unterminated_refuted.
(** Whatever follows a zero byte in a file is ignored: the file is accepted although it is no
    JSON. *)
Theorem C107_zero_refuted : forall limit map_file code_of tree f a r o t z, readable f a -> textual t -> fi_bytes f = t ++ 0 :: z ->
  register_file limit map_file code_of tree r a o = (do x <- register_json limit map_file code_of r (tree t); Ok (o, x)).
Proof. intros. eapply file_zero; [eassumption|assumption|eassumption|right; eexists; reflexivity]. Qed.
Print Assumptions C107_zero_refuted.

(** Two files, "{}" standing for the text of the family of C49's example and a file of another
    kind. *)
Definition a_tree (t : list Z) : json := if name_eqb t (lit "{}") then family_with (JArr [JInt 2]) else JBad.
Definition two_files : list file := [{| fi_name := lit "a.json"; fi_bytes := lit "{}" |}; {| fi_name := lit ".json"; fi_bytes := [0; 255] |}; {| fi_name := lit "b.ttf"; fi_bytes := [0] |}].
Definition answers_for (f : file) : read_answers := {| ra_file := Some 3; ra_tell := Z.of_nat (List.length (fi_bytes f)); ra_memory := true; ra_data := fi_bytes f |}.
Example C107_files : Forall2 readable two_files (List.map answers_for two_files) /\ (forall f, In f two_files -> json_file f -> textual (fi_bytes f)) /\
  json_files two_files [{| fi_name := lit "a.json"; fi_bytes := lit "{}" |}] /\
  exists r, register_directory 10 mf codes a_tree rg_empty (combine (List.map fi_name two_files) (List.map answers_for two_files)) [] = Ok ([], (r, JDone RNone)) /\ get_family r (lit "A") = 0.
Proof.
  assert (X : forall f, json_file f -> name_eqb (extension (fi_name f)) (lit ".json") = true) by (intros f H; apply extension_json; exact H).
  split; [|split; [|split]].
  - repeat constructor; cbn; unfold MAX_SIZE; try discriminate; try lia.
  - intros f IN J. apply X in J. destruct IN as [<-|[<-|[<-|[]]]]; [|vm_compute in J; discriminate J..]. vm_compute. intuition discriminate.
  - apply take_file; [exists (lit "a"); split; [discriminate|reflexivity]|]. apply skip_file; [intros J; apply X in J; vm_compute in J; discriminate J|].
    apply skip_file; [intros J; apply X in J; vm_compute in J; discriminate J|]. constructor.
  - eexists. split; vm_compute; reflexivity.
Qed.
Example C107_bytes : register_data 10 mf codes a_tree rg_empty (view_of (lit "{}" ++ repeat 0 64) []) = register_json 10 mf codes rg_empty (family_with (JArr [JInt 2])) /\
  register_data 10 mf codes a_tree rg_empty (view_of (lit "{}") [0]) = Ok (rg_empty, JInvalid) /\
  register_data 10 mf codes a_tree rg_empty (view_of (lit "{") (lit "}" ++ repeat 0 64)) = register_json 10 mf codes rg_empty (family_with (JArr [JInt 2])).
Proof. split; [|split]; vm_compute; reflexivity. Qed.
