(** C49, C68: families from JSON. *)
From Coq Require Import String Sorted ZifyBool ZifyNat.
From Verif Require Import Base BaseFacts BuilderModel FontModel FontSpec FontProps JsonModel JsonSpec JsonProofs.
Open Scope Z_scope.

(** ** C49 *)

(** A value that describes a family has the effect of registering that family, and it
    describes no other. *)
Theorem C49_accepts : forall limit map_file code_of r j d, Z.of_nat limit <= 2 ^ 31 -> describes limit code_of j d ->
  register_json limit map_file code_of r j = (do (r', e) <- register_family limit map_file r d; Ok (r', JDone e)) /\
  forall d', describes limit code_of j d' -> d' = d.
Proof.
  intros * LL D. split; [apply json_accepts; assumption|]. destruct (register_cases limit map_file code_of LL r j) as [(d0 & _ & U & _)|[N _]]; [|destruct (N _ D)].
  intros d' D'. rewrite (U _ D'), (U _ D). reflexivity.
Qed.
Print Assumptions C49_accepts.

(** Whatever does not describe a family registers nothing, if the call returns or throws
    an exception. *)
Theorem C49_registers_nothing : forall limit map_file code_of r j r' e, Z.of_nat limit <= 2 ^ 31 -> (forall d, ~ describes limit code_of j d) ->
  register_json limit map_file code_of r j = Ok (r', e) -> r' = r /\ (e = JInvalid \/ e = JThrew).
Proof. intros * LL N E. destruct (json_rejects limit map_file code_of LL r j N) as [H|[H|H]]; rewrite H in E; inversion E; auto. Qed.
Print Assumptions C49_registers_nothing.

(** It is refused with [INVALID_JSON].  Missing: "scripts" with a negative number or a name
    that no script has. *)
Theorem C49_rejects_partial : forall limit map_file code_of r j, Z.of_nat limit <= 2 ^ 31 -> plain_scripts limit code_of j -> (forall d, ~ describes limit code_of j d) ->
  register_json limit map_file code_of r j = Ok (r, JInvalid).
Proof. intros * LL. apply json_plain. exact LL. Qed.
Print Assumptions C49_rejects_partial.

(** Every accepted description satisfies the restrictions on weights, styles and codes. *)
Theorem C49_valid : forall limit code_of j d, describes limit code_of j d ->
  Forall (fun c => 0 <= c < Z.of_nat limit) (fy_scripts d) /\ (forall fs, fy_faces d = Some fs -> fs <> [] /\ descs_ok fs).
Proof.
  intros limit code_of j d (o & vs & fs & _ & _ & S & _ & _ & _ & F & E). split.
  - apply Forall_forall. intros c IN. destruct S as [(ws & _ & _ & _ & H)|[_ H]]; [|rewrite H in IN; destruct IN]. apply H in IN. destruct IN as (v & _ & R & _). exact R.
  - intros gs E'. rewrite E in E'. destruct fs as [|f fs]; [discriminate|]. inversion E'; subst. split; [discriminate|].
    clear - F. induction F as [|v g vs' gs D F IH]; [constructor|]. constructor; [|exact IH]. destruct D as (o' & _ & _ & _ & W & _ & [[S _]|[S _]]); rewrite S; lia.
Qed.
Print Assumptions C49_valid.

(** {"name": "A", "scripts": ["Latn", 2, 2], "linked_families": ["B"],
     "faces": [{"name": "AR", "uri": "a.ttf", "weight": 400, "style": "normal"},
               {"style": "italic", "weight": 900, "name": "AI", "uri": "i.ttf"}]} *)
Definition codes (s : name) : script_answer := if name_eqb s (lit "Latn") then SCode 5 else if name_eqb s (lit "ja") then SFailed else SNone.
Definition one_face : json := JObj [(lit "name", JStr (lit "AR")); (lit "uri", JStr (lit "a.ttf")); (lit "weight", JInt 400); (lit "style", JStr (lit "normal"))].
Definition family_with (scripts : json) : json :=
  JObj [(lit "name", JStr (lit "A")); (lit "scripts", scripts); (lit "linked_families", JArr [JStr (lit "B")]);
        (lit "faces", JArr [one_face;
           JObj [(lit "style", JStr (lit "italic")); (lit "weight", JInt 900); (lit "name", JStr (lit "AI")); (lit "uri", JStr (lit "i.ttf"))]])].
Definition family_of (scripts : list Z) : family_desc :=
  {| fy_name := lit "A"; fy_scripts := scripts; fy_linked := [lit "B"]; fy_fallback := [];
     fy_faces := Some [{| fd_name := lit "AR"; fd_uri := lit "a.ttf"; fd_weight := 3; fd_style := 0 |}; {| fd_name := lit "AI"; fd_uri := lit "i.ttf"; fd_weight := 8; fd_style := 1 |}] |}.
Lemma example_describes : describes 10 codes (family_with (JArr [JStr (lit "Latn"); JInt 2; JInt 2])) (family_of [2; 5]).
Proof.
  destruct (register_cases 10 mf codes ltac:(lia) rg_empty (family_with (JArr [JStr (lit "Latn"); JInt 2; JInt 2]))) as [(d & D & _)|[_ [E|(o & _ & [(e & _ & E)|[_ E]])]]];
    [|exfalso; vm_compute in E; discriminate E..].
  pose proof D as (o & vs & fs & E & D1 & D2 & D3 & D4 & D5 & D6 & D7). injection E as <-.
  apply field_string in D1. vm_compute in D1. apply read_families_iff in D3, D4. vm_compute in D3, D4. apply field_array in D5. vm_compute in D5. inversion D5; subst vs. apply read_faces_iff in D6. vm_compute in D6. inversion D6; subst fs.
  pose proof (read_codes_ok 10 codes (match family_with (JArr [JStr (lit "Latn"); JInt 2; JInt 2]) with JObj o => o | _ => [] end) ltac:(lia)) as RC. vm_compute (read_codes _ _ _) in RC. cbv iota in RC.
  apply RC in D2. clear RC. destruct d as [n cs l b f]. cbn [fy_name fy_scripts fy_linked fy_fallback fy_faces] in *. inversion D1. inversion D3. inversion D4. subst. exact D.
Qed.
Example C49_example : describes 10 codes (family_with (JArr [JStr (lit "Latn"); JInt 2; JInt 2])) (family_of [2; 5]) /\
  (exists r, register_json 10 mf codes rg_empty (family_with (JArr [JStr (lit "Latn"); JInt 2; JInt 2])) = Ok (r, JDone RNone) /\ get_family r (lit "A") = 0).
Proof. split; [exact example_describes|]. eexists. split; vm_compute; reflexivity. Qed.
(** Refused: a weight of 450, a script that stands for several. *)
Example C49_refused : register_json 10 mf codes rg_empty (family_with (JArr [JStr (lit "ja")])) = Ok (rg_empty, JInvalid) /\
  (forall d, ~ describes 10 codes (family_with (JArr [JStr (lit "ja")])) d) /\ plain_scripts 10 codes (family_with (JArr [JStr (lit "ja")])) /\
  register_json 10 mf codes rg_empty (JObj [(lit "name", JStr (lit "A")); (lit "faces", JArr [one_face; JObj [(lit "name", JStr (lit "AI")); (lit "uri", JStr []); (lit "weight", JInt 450); (lit "style", JStr (lit "normal"))]])]) = Ok (rg_empty, JInvalid).
Proof.
  split; [vm_compute; reflexivity|]. split; [|split; [|vm_compute; reflexivity]].
  - intros d D. pose proof (json_accepts 10 mf codes ltac:(lia) rg_empty _ d D) as E. destruct (register_family 10 mf rg_empty d) as [[r e]| |]; vm_compute in E; discriminate E.
  - intros o vs v E F IN. injection E as <-. apply field_array in F. vm_compute in F. inversion F; subst. destruct IN as [<-|[]]. vm_compute. exact I.
Qed.

(** A negative script code is an exception, not an error. *)
Theorem C49_negative_refuted : forall limit map_file code_of r n c, - 2 ^ 63 <= c < 0 ->
  register_json limit map_file code_of r (JObj [(lit "name", JStr n); (lit "scripts", JArr [JInt c])]) = Ok (r, JThrew).
Proof.
  intros limit map_file code_of r n c R. unfold register_json, get_field. cbn [get_object].
  change (lookup (lit "name") [(lit "name", JStr n); (lit "scripts", JArr [JInt c])]) with (Some (JStr n)).
  change (lookup (lit "scripts") [(lit "name", JStr n); (lit "scripts", JArr [JInt c])]) with (Some (JArr [JInt c])). cbn [get_string get_array read_scripts get_int64 get_uint64].
  replace ((- 2 ^ 63 <=? c) && (c <? 2 ^ 63)) with true by lia. replace (Z.of_nat limit <=? c) with false by lia. replace ((0 <=? c) && (c <? 2 ^ 64)) with false by lia. reflexivity.
Qed.
Print Assumptions C49_negative_refuted.
(** The name of a script that does not exist makes the program use a variable that has no
    value. *)
Theorem C49_unknown_script_refuted : forall limit map_file code_of r n s, code_of s = SNone ->
  register_json limit map_file code_of r (JObj [(lit "name", JStr n); (lit "scripts", JArr [JStr s])]) = UB.
Proof.
  intros limit map_file code_of r n s E. unfold register_json, get_field. cbn [get_object].
  change (lookup (lit "name") [(lit "name", JStr n); (lit "scripts", JArr [JStr s])]) with (Some (JStr n)).
  change (lookup (lit "scripts") [(lit "name", JStr n); (lit "scripts", JArr [JStr s])]) with (Some (JArr [JStr s])). cbn [get_string get_array read_scripts get_int64]. rewrite E. reflexivity.
Qed.
Print Assumptions C49_unknown_script_refuted.
(** "scripts" that is not an array is not refused: the family then serves every script. *)
Theorem C49_scripts_type_refuted : exists r, register_json 10 mf codes rg_empty (family_with (JStr (lit "Latn"))) = Ok (r, JDone RNone) /\
  exists f, get_fam r (get_family r (lit "A")) = Ok f /\ fa_scripts f = repeat true 10.
Proof. eexists. split; [vm_compute; reflexivity|]. eexists. split; vm_compute; reflexivity. Qed.
Print Assumptions C49_scripts_type_refuted.

(** ** C68 *)

(** Loading a directory succeeds exactly when each JSON file in it describes a family and
    registering those families one after the other succeeds; the registry is then the same. *)
Theorem C68_success : forall limit map_file code_of entries r r', Z.of_nat limit <= 2 ^ 31 ->
  register_path limit map_file code_of r entries = Ok (r', JDone RNone) <->
  exists ds es, Forall2 (describes limit code_of) (List.map snd (List.filter fst entries)) ds /\ registrations limit map_file r ds = Ok (r', es) /\ Forall (eq RNone) es.
Proof. intros * LL. apply path_success. exact LL. Qed.
Print Assumptions C68_success.
(** Otherwise the answer is that of the first file that fails; the files before it are
    registered and the files after it are not read. *)
Theorem C68_failure : forall limit map_file code_of entries r r' e, Z.of_nat limit <= 2 ^ 31 ->
  register_path limit map_file code_of r entries = Ok (r', e) -> e <> JDone RNone ->
  exists before j after r1, entries = before ++ (true, j) :: after /\
    register_path limit map_file code_of r before = Ok (r1, JDone RNone) /\ register_json limit map_file code_of r1 j = Ok (r', e).
Proof. intros * LL. apply path_failure. Qed.
Print Assumptions C68_failure.
Example C68_example : let a := family_with (JArr [JInt 2]) in
  (exists r, register_path 10 mf codes rg_empty [(true, a); (false, JBad)] = Ok (r, JDone RNone)) /\
  (exists r, register_path 10 mf codes rg_empty [(false, JNull); (true, a); (true, a); (true, one_face)] = Ok (r, JDone RAlready)).
Proof. cbv zeta. split; eexists; vm_compute; reflexivity. Qed.
