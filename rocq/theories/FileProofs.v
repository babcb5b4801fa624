From Coq Require Import Lia Permutation.
From Verif Require Import Base BaseFacts FileModel FileSpec.
Open Scope Z_scope.

Lemma held_eqb_eq a b : held_eqb a b = true <-> a = b.
Proof.
  destruct a, b; cbn; rewrite ?andb_true_iff, ?Z.eqb_eq; split; try discriminate; try congruence.
  - intros [-> ->]. reflexivity.
  - intros E. injection E as -> ->. split; reflexivity.
Qed.
Lemma release_in r o : In r o -> exists o', release r o = Ok o' /\ Permutation o (r :: o').
Proof.
  induction o as [|x o IH]; [intros []|]. intros I. cbn [release]. destruct (held_eqb r x) eqn:E.
  - apply held_eqb_eq in E. subst. exists o. split; [reflexivity|apply Permutation_refl].
  - destruct I as [->|I]; [assert (held_eqb r r = true) by (apply held_eqb_eq; reflexivity); congruence|]. destruct (IH I) as (o' & -> & P). exists (x :: o'). split; [reflexivity|].
    eapply Permutation_trans; [apply perm_skip; exact P|]. apply perm_swap.
Qed.
Lemma release_perm r o o1 : Permutation o (r :: o1) -> exists o', release r o = Ok o' /\ Permutation o' o1.
Proof.
  intros P. destruct (release_in r o) as (o' & E & P'); [eapply Permutation_in; [apply Permutation_sym, P|left; reflexivity]|]. exists o'. split; [exact E|].
  apply Permutation_cons_inv with r. eapply Permutation_trans; [apply Permutation_sym, P'|exact P].
Qed.

Section Generic.
Variables A M : Type.
Variable map_file : A -> os -> outcome (os * M).
Variable unmap_file : M -> os -> outcome os.
Variable failed : M -> bool.
Variable valid : A -> Prop.
Variable owned : M -> list held.
(** What holds of every mapping that is given out. *)
Variable fine : M -> Prop.
Hypothesis map_ok : forall a o, valid a -> exists o' m, map_file a o = Ok (o', m) /\ (failed m = true -> Permutation o' o) /\ (failed m = false -> Permutation o' (owned m ++ o) /\ fine m).
Hypothesis unmap_ok : forall m o rest, fine m -> Permutation o (owned m ++ rest) -> exists o', unmap_file m o = Ok o' /\ Permutation o' rest.

Lemma history_ok start s : history map_file unmap_file failed valid start s -> owns_all owned start s /\ Forall fine (snd s).
Proof.
  induction 1 as [|s s' H [IH F] ST]; [split; [apply Permutation_refl|constructor]|]. unfold owns_all in *. destruct ST as [a o o' live m V E Q|a o o' live m V E Q|o o' l1 m l2 E]; cbn [fst snd] in *.
  - destruct (map_ok a o V) as (o1 & m1 & E1 & P & _). rewrite E in E1. injection E1 as <- <-. split; [|exact F]. eapply Permutation_trans; [exact (P Q)|exact IH].
  - destruct (map_ok a o V) as (o1 & m1 & E1 & _ & P). rewrite E in E1. injection E1 as <- <-. destruct (P Q) as [P1 P2]. split; [|constructor; assumption]. cbn [flat_map]. rewrite <- app_assoc. eapply Permutation_trans; [exact P1|]. apply Permutation_app_head. exact IH.
  - apply Forall_app in F as [F1 F2]. inversion F2; subst. split; [|apply Forall_app; split; assumption].
    destruct (unmap_ok m o (flat_map owned (l1 ++ l2) ++ start) H2) as (o1 & E1 & P1).
    + eapply Permutation_trans; [exact IH|]. rewrite !flat_map_app. cbn [flat_map]. rewrite !app_assoc. do 2 apply Permutation_app_tail. apply Permutation_app_comm.
    + rewrite E in E1. injection E1 as <-. exact P1.
Qed.
Lemma history_fine start s : history map_file unmap_file failed valid start s -> owns_all owned start s /\ no_misuse map_file unmap_file valid s.
Proof.
  intros H. destruct (history_ok _ _ H) as [O F]. split; [exact O|]. split.
  - intros a V. destruct (map_ok a (fst s) V) as (o' & m & E & _). exists o', m. exact E.
  - intros m I. rewrite Forall_forall in F. apply in_split in I as (l1 & l2 & EL). destruct (unmap_ok m (fst s) (flat_map owned (l1 ++ l2) ++ start) (F m ltac:(rewrite EL; apply in_app_iff; right; left; reflexivity))) as (o' & E & _); [|exists o'; exact E].
    unfold owns_all in O. rewrite EL in O. eapply Permutation_trans; [exact O|]. rewrite !flat_map_app. cbn [flat_map]. rewrite !app_assoc. do 2 apply Permutation_app_tail. apply Permutation_app_comm.
Qed.
End Generic.

Definition linux_late (a : linux_answers) : Prop := linux_valid a /\ (la_fd a <> None -> la_size a <> None /\ la_addr a <> None).
Lemma linux_map_ok a o : linux_late a -> exists o' m, linux_map a o = Ok (o', m) /\ (is_null m = true -> Permutation o' o) /\ (is_null m = false -> Permutation o' (linux_owned m ++ o) /\ 0 <= fm_handle m < 2 ^ 31).
Proof.
  intros [[V1 V2] L]. unfold linux_map. destruct (la_fd a) as [fd|].
  - destruct L as [L1 L2]; [discriminate|]. destruct (la_size a) as [sz|]; [|congruence]. destruct (la_addr a) as [p|]; [|congruence]. eexists _, _. split; [reflexivity|]. specialize (V1 fd eq_refl). specialize (V2 p eq_refl).
    assert (W : wrap32 fd = fd) by (unfold wrap32; apply Z.mod_small; lia). unfold is_null, linux_owned. cbn [fm_ptr fm_size fm_handle]. rewrite W. split; [rewrite Z.eqb_eq; contradiction|]. intros _. split; [apply Permutation_refl|exact V1].
  - exists o, no_mapping. split; [reflexivity|]. split; [intros _; apply Permutation_refl|discriminate].
Qed.
Lemma linux_unmap_ok m o rest : 0 <= fm_handle m < 2 ^ 31 -> Permutation o (linux_owned m ++ rest) -> exists o', linux_unmap m o = Ok o' /\ Permutation o' rest.
Proof.
  intros H P. unfold linux_unmap. destruct (release_perm _ _ _ P) as (o1 & -> & P1). cbn [obind]. assert (W : to_int32 (fm_handle m) = fm_handle m).
  { unfold to_int32, wrap32. rewrite Z.mod_small by lia. destruct (Z.ltb_spec (fm_handle m) (2 ^ 31)); lia. }
  rewrite W. exact (release_perm _ _ _ P1).
Qed.

Definition windows_late (a : windows_answers) : Prop := windows_valid a /\ (wa_file a <> None -> wa_view a <> None).
Lemma windows_map_ok a o : windows_late a -> exists o' m, windows_map a o = Ok (o', m) /\ (is_null (fst m) = true -> Permutation o' o) /\ (is_null (fst m) = false -> Permutation o' (windows_owned m ++ o) /\ True).
Proof.
  intros [(V1 & V2 & V3) L]. unfold windows_map. destruct (wa_file a) as [f|].
  - specialize (L ltac:(discriminate)). destruct (wa_view a) as [v|]; [|congruence]. destruct (V2 v eq_refl) as [N0 N1]. destruct (Z.eqb_spec v (-1)); [contradiction|]. destruct (Z.eqb_spec v 0); [contradiction|].
    destruct (wa_addr a) as [p|].
    + eexists _, _. split; [reflexivity|]. specialize (V3 p eq_refl). cbn [fst]. unfold is_null, windows_owned. cbn [fst snd fm_ptr fm_handle]. split; [rewrite Z.eqb_eq; contradiction|]. intros _. split; [|exact I]. cbn [app].
      eapply Permutation_trans; [apply perm_swap|]. apply perm_skip. eapply Permutation_trans; [apply perm_swap|]. apply perm_skip. apply perm_swap.
    + destruct (release_perm (Handle f) (Handle v :: Handle f :: o) (Handle v :: o)) as (o1 & -> & P1); [apply perm_swap|]. cbn [obind]. destruct (release_perm (Handle v) o1 o P1) as (o2 & -> & P2). cbn [obind].
      exists o2, (no_mapping, (0, 0)). split; [reflexivity|]. split; [intros _; exact P2|discriminate].
  - exists o, (no_mapping, (0, 0)). split; [reflexivity|]. split; [intros _; apply Permutation_refl|discriminate].
Qed.
Lemma windows_unmap_ok m o rest : True -> Permutation o (windows_owned m ++ rest) -> exists o', windows_unmap m o = Ok o' /\ Permutation o' rest.
Proof.
  intros _ P. destruct m as [m [f v]]. unfold windows_unmap, windows_owned in *. cbn [fst snd app] in *. destruct (release_perm _ _ _ P) as (o1 & -> & P1). cbn [obind]. destruct (release_perm _ _ _ P1) as (o2 & -> & P2). cbn [obind].
  destruct (release_perm _ _ _ P2) as (o3 & -> & P3). cbn [obind]. exact (release_perm _ _ _ P3).
Qed.
Lemma stdio_map_ok a o : stdio_valid a -> exists o' m, stdio_map a o = Ok (o', m) /\ (is_null (fst m) = true -> Permutation o' o) /\ (is_null (fst m) = false -> Permutation o' (stdio_owned m ++ o) /\ True).
Proof.
  intros V. unfold stdio_map. destruct (sa_file a) as [f|].
  - destruct (sa_block a) as [p|] eqn:B.
    + destruct (release_perm (Stream f) (Block p :: Stream f :: o) (Block p :: o)) as (o1 & -> & P1); [apply perm_swap|]. cbn [obind]. eexists _, _. split; [reflexivity|]. specialize (V p B). unfold is_null, stdio_owned. cbn [fst fm_ptr]. split; [rewrite Z.eqb_eq; contradiction|].
      intros _. split; [exact P1|exact I].
    + destruct (release_perm (Stream f) (Stream f :: o) o) as (o1 & -> & P1); [apply Permutation_refl|]. cbn [obind]. eexists _, _. split; [reflexivity|]. split; [intros _; exact P1|discriminate].
  - eexists _, _. split; [reflexivity|]. split; [intros _; apply Permutation_refl|discriminate].
Qed.
Lemma stdio_unmap_ok m o rest : True -> Permutation o (stdio_owned m ++ rest) -> exists o', stdio_unmap m o = Ok o' /\ Permutation o' rest.
Proof. intros _ P. exact (release_perm _ _ _ P). Qed.
