(** Mapping files: C48. *)
From Coq Require Import Lia Permutation.
From Verif Require Import Base BaseFacts FileModel FileSpec FileProofs.
Open Scope Z_scope.

(** C48 on the platforms without memory mapping: after any history, with any system call
    failing anywhere, what the process holds is what the live mappings own; every call is
    defined and releases only what is held. *)
Theorem C48_stdio : forall start s, history stdio_map stdio_unmap (fun m => is_null (fst m)) stdio_valid start s ->
  owns_all stdio_owned start s /\ no_misuse stdio_map stdio_unmap stdio_valid s.
Proof. intros start s. apply history_fine with (fine := fun _ => True); [exact stdio_map_ok|exact stdio_unmap_ok]. Qed.
Print Assumptions C48_stdio.
(** C48 on Linux, if only [open] fails. *)
Theorem C48_linux_partial : forall start s,
  history linux_map linux_unmap is_null (fun a => linux_valid a /\ (la_fd a <> None -> la_size a <> None /\ la_addr a <> None)) start s ->
  owns_all linux_owned start s /\ no_misuse linux_map linux_unmap (fun a => linux_valid a /\ (la_fd a <> None -> la_size a <> None /\ la_addr a <> None)) s.
Proof. intros start s. apply history_fine with (fine := fun m => 0 <= fm_handle m < 2 ^ 31); [exact linux_map_ok|exact linux_unmap_ok]. Qed.
Print Assumptions C48_linux_partial.
(** C48 on Windows, if [CreateFileMappingW] does not fail. *)
Theorem C48_windows_partial : forall start s,
  history windows_map windows_unmap (fun m => is_null (fst m)) (fun a => windows_valid a /\ (wa_file a <> None -> wa_view a <> None)) start s ->
  owns_all windows_owned start s /\ no_misuse windows_map windows_unmap (fun a => windows_valid a /\ (wa_file a <> None -> wa_view a <> None)) s.
Proof. intros start s. apply history_fine with (fine := fun _ => True); [exact windows_map_ok|exact windows_unmap_ok]. Qed.
Print Assumptions C48_windows_partial.
(** So nothing is left when all mappings are unmapped. *)
Theorem C48_nothing_left : forall start o, history stdio_map stdio_unmap (fun m => is_null (fst m)) stdio_valid start (o, []) -> Permutation o start.
Proof. intros start o H. exact (proj1 (C48_stdio _ _ H)). Qed.
Print Assumptions C48_nothing_left.

(** Two files are mapped and the first unmapped. *)
Definition linux_a (fd p : Z) : linux_answers := {| la_fd := Some fd; la_size := Some 10; la_addr := Some p |}.
Example C48_used : exists m, history linux_map linux_unmap is_null (fun a => linux_valid a /\ (la_fd a <> None -> la_size a <> None /\ la_addr a <> None)) [] ([Range 8192 10; Fd 4], [m]).
Proof.
  assert (V : forall fd p, 0 <= fd < 2 ^ 31 -> p <> 0 -> linux_valid (linux_a fd p) /\ (la_fd (linux_a fd p) <> None -> la_size (linux_a fd p) <> None /\ la_addr (linux_a fd p) <> None)).
  { intros fd p F PP. split; [split; cbn; [intros x [= <-]; exact F|intros x [= <-]; exact PP]|intros _; split; discriminate]. }
  eexists. eapply history_step; [eapply history_step; [eapply history_step; [apply history_start|]|]|].
  - apply step_map with (a := linux_a 3 4096); [apply V; lia|reflexivity|reflexivity].
  - apply step_map with (a := linux_a 4 8192); [apply V; lia|reflexivity|reflexivity].
  - apply (step_unmap linux_map linux_unmap is_null _ _ _ [_] _ []). reflexivity.
Qed.

(** A Linux file that can be opened but not mapped, such as an empty one, leaves its
    descriptor open, and nobody can close it. *)
Theorem C48_linux_leak_refuted : exists a, linux_valid a /\ la_size a = Some 0 /\ forall o, linux_map a o = Ok (Fd 3 :: o, no_mapping).
Proof. exists {| la_fd := Some 3; la_size := Some 0; la_addr := None |}. split; [split; cbn; [intros fd [= <-]; lia|discriminate]|]. split; reflexivity. Qed.
Print Assumptions C48_linux_leak_refuted.
Theorem C48_linux_stat_refuted : exists a, linux_valid a /\ la_size a = None /\ forall o, linux_map a o = Ok (Fd 3 :: o, no_mapping).
Proof. exists {| la_fd := Some 3; la_size := None; la_addr := None |}. split; [split; cbn; [intros fd [= <-]; lia|discriminate]|]. split; reflexivity. Qed.
Print Assumptions C48_linux_stat_refuted.
(** A failed [CreateFileMappingW] is not noticed: the null handle is closed. *)
Theorem C48_windows_null_refuted : exists a, windows_valid a /\ wa_view a = None /\ windows_map a [] = UB.
Proof. exists {| wa_file := Some 4; wa_view := None; wa_addr := None; wa_size := 0; wa_block := 0 |}. split; [|split; reflexivity]. split; [intros h [= <-]; lia|]. split; discriminate. Qed.
Print Assumptions C48_windows_null_refuted.
(** The size of a file of four gigabytes and more is wrong on Windows. *)
Theorem C48_windows_size_refuted : exists a o' m, windows_valid a /\ wa_size a = 2 ^ 32 + 5 /\ windows_map a [] = Ok (o', m) /\ fm_ptr (fst m) <> 0 /\ fm_size (fst m) = 5.
Proof.
  exists {| wa_file := Some 4; wa_view := Some 8; wa_addr := Some 65536; wa_size := 2 ^ 32 + 5; wa_block := 16 |}. eexists _, _. split; [|split; [reflexivity|split; [reflexivity|split; [discriminate|reflexivity]]]].
  split; [intros h [= <-]; lia|]. split; [intros h [= <-]; lia|intros p [= <-]; lia].
Qed.
Print Assumptions C48_windows_size_refuted.
(** Without memory mapping a failed read is not noticed: the mapping given out does not
    have the file's bytes. *)
Theorem C48_short_read_refuted : exists a o' m, stdio_valid a /\ sa_read a = 0 /\ stdio_map a [] = Ok (o', m) /\ is_null (fst m) = false /\ fm_size (fst m) = 10 /\ snd m = false.
Proof. exists {| sa_file := Some 3; sa_tell := 10; sa_block := Some 4096; sa_read := 0 |}. eexists _, _. split; [intros p [= <-]; lia|]. repeat split. Qed.
Print Assumptions C48_short_read_refuted.
(** On Linux a mapping has the size of the file. *)
Theorem C48_linux_size : forall a o o' m, linux_map a o = Ok (o', m) -> is_null m = false -> la_size a = Some (fm_size m).
Proof.
  intros a o o' m E N. unfold linux_map in E. destruct (la_fd a); [|injection E as <- <-; discriminate]. destruct (la_size a) as [sz|]; [|injection E as <- <-; discriminate]. destruct (la_addr a); injection E as <- <-; [reflexivity|discriminate].
Qed.
Print Assumptions C48_linux_size.
