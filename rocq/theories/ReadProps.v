(** C103: reading a file. *)
From Verif Require Import Base FileModel ReadModel.
Open Scope Z_scope.

(** The C library on an ordinary file with the content [c] that nobody changes meanwhile and
    that can be read without an error: its end is found at its size. *)
Definition ordinary (c : list Z) (a : read_answers) : Prop :=
  ra_file a <> None /\ ra_tell a = Z.of_nat (List.length c) /\ ra_data a = c /\ Z.of_nat (List.length c) <= MAX_SIZE.

Lemma release_head f o : release (Stream f) (Stream f :: o) = Ok o.
Proof. cbn. now rewrite Z.eqb_refl. Qed.

(** Every byte of an ordinary file is returned, or memory is short; a file that cannot be
    opened gives nothing.  Unless memory is short the stream is closed. *)
Theorem C103_bytes_partial : forall a o,
  (ra_file a = None -> file_read_bytes a o = Ok (o, Read [])) /\
  (forall c, ordinary c a -> ra_memory a = true -> file_read_bytes a o = Ok (o, Read c)).
Proof.
  intros a o. split; [intros E; unfold file_read_bytes; now rewrite E|].
  intros c (F & T & D & M) Mem. unfold file_read_bytes. destruct (ra_file a) as [f|]; [|congruence]. cbv zeta.
  assert (S : ra_tell a mod 2 ^ 64 = Z.of_nat (List.length c)) by (rewrite T; apply Z.mod_small; unfold MAX_SIZE in M; lia).
  rewrite S, Mem. destruct (Z.ltb_spec MAX_SIZE (Z.of_nat (List.length c))); [lia|]. cbn [orb negb].
  rewrite release_head. cbn [obind]. rewrite D, Nat2Z.id, firstn_all, Nat.sub_diag. cbn [repeat]. now rewrite app_nil_r.
Qed.
Print Assumptions C103_bytes_partial.

(** No answer of the library makes it undefined, and only an exception leaves the stream
    open. *)
Theorem C103_safe : forall a o, exists o' r, file_read_bytes a o = Ok (o', r) /\
  match r with
  | Read bytes => o' = o /\ (ra_file a <> None -> Z.of_nat (List.length bytes) = ra_tell a mod 2 ^ 64)
  | Threw => exists f, ra_file a = Some f /\ o' = Stream f :: o
  end.
Proof.
  intros a o. unfold file_read_bytes. destruct (ra_file a) as [f|]; [|exists o, (Read []); split; [reflexivity|split; [reflexivity|congruence]]].
  cbv zeta. destruct (_ || _) eqn:E; [exists (Stream f :: o), Threw; split; [reflexivity|exists f; split; reflexivity]|].
  rewrite release_head. cbn [obind]. eexists _, _. split; [reflexivity|]. split; [reflexivity|]. intros _.
  pose proof (Z.mod_pos_bound (ra_tell a) (2 ^ 64)). rewrite app_length, repeat_length. pose proof (firstn_le_length (Z.to_nat (ra_tell a mod 2 ^ 64)) (ra_data a)). lia.
Qed.
Print Assumptions C103_safe.

(** What the sample program shows first: the file, or a message if there is none.  Missing:
    empty files (refuted below). *)
Theorem C103_start_partial : forall a o,
  (ra_file a = None -> start_text a o = Ok (o, Some MISSING_TEXT)) /\
  (forall c, ordinary c a -> ra_memory a = true -> c <> [] -> start_text a o = Ok (o, Some c)).
Proof.
  intros a o. destruct (C103_bytes_partial a o) as [A B]. unfold start_text. split.
  - intros E. rewrite (A E). reflexivity.
  - intros c C M N. rewrite (B c C M). cbn [obind]. destruct c; [contradiction|reflexivity].
Qed.
Print Assumptions C103_start_partial.

(** A text with a zero byte in it. *)
Definition an_answer (t : Z) (d : list Z) : read_answers := {| ra_file := Some 3; ra_tell := t; ra_memory := true; ra_data := d |}.
Example ordinary_case : ordinary [72; 105; 0; 10] (an_answer 4 [72; 105; 0; 10]) /\ start_text (an_answer 4 [72; 105; 0; 10]) [] = Ok ([], Some [72; 105; 0; 10]).
Proof. split; [repeat split; try discriminate; cbn; unfold MAX_SIZE; lia|vm_compute; reflexivity]. Qed.

(** A read that stops early is not noticed: zeros stand for what is missing. *)
Theorem C103_short_refuted : exists a, ra_tell a = 4 /\ ra_data a = [72] /\ file_read_bytes a [] = Ok ([], Read [72; 0; 0; 0]).
Proof. exists (an_answer 4 [72]). repeat split. Qed.
Print Assumptions C103_short_refuted.
(** Where the position is not known (a pipe; a directory has a huge one) the function ends
    with an exception instead of nothing, and the stream stays open. *)
Theorem C103_pipe_refuted : exists a, ra_tell a = -1 /\ ra_memory a = true /\ file_read_bytes a [] = Ok ([Stream 3], Threw).
Proof. exists (an_answer (-1) [72; 105]). repeat split. Qed.
Print Assumptions C103_pipe_refuted.
(** An empty file is reported as missing. *)
Theorem C103_empty_refuted : exists a, ordinary [] a /\ start_text a [] = Ok ([], Some MISSING_TEXT).
Proof. exists (an_answer 0 []). split; [repeat split; try discriminate; cbn; unfold MAX_SIZE; lia|reflexivity]. Qed.
Print Assumptions C103_empty_refuted.
