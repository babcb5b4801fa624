(** C111: the tables of a font, the names of its glyphs and kerning, as HarfBuzz gets them. *)
From Coq Require Import Permutation Lia.
From Verif Require Import Base BaseFacts HbFontModel HbFontSpec HbFontProofs HbFontProps TableModel TableSpec TableProofs.
Open Scope Z_scope.

(** Whatever tables HarfBuzz asks for, in whatever order it gives them back, and whatever
    FreeType and the allocator answer: nothing is freed twice, and the buffers in use are those
    of the blobs HarfBuzz has, one each. *)
Theorem C111_owned : forall us, exists bs m, run_uses ([], no_memory) us = Ok (bs, m) /\ Permutation (owned bs) (map fst (mm_live m)) /\ NoDup (owned bs).
Proof. exact t_owned. Qed.
Print Assumptions C111_owned.

(** When HarfBuzz has given everything back, no buffer is left. *)
Theorem C111_no_leak : forall us m, run_uses ([], no_memory) us = Ok ([], m) -> mm_live m = [].
Proof.
  intros us m E. destruct (t_owned us) as (bs & m' & E' & P & _). rewrite E in E'. injection E' as <- <-. apply Permutation_nil in P. apply map_eq_nil in P. exact P.
Qed.
Print Assumptions C111_no_leak.

(** At every moment every blob holds the table it was asked for, byte for byte, or nothing. *)
Theorem C111_contents_partial : forall tables us bs m tag bl, Forall (reads_use tables) us -> run_uses ([], no_memory) us = Ok (bs, m) -> In (tag, bl) bs ->
  exists d, blob_bytes m bl = Ok d /\ (d = [] \/ exists t, tables tag = Some t /\ (Z.of_nat (length t) < 2 ^ 32 -> d = t)).
Proof. exact t_contents. Qed.
Print Assumptions C111_contents_partial.

(** A table that can be read, and fits, is given. *)
Theorem C111_given : forall us bs m tag t, run_uses ([], no_memory) us = Ok (bs, m) -> 0 < Z.of_nat (length t) < 2 ^ 31 ->
  exists bl m', step_use (bs, m) (Ask tag {| an_length := Some (Z.of_nat (length t)); an_memory := true; an_bytes := Some t; an_object := true |}) = Ok ((tag, bl) :: bs, m') /\
    blob_bytes m' bl = Ok t.
Proof.
  intros us bs m tag t E L. assert (W : wrap32 (Z.of_nat (length t)) = Z.of_nat (length t)) by (unfold wrap32; apply Z.mod_small; lia).
  eexists _, _. split.
  - cbn [step_use]. unfold reference_table. cbn [an_length an_memory an_bytes an_object]. unfold blob_create. rewrite W.
    destruct (Z.eqb_spec (Z.of_nat (length t)) 0); [lia|]. destruct (Z.leb_spec (2 ^ 31) (Z.of_nat (length t))); [lia|]. cbn [orb negb obind]. reflexivity.
  - unfold blob_bytes. cbn [bl_buffer bl_length mm_live find is_buffer fst]. unfold is_buffer at 1. cbn [fst]. rewrite Nat.eqb_refl. cbn [snd]. rewrite Nat2Z.id, firstn_all. reflexivity.
Qed.
Print Assumptions C111_given.

(** Two tables, one read error, one empty table; the first table is given back. *)
Definition ex_tables (tag : Z) : option (list Z) := if tag =? 1 then Some [10; 11; 12] else if tag =? 2 then Some [20] else if tag =? 3 then Some [] else None.
Definition ex_uses : list use :=
  [Ask 1 {| an_length := Some 3; an_memory := true; an_bytes := Some [10; 11; 12]; an_object := true |};
   Ask 1 {| an_length := Some 3; an_memory := true; an_bytes := None; an_object := true |};
   Ask 3 {| an_length := Some 0; an_memory := true; an_bytes := Some []; an_object := true |};
   Ask 2 {| an_length := Some 1; an_memory := true; an_bytes := Some [20]; an_object := true |};
   Drop 2].
Example C111_witness : Forall (reads_use ex_tables) ex_uses /\
  exists bs m, run_uses ([], no_memory) ex_uses = Ok (bs, m) /\ map fst bs = [2; 3] /\ owned bs = [3%nat] /\ mm_live m = [(3%nat, [20])] /\
    map (fun p => blob_bytes m (snd p)) bs = [Ok [20]; Ok []].
Proof.
  split.
  - unfold ex_uses. repeat apply Forall_cons; try apply Forall_nil; try exact I; (split; cbn [an_length an_bytes]; intros x H; try discriminate; injection H as <-; [eexists; split; reflexivity|reflexivity] || (split; cbn [an_length an_bytes]; intros x H; [injection H as <-; eexists; split; reflexivity|discriminate])).
  - eexists _, _. split; [reflexivity|]. repeat split.
Qed.

Lemma seven n : exists t, length t = S n /\ firstn 1 t = [7].
Proof. exists (7 :: repeat 0 n). split; [cbn [length]; rewrite repeat_length; reflexivity|reflexivity]. Qed.
(** The length of a table of more than 4 GiB is cut to 32 bits, and so HarfBuzz sees its first
    bytes as the whole. *)
Theorem C111_large_refuted : exists tables us bs m tag bl t d, Forall (reads_use tables) us /\ run_uses ([], no_memory) us = Ok (bs, m) /\ In (tag, bl) bs /\
  tables tag = Some t /\ blob_bytes m bl = Ok d /\ d <> [] /\ d <> t.
Proof.
  destruct (seven (Z.to_nat (2 ^ 32))) as (t & LT & FT). assert (LZ : Z.of_nat (length t) = 2 ^ 32 + 1) by (rewrite LT, Nat2Z.inj_succ, Z2Nat.id; lia). clear LT. rename LZ into LT.
  assert (NT : [7] <> t). { intros E. assert (H : Z.of_nat (length [7]) = Z.of_nat (length t)) by (rewrite E; reflexivity). rewrite LT in H. cbn [length] in H. lia. }
  exists (fun _ => Some t), [Ask 0 {| an_length := Some (2 ^ 32 + 1); an_memory := true; an_bytes := Some t; an_object := true |}].
  exists [(0, {| bl_length := 1; bl_buffer := Some 0%nat |})], {| mm_live := [(0%nat, t)]; mm_next := 1 |}, 0, {| bl_length := 1; bl_buffer := Some 0%nat |}, t, [7].
  split; [|split; [reflexivity|split; [left; reflexivity|split; [reflexivity|split; [|split; [discriminate|exact NT]]]]]].
  - constructor; [|constructor]. split; cbn [an_length an_bytes].
    + intros n H. injection H as <-. exists t. split; [reflexivity|congruence].
    + intros bs H. congruence.
  - unfold blob_bytes. cbn [bl_buffer bl_length mm_live find]. unfold is_buffer. cbn [fst Nat.eqb snd]. change (Z.to_nat 1) with 1%nat. rewrite FT. reflexivity.
Qed.
Print Assumptions C111_large_refuted.

(** A font in memory is one blob of all its bytes. *)
Theorem C111_whole_partial : forall size, 0 < size < 2 ^ 31 -> whole_length size true = size.
Proof.
  intros size L. unfold whole_length, wrap32. rewrite Z.mod_small by lia. destruct (Z.eqb_spec size 0); [lia|]. destruct (Z.leb_spec (2 ^ 31) size); [lia|]. reflexivity.
Qed.
Print Assumptions C111_whole_partial.
(** A font file of 2 GiB looks empty. *)
Theorem C111_whole_refuted : exists size, 0 < size /\ whole_length size true = 0.
Proof. exists (2 ^ 31). split; [lia|]. vm_compute. reflexivity. Qed.
Print Assumptions C111_whole_refuted.

(** Names go there and back: the name of a glyph, which needs room for itself and a terminator,
    is found again, and if no two glyphs have the same name it gives the same glyph.  A name that
    is empty is not given. *)
Theorem C111_names : forall names find zero g s written size, answers_from names find zero -> NoDup names ->
  nth_error names g = Some s -> writes_name s written -> (length s < size)%nat ->
  match glyph_name written size with
  | None => s = []
  | Some bs => s <> [] /\ glyph_from_name find zero bs (-1) = Ok (true, Z.of_nat g) /\
               ((length s <= 127)%nat -> glyph_from_name find zero bs (Z.of_nat (length s)) = Ok (true, Z.of_nat g))
  end.
Proof.
  intros names find zero g s written size A ND N W L. unfold glyph_name. specialize (W size). destruct (written size) as [bs|]; [|lia]. destruct W as [P (rest & E)].
  rewrite firstn_all2 in E by lia. pose proof (nth_error_In _ _ N) as I. pose proof A as A0. destruct A as (_ & _ & _ & _ & A5). pose proof (A5 s I) as Z0.
  destruct (Nat.eqb_spec size 0); [lia|]. cbn [negb andb]. subst bs. destruct s as [|c s'] eqn:ES.
  - reflexivity.
  - cbn [app hd]. destruct (Z.eqb_spec c 0) as [->|NZ]; [exfalso; apply Z0; left; reflexivity|]. split; [discriminate|]. rewrite <- ES in *. rewrite app_comm_cons, <- ES.
    assert (SAME : forall k, 0 <= k -> nth_error names (Z.to_nat k) = Some s -> k = Z.of_nat g).
    { intros k K Nk. assert (Z.to_nat k = g); [|lia]. apply (proj1 (NoDup_nth_error names) ND); [apply nth_error_Some; congruence|congruence]. }
    split.
    + destruct (C76_terminated_partial names find zero s rest (-1) A0 Z0 ltac:(lia)) as (b & k & R & R1 & R2). rewrite R.
      assert (b = true) by (apply R1; exact I). subst b. destruct (R2 eq_refl) as [K Nk]. rewrite (SAME k K Nk). reflexivity.
    + intros L127. destruct (C76_known_partial names find zero s (0 :: rest) A0 I L127) as (k & R & K & Nk). rewrite R, (SAME k K Nk). reflexivity.
Qed.
Print Assumptions C111_names.
Definition ex_written (s : list Z) (size : nat) : option (list Z) := if Nat.eqb size 0 then None else Some (firstn (size - 1) s ++ 0 :: repeat 99 (size - 1 - length s)).
Example C111_names_case : answers_from ex_names ex_find (hd_error ex_names) /\ NoDup ex_names /\ writes_name [65] (ex_written [65]) /\
  glyph_name (ex_written [65]) 4 = Some [65; 0; 99; 99] /\ glyph_from_name ex_find (hd_error ex_names) [65; 0; 99; 99] (-1) = Ok (true, 1).
Proof.
  split; [exact ex_answers|]. split; [repeat constructor; cbn; intuition discriminate|]. split; [|split; reflexivity].
  intros size. unfold ex_written. destruct (Nat.eqb_spec size 0) as [E|E]; [exact E|]. split; [lia|]. eexists. reflexivity.
Qed.
(** In a buffer that is too small the name is cut without notice, and two glyphs get the same. *)
Theorem C111_cut_refuted : exists s t written written' size bs, s <> t /\ writes_name s written /\ writes_name t written' /\ (1 < size)%nat /\
  glyph_name written size = Some bs /\ glyph_name written' size = Some bs.
Proof.
  exists [65; 66; 67], [65; 66; 68], (ex_written [65; 66; 67]), (ex_written [65; 66; 68]), 3%nat, [65; 66; 0]. split; [discriminate|].
  assert (W : forall s, writes_name s (ex_written s)).
  { intros s size. unfold ex_written. destruct (Nat.eqb_spec size 0) as [E|E]; [exact E|]. split; [lia|]. eexists. reflexivity. }
  split; [apply W|]. split; [apply W|]. split; [lia|]. split; reflexivity.
Qed.
Print Assumptions C111_cut_refuted.

(** Kerning is FreeType's, not fitted to pixels (HarfBuzz's pixel size of the font is never set
    and 0), and 0 when FreeType has none. *)
Theorem C111_kerning : forall ft, (forall x, ft false = Some x -> - 2 ^ 31 <= x < 2 ^ 31) ->
  h_kerning 0 ft = match ft false with Some x => x | None => 0 end.
Proof.
  intros ft B. unfold h_kerning. change (negb (0 =? 0)) with false. destruct (ft false) as [x|]; [|reflexivity]. specialize (B x eq_refl). unfold to_int32, wrap32. cbv zeta.
  destruct (Z.ltb_spec (x mod 2 ^ 32) (2 ^ 31)) as [C|C]; destruct (Z.lt_ge_cases x 0) as [S|S].
  - rewrite <- (Z.mod_unique x (2 ^ 32) (-1) (x + 2 ^ 32)) in C by lia. lia.
  - apply Z.mod_small. lia.
  - rewrite <- (Z.mod_unique x (2 ^ 32) (-1) (x + 2 ^ 32)) by lia. lia.
  - rewrite Z.mod_small in C by lia. lia.
Qed.
Print Assumptions C111_kerning.
Example C111_kerning_case : h_kerning 0 (fun fitted => Some (if fitted then -64 else -37)) = -37.
Proof. reflexivity. Qed.
