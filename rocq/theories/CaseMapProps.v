(** C69: small capitals keep the character indices. *)
From Verif Require Import Base BaseFacts BuilderModel LayoutSpec BuilderSpec CaseMapModel CaseMapSpec CaseMapProofs.
Open Scope Z_scope.

(** Up to the first character whose upper-case form takes another number of bytes, every byte
    of the upper-case text is led back to the character it came from.  What is missing for the
    full statement: the characters from there on. *)
Theorem C69_characters_partial : forall p1 p2 es before after c,
  Forall (fun p => character (pc_source p)) p1 -> Forall same_size p1 -> edits_of (p1 ++ p2) es ->
  0 <= c < size (upper_text p1) -> size (upper_text p1) < 2 ^ 31 ->
  exists o, origin (p1 ++ p2) c = Some o /\ remap_char_index (before ++ source (p1 ++ p2) ++ after) (size before) es c = Ok o.
Proof. exact remap_kept. Qed.
Print Assumptions C69_characters_partial.

(** If no character of the run changes its number of bytes, the run is shaped as the builder
    expects it of a shaper ([shaper_ok]): each glyph at the start of the character it comes
    from, inside the run, in order. *)
Theorem C69_run_partial : forall ps es upper shape before after (rtl : bool),
  Forall (fun p => character (pc_source p)) ps -> Forall same_size ps -> edits_of ps es -> size (source ps) < 2 ^ 31 ->
  upper (source ps) = (upper_text ps, es) ->
  Forall (fun g => 0 <= hb_cluster g < size (upper_text ps)) (shape (upper_text ps)) ->
  nondecreasing (map hb_cluster (if rtl then rev (shape (upper_text ps)) else shape (upper_text ps))) ->
  exists hs, shape_small_caps upper shape (before ++ source ps ++ after) (size before) (size (source ps)) = Ok hs /\
    Forall2 (moved ps) (shape (upper_text ps)) hs /\
    Forall (fun h => 0 <= hb_cluster h < size (source ps)) hs /\
    nondecreasing (map hb_cluster (if rtl then rev hs else hs)).
Proof.
  intros ps es upper shape before after rtl CH S E B U R N.
  destruct (remap_all ps es before after CH S E B _ R) as [hs [H1 H2]].
  assert (P : Forall (fun g => 0 <= hb_cluster g) (shape (upper_text ps))).
  { eapply Forall_impl; [|exact R]. cbn. lia. }
  exists hs. split; [|split; [exact H2|split]].
  - unfold shape_small_caps. unfold size. rewrite !Nat2Z.id, skipn_app, skipn_all, Nat.sub_diag. cbn [skipn app].
    rewrite firstn_app, firstn_all, Nat.sub_diag. cbn [firstn]. rewrite app_nil_r, U. exact H1.
  - eapply moved_range; eassumption.
  - destruct rtl; [|eapply moved_mono; eassumption].
    eapply moved_mono; [exact CH|apply Forall2_rev'; exact H2| |exact N]. apply Forall_rev. exact P.
Qed.
Print Assumptions C69_run_partial.

(** "ßa": sharp s becomes "SS". *)
Definition sharp_s : list piece :=
  [ {| pc_source := [195; 159]; pc_upper := [83; 83] |}; {| pc_source := [97]; pc_upper := [65] |} ].
Example C69_example :
  Forall (fun p => character (pc_source p)) sharp_s /\ Forall same_size sharp_s /\
  edits_of sharp_s [ {| ed_old := 2; ed_new := 2 |}; {| ed_old := 1; ed_new := 1 |} ] /\
  origin sharp_s 1 = Some 0 /\ origin sharp_s 2 = Some 2 /\
  remap_char_index [195; 159; 97] 0 [ {| ed_old := 2; ed_new := 2 |}; {| ed_old := 1; ed_new := 1 |} ] 1 = Ok 0 /\
  remap_char_index [195; 159; 97] 0 [ {| ed_old := 2; ed_new := 2 |}; {| ed_old := 1; ed_new := 1 |} ] 2 = Ok 2.
Proof.
  split; [|split; [|split; [|repeat split; reflexivity]]].
  - repeat constructor; [exists 195, [159]|exists 97, []]; (split; [reflexivity|]; split; [unfold continues; lia|repeat constructor; unfold continues; lia]).
  - repeat constructor.
  - apply (edits_changed {| pc_source := [195; 159]; pc_upper := [83; 83] |}).
    apply (edits_changed {| pc_source := [97]; pc_upper := [65] |}). constructor.
Qed.

(** Dotless i loses a byte: the "A" that follows it is taken for a part of it. *)
Theorem C69_shorter_refuted : exists ps es c o,
  Forall (fun p => character (pc_source p)) ps /\ edits_of ps es /\ 0 <= c < size (upper_text ps) /\
  origin ps c = Some 2 /\ remap_char_index (source ps) 0 es c = Ok o /\ o = 0.
Proof.
  exists [ {| pc_source := [196; 177]; pc_upper := [73] |}; {| pc_source := [97]; pc_upper := [65] |} ],
    [ {| ed_old := 2; ed_new := 1 |}; {| ed_old := 1; ed_new := 1 |} ], 1, 0.
  split; [|split; [|split; [|repeat split; reflexivity]]].
  - repeat constructor; [exists 196, [177]|exists 97, []]; (split; [reflexivity|]; split; [unfold continues; lia|repeat constructor; unfold continues; lia]).
  - apply (edits_changed {| pc_source := [196; 177]; pc_upper := [73] |}).
    apply (edits_changed {| pc_source := [97]; pc_upper := [65] |}). constructor.
  - unfold size; cbn; lia.
Qed.
Print Assumptions C69_shorter_refuted.

(** U+0149 becomes an apostrophe and "N", one byte more: the "N" is given an index behind the
    run, whatever follows. *)
Theorem C69_longer_refuted : exists ps es c,
  Forall (fun p => character (pc_source p)) ps /\ edits_of ps es /\ 0 <= c < size (upper_text ps) /\ origin ps c = Some 0 /\
  forall before after, remap_char_index (before ++ source ps ++ after) (size before) es c = Ok (size (source ps)).
Proof.
  exists [ {| pc_source := [197; 137]; pc_upper := [202; 188; 78] |} ], [ {| ed_old := 2; ed_new := 3 |} ], 2.
  split; [|split; [|split; [|split; [reflexivity|reflexivity]]]].
  - repeat constructor. exists 197, [137]; (split; [reflexivity|]; split; [unfold continues; lia|repeat constructor; unfold continues; lia]).
  - apply (edits_changed {| pc_source := [197; 137]; pc_upper := [202; 188; 78] |}). constructor.
  - unfold size; cbn; lia.
Qed.
Print Assumptions C69_longer_refuted.

(** U+0390 becomes three characters.  A glyph for the second of them makes the code read four
    gigabytes behind the text when another letter follows. *)
Theorem C69_undefined_refuted : exists ps es c,
  Forall (fun p => character (pc_source p)) ps /\ edits_of ps es /\ 0 <= c < size (upper_text ps) /\ origin ps c = Some 0 /\
  forall before after, size (before ++ source ps ++ after) < 2 ^ 31 ->
  remap_char_index (before ++ source ps ++ after) (size before) es c = UB.
Proof.
  set (p := {| pc_source := [206; 144]; pc_upper := [206; 153; 204; 136; 204; 129] |}).
  set (q := {| pc_source := [206; 177]; pc_upper := [206; 145] |}).
  exists [p; q], [ {| ed_old := 2; ed_new := 6 |}; {| ed_old := 2; ed_new := 2 |} ], 2.
  split; [|split; [|split; [|split; [reflexivity|]]]].
  - repeat constructor; [exists 206, [144]|exists 206, [177]]; (split; [reflexivity|]; split; [unfold continues; lia|repeat constructor; unfold continues; lia]).
  - apply (edits_changed p). apply (edits_changed q). constructor.
  - unfold size; cbn; lia.
  - intros before after B. unfold remap_char_index.
    change (find_source_index _ 2) with (Some (2, 6)). cbv iota beta.
    replace (wrap32 (2 + wrap32 (2 - 6))) with 4294967294 by reflexivity.
    apply back_up_out. rewrite Z2Nat.id by lia. unfold size in *. lia.
Qed.
Print Assumptions C69_undefined_refuted.
