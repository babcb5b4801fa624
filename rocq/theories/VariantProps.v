(** C119: sequences of characters and the fonts they are shaped with. *)
From Verif Require Import Base BaseFacts BuilderModel BuilderSpec FontModel FontSpec FontProofs FontProps VariantModel VariantSpec.
Open Scope Z_scope.

(** ** C119 *)

(** Full statement: a character and the marks, joiners or selectors after it are shaped
    together whenever one font of the family and its fallbacks can show them together.
    Proved: whenever the font chosen for the character has all of them.  Missing: fonts that
    are not asked since another one has the first character ([C119_mark_refuted]), and
    selectors, which have no glyph of their own ([C119_selector_refuted]). *)
Theorem C119_together_partial : forall limit map_file loads covers combining lower ds r es d fam g base w s size text off lim script sb sp,
  reached limit map_file ds r es -> documented ds es -> succeeded ds es d -> 0 <= w < 9 -> 0 <= s < 2 -> 0 <= script < Z.of_nat limit -> off <= lim ->
  (forall a b, a < b -> decoded (text a b) (b - a)) ->
  get_fam r (get_family r (fy_name d)) = Ok fam -> serves_script r fam script g -> slot (fa_lookup g) w s = Ok base -> loads (fh_handle base) = true ->
  exists pieces, sub_fonts loads covers combining lower (S (Z.to_nat (lim - off))) r (get_family r (fy_name d)) w s size text off lim script false sb sp = Ok pieces /\
  tiled off pieces lim /\
  forall s e font a b, In (s, e, font) pieces -> s <= a < e -> a <= b < lim ->
    (forall i c, In (i, c) (text s lim) -> a < s + i <= b -> covers (fh_handle (sf_face font)) c = true) -> together pieces a b.
Proof.
  intros limit map_file loads covers combining lower ds r es d fam g base w s size text off lim script sb sp E D S Hw Hs Sc LE T G SV SL LB.
  destruct (C40_tiles limit map_file loads covers combining lower ds r es d w s size text off lim script false sb sp E D S Hw Hs Sc LE T) as (pieces & EQ & TI & F).
  exists pieces. split; [exact EQ|]. split; [exact TI|]. intros st e font a b I A B C. exists st, e, font. split; [exact I|]. split; [exact A|]. split; [lia|].
  rewrite Forall_forall in F. specialize (F _ I). cbv beta iota in F.
  destruct (C40_choice limit map_file loads covers combining lower ds r es d fam g base w s size (text st lim) st lim script sb sp font e E D S Hw Hs Sc F G SV SL LB)
    as [(pre & i & c & post & CE & _ & _ & [(_ & ->)|(l & j & z & m & PE & _ & NC & ->)])|(_ & _ & ->)]; [lia| |lia].
  destruct (Z.lt_ge_cases b (st + j)) as [|GE]; [assumption|exfalso].
  rewrite (C j z) in NC; [discriminate| |lia]. rewrite CE, PE. apply in_or_app. right. right. apply in_or_app. right. left. reflexivity.
Qed.
Print Assumptions C119_together_partial.

(** What HarfBuzz is told of a variation sequence is what FreeType finds. *)
Theorem C119_variant : forall variant u s g, variation_glyph variant u s = Some g <-> variant u s = g /\ g <> 0.
Proof.
  intros variant u s g. unfold variation_glyph. destruct (Z.eqb_spec (variant u s) 0) as [Z0|N]; split.
  - discriminate.
  - intros (<- & N). congruence.
  - intros H. injection H as <-. auto.
  - intros (<- & _). reflexivity.
Qed.
Print Assumptions C119_variant.

(** The characters [l], with their places, between two places. *)
Definition part (l : list (Z * Z)) (a b : Z) : list (Z * Z) := map (fun p => (fst p - a, snd p)) (filter (fun p => (a <=? fst p) && (fst p <? b)) l).
Definition first_family := fam 1 [2; 3] [[2]] [[3]] [face 10 3 0; face 11 6 0; face 12 6 0; face 13 3 1].
Definition pieces_of covers l lim : outcome (list (Z * Z * ssfont)) :=
  let r := fst (result history) in
  sub_fonts (fun _ => true) covers (fun _ => false) (fun _ => false) 10 r (get_family r (fy_name first_family)) 3 0 12 (part l) 0 lim 2 false false false.

(** An a with an accent (U+0301): the family's face 0 has the a and not the accent, the
    fallback's face 6 has both.  They are shaped apart, the accent by the other font. *)
Definition only_a (h c : Z) : bool := (c =? 97) || (h =? 6) && (c =? 0x301).
Theorem C119_mark_refuted : exists pieces, pieces_of only_a [(0, 97); (1, 0x301)] 3 = Ok pieces /\ ~ together pieces 0 1 /\
  map (fun p => fh_handle (sf_face (snd p))) pieces = [0; 6] /\ only_a 6 97 = true /\ only_a 6 0x301 = true /\
  exists f, In f (faces_of (fst (result history)) [2] 3 0) /\ fh_handle f = 6 /\
  match get_fam (fst (result history)) (get_family (fst (result history)) (fy_name first_family)) with Ok g => fa_fallback g | _ => [] end = [2].
Proof.
  eexists. split; [vm_compute; reflexivity|]. split.
  - intros (s & e & f & [H|[H|[]]] & A & B); inversion H; subst; lia.
  - split; [reflexivity|]. split; [reflexivity|]. split; [reflexivity|]. eexists. split; [vm_compute; left; reflexivity|]. split; vm_compute; reflexivity.
Qed.
Print Assumptions C119_mark_refuted.

(** A heart (U+2764) with the selector for text (U+FE0E): no font has a glyph for the selector,
    and the family's own face 0 has a glyph for the two together.  They are shaped apart, so
    that glyph does not appear. *)
Definition only_heart (_ c : Z) : bool := c =? 0x2764.
Definition heart_variant (u s : Z) : Z := if (u =? 0x2764) && (s =? 0xFE0E) then 77 else 0.
Theorem C119_selector_refuted : exists pieces, pieces_of only_heart [(0, 0x2764); (3, 0xFE0E)] 6 = Ok pieces /\ ~ together pieces 0 3 /\
  map (fun p => fh_handle (sf_face (snd p))) pieces = [0; 0] /\ variation_glyph heart_variant 0x2764 0xFE0E = Some 77.
Proof.
  eexists. split; [vm_compute; reflexivity|]. split.
  - intros (s & e & f & [H|[H|[]]] & A & B); inversion H; subst; lia.
  - split; vm_compute; reflexivity.
Qed.
Print Assumptions C119_selector_refuted.

(** A font that has the selector keeps the two together. *)
Example C119_used : exists pieces, pieces_of (fun h c => (h =? 0) && ((c =? 0x2764) || (c =? 0xFE0E))) [(0, 0x2764); (3, 0xFE0E)] 6 = Ok pieces /\ together pieces 0 3 /\
  reached 10 mf history (fst (result history)) (snd (result history)) /\ documented history (snd (result history)) /\ succeeded history (snd (result history)) first_family.
Proof.
  eexists. split; [vm_compute; reflexivity|]. split; [do 3 eexists; split; [left; reflexivity|lia]|]. split; [apply C38_example|]. split; [apply C38_example|]. exists 0%nat. split; reflexivity.
Qed.
