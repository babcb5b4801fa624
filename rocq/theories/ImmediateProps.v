(** C104: texts drawn at once. *)
From Coq Require Import ZifyBool ZifyNat Lqa.
From Verif Require Import Base BaseFacts ValueRunsModel ValueRunsSpec FloatModel ColorModel FormattingModel LayoutModel LayoutSpec LayoutProofs LayoutProps.
From Verif Require Import BuilderModel BuilderSpec BuilderTileProofs BuilderDocProofs BuilderLineProofs BuilderDemo BuilderProps.
From Verif Require Import DrawModel DrawSpec DrawProps ClipModel ScreenModel ScreenSpec ScreenProps ImmediateModel ImmediateSpec.
Open Scope Z_scope.

Lemma plain_eq_trans a b c : plain_eq a b -> plain_eq b c -> plain_eq a c.
Proof. destruct a as [[[? ?] ?] ?], b as [[[? ?] ?] ?], c as [[[? ?] ?] ?]. cbn. intros (-> & -> & -> & ->) (-> & -> & -> & ->). repeat split; reflexivity. Qed.
Lemma plain_all_trans a : forall b c, Forall2 plain_eq a b -> Forall2 plain_eq b c -> Forall2 plain_eq a c.
Proof.
  induction a as [|x a IH]; intros b c H K; inversion H; subst; inversion K; subst; constructor; [eapply plain_eq_trans; eassumption|eauto].
Qed.
Lemma line_placed w xa i y y' s : (y == y')%Q -> forall rs k, Forall2 plain_eq (flat_map plain_run_calls (place_runs i k (align_x w xa s) (y + sl_ascent s)%Q rs))
  (flat_map (fun r => map (fun g => (sr_font r, sg_id g, (align_x w xa s + sg_x g)%Q, (y' + sl_ascent s + sg_y g)%Q)) (sr_glyphs r)) rs).
Proof.
  intros Y. induction rs as [|r rs IH]; intros k; cbn [place_runs flat_map]; [constructor|]. apply Forall2_app; [|apply IH].
  unfold plain_run_calls. cbn [pl_of pl_x pl_y]. induction (sr_glyphs r) as [|g gs IG]; cbn [map]; constructor; [|exact IG].
  cbn. repeat split; try reflexivity. rewrite Y. reflexivity.
Qed.
Lemma block_placed w xa d : forall i k y y', (y == y')%Q ->
  Forall2 plain_eq (flat_map plain_run_calls (places w xa i k y d)) (block_calls w xa y' d).
Proof.
  induction d as [|s d IH]; intros i k y y' Y; cbn [places block_calls]; [constructor|]. rewrite flat_map_app. apply Forall2_app.
  - apply line_placed. exact Y.
  - apply IH. rewrite Y. reflexivity.
Qed.
Lemma block_top_ok ya h a b : (a == b)%Q -> (aligned_start_y ya h a == block_top ya h b)%Q.
Proof. intros E. unfold aligned_start_y, block_top. destruct ya; cbn [yalign_value]; try rewrite E; field. Qed.

Lemma plain_refl l : Forall2 plain_eq l l.
Proof. induction l as [|[[[f g] x] y] l IH]; constructor; [|exact IH]. cbn. repeat split; reflexivity. Qed.
Lemma flat_same {A} (f g : A -> list plain_call) l : (forall a, Forall2 plain_eq (f a) (g a)) -> Forall2 plain_eq (flat_map f l) (flat_map g l).
Proof. intros H. induction l as [|a l IH]; cbn; [constructor|apply Forall2_app; auto]. Qed.
Lemma map_same {A} (f g : A -> plain_call) l : (forall a, plain_eq (f a) (g a)) -> Forall2 plain_eq (map f l) (map g l).
Proof. intros H. induction l as [|a l IH]; cbn; constructor; auto. Qed.
Lemma heights_nonneg d : Forall (fun s => 0 <= sl_height s)%Q d -> (0 <= heights d)%Q.
Proof. induction 1; cbn [heights]; [lra|lra]. Qed.
Lemma firstn_heights s d : forall k, nth_error d k = Some s -> Forall (fun s => 0 <= sl_height s)%Q d ->
  (0 <= heights (firstn k d) /\ heights (firstn k d) + sl_height s <= heights d /\ 0 <= sl_height s)%Q.
Proof.
  induction d as [|a d IH]; intros [|k] N F; try discriminate; cbn [nth_error] in N; inversion F; subst; cbn [firstn heights].
  - injection N as ->. pose proof (heights_nonneg _ H2). lra.
  - destruct (IH k N H2) as (A & B & C). lra.
Qed.

Lemma half_of a : (a / 2 == a * (1 # 2))%Q.
Proof. field. Qed.
Lemma line_in_block w xa s T d : forall k, nth_error d k = Some s -> exists before after,
  Forall2 plain_eq (block_calls w xa T d) (before ++ line_calls w xa (T + heights (firstn k d))%Q s ++ after).
Proof.
  revert T. induction d as [|a d IH]; intros T [|j] H; try discriminate; cbn [nth_error] in H.
  - injection H as ->. cbn [firstn block_calls heights]. exists []. cbn [app]. eexists. apply Forall2_app; [|apply plain_refl].
    unfold line_calls. apply flat_same. intros r. apply map_same. intros g. cbn. repeat split; try reflexivity. ring.
  - destruct (IH (T + sl_height a)%Q j H) as (before & after & F). exists (line_calls w xa T a ++ before), after. cbn [firstn block_calls heights].
    rewrite <- app_assoc. apply Forall2_app; [apply plain_refl|].
    eapply plain_all_trans; [exact F|]. apply Forall2_app; [apply plain_refl|]. apply Forall2_app; [|apply plain_refl].
    unfold line_calls. apply flat_same. intros r. apply map_same. intros g. cbn. repeat split; try reflexivity. ring.
Qed.

(** Every glyph of the text, laid out in lines no wider than the area, is drawn once: on
    its line, aligned in the width, with the block of lines aligned in the height, at the
    given place and in the given colour.  Full statement: for every text.  Proved when
    enough can be read after the table of fonts and after the text, and the width of no
    tab is zero. *)
Theorem C104_drawn_partial : forall vars gi plain e text opp fonts font pad count c x y w h xa ya area,
  can_build e text opp (font_source fonts font count pad) count -> ~ bad_tab text 512 false -> to_fixed w = Ok area ->
  exists doc calls pieces,
    draw_immediate vars gi plain e fonts c text count x y w h xa ya = Ok (List.concat pieces) /\
    text_lines e text false opp (font_source fonts font count pad) 512 false area count 0 doc /\
    Forall2 plain_eq calls (block_calls w xa (block_top ya h (heights doc)) doc) /\
    Forall2 (plain_drawn vars gi x y c) calls pieces.
Proof.
  intros vars gi plain e text opp fonts font pad count c x y w h xa ya area CB NT A.
  destruct (C54_defined_partial e text false opp _ 512 false area count (aligned_start_y ya h) lo_empty CB NT) as (doc & hh & l & E & ST & HH & TL).
  assert (OKD : doc_ok doc).
  { apply (@text_doc_ok e text false opp (font_source fonts font count pad) 512 false area count (proj1 CB) 0 doc TL). constructor. }
  destruct (C91_plain vars gi plain doc (aligned_start_y ya h hh) w xa l x y c OKD ST) as (calls & pieces & D & U & F).
  destruct (C51_plain doc (aligned_start_y ya h hh) w xa l OKD ST) as (calls' & D' & P). rewrite D in D'. injection D' as <-.
  exists doc, calls, pieces. split; [|split; [exact TL|split; [|exact F]]].
  - unfold draw_immediate. rewrite A. cbn [obind]. change (to_fixed 8) with (Ok 512). cbn [obind].
    unfold run_build in E. cbn [font_source so_view so_small so_sub so_super st_view] in E. rewrite E. cbn [obind]. exact U.
  - eapply plain_all_trans; [exact P|]. apply block_placed. apply block_top_ok. exact HH.
Qed.
Print Assumptions C104_drawn_partial.

(** The lines are below each other from the top of the block.  Where the block is no higher
    than the area its lines are inside it, and a line that is no wider is inside it too;
    centred blocks and lines leave equal space on both sides. *)
Theorem C104_inside_partial : forall vars gi plain e text opp fonts font pad count c x y w h xa ya area,
  can_build e text opp (font_source fonts font count pad) count -> ~ bad_tab text 512 false -> to_fixed w = Ok area ->
  exists doc calls pieces,
    draw_immediate vars gi plain e fonts c text count x y w h xa ya = Ok (List.concat pieces) /\
    Forall2 (plain_drawn vars gi x y c) calls pieces /\
    forall k s, nth_error doc k = Some s ->
    exists top before after,
      Forall2 plain_eq calls (before ++ line_calls w xa top s ++ after) /\ (top == block_top ya h (heights doc) + heights (firstn k doc))%Q /\
      (Forall (fun s => 0 <= sl_height s)%Q doc -> (heights doc <= h)%Q -> (0 <= top)%Q /\ (top + sl_height s <= h)%Q) /\
      ((line_width s <= w)%Q -> (0 <= align_x w xa s)%Q /\ (align_x w xa s + line_width s <= w)%Q) /\
      (ya = YCenter -> block_top ya h (heights doc) == h - (block_top ya h (heights doc) + heights doc))%Q /\
      (xa = XCenter -> align_x w xa s == w - (align_x w xa s + line_width s))%Q.
Proof.
  intros vars gi plain e text opp fonts font pad count c x y w h xa ya area CB NT A.
  destruct (C104_drawn_partial vars gi plain e text opp fonts font pad count c x y w h xa ya area CB NT A) as (doc & calls & pieces & E & _ & P & F).
  exists doc, calls, pieces. split; [exact E|]. split; [exact F|]. intros k s N.
  destruct (line_in_block w xa s (block_top ya h (heights doc)) doc k N) as (before & after & G).
  exists (block_top ya h (heights doc) + heights (firstn k doc))%Q, before, after.
  split; [eapply plain_all_trans; [exact P|exact G]|]. split; [reflexivity|]. split; [|split; [|split]].
  - intros PO LE. destruct (firstn_heights _ _ _ N PO) as (H1 & H2 & H3). unfold block_top. destruct ya; rewrite ?half_of; lra.
  - intros LE. unfold align_x. destruct xa; rewrite ?half_of; lra.
  - intros ->. unfold block_top. field.
  - intros ->. unfold align_x. field.
Qed.
Print Assumptions C104_inside_partial.

(** An empty text draws nothing, whatever can be read after it. *)
Theorem C104_empty : forall vars gi plain e text fonts c x y w h xa ya area, to_fixed w = Ok area ->
  draw_immediate vars gi plain e fonts c text 0 x y w h xa ya = Ok [].
Proof. intros vars gi plain e text fonts c x y w h xa ya area A. unfold draw_immediate. rewrite A. reflexivity. Qed.
Print Assumptions C104_empty.

(** The table of fonts that [draw_text_immediate] makes ends with its only run, and the
    run after it is always read: no text without a separator at its end is drawn in a
    defined way. *)
Theorem C104_table_end_refuted : forall vars gi plain e text font count c x y w h xa ya,
  bounds_ok e count -> 0 < count -> ~ final_separator e count ->
  forall ds, draw_immediate vars gi plain e (one_font font count) c text count x y w h xa ya <> Ok ds.
Proof.
  intros vars gi plain e text font count c x y w h xa ya B C N ds. unfold draw_immediate.
  destruct (to_fixed w) as [area| |]; cbn [obind]; [|discriminate|discriminate]. change (to_fixed 8) with (Ok 512). cbn [obind].
  destruct (build_text _ _ _ _ _ _ _ _ _ _ _ _ _) as [l| |] eqn:E; cbn [obind]; [|discriminate|discriminate]. exfalso.
  refine (C54_table_end_refuted e text false (one_font font count) [(count, font)] None None None 512 false area count _ _ _ _ B C N l E).
  - split; [reflexivity|]. split; intros i; rewrite app_nil_r; reflexivity.
  - repeat constructor. cbn. lia.
Qed.
Print Assumptions C104_table_end_refuted.

(** "File" and "ab cd", ten pixels each letter. *)
Definition name4 : list Z := [70; 105; 108; 101; 0].
Definition name5 : list Z := [97; 98; 32; 99; 100; 0].
Definition small_engine (text : list Z) (count : Z) (opps : list Z) : engine := plain_engine text count opps (fun _ => 640) (fun _ => 0).
Definition shown_at (o : outcome (list drawn)) : outcome (list (Q * Q)) := omap (map (fun d => (Qred (r_x (dr_rect d)), Qred (r_y (dr_rect d))))) o.
Example C104_used : can_build (small_engine name4 4 []) name4 (fun _ o => In o []) (font_source (padded_view [(4, 1)] [(1000, 0)]) 1 4 [(1000, 0)]) 4 /\
  ~ bad_tab name4 512 false /\ to_fixed 60 = Ok 3840 /\
  shown_at (draw_immediate no_aids letter 7 (small_engine name4 4 []) (padded_view [(4, 1)] [(1000, 0)]) white name4 4 100 0 60 19 XCenter YCenter) = Ok [(110%Q, (7 # 2)%Q); (120%Q, (7 # 2)%Q); (130%Q, (7 # 2)%Q); (140%Q, (7 # 2)%Q)].
Proof.
  split; [apply (plain_can_build name4 4 [] _ _ 1); [cbn; lia|eexists; split; [reflexivity|lia]|lia|constructor]|].
  split; [apply C54_tabs; left; intros HT; cbn in HT; lia|]. split; [reflexivity|]. vm_compute. reflexivity.
Qed.

Lemma name5_ok : can_build (small_engine name5 5 [3]) name5 (fun _ o => In o [3]) (font_source (padded_view [(5, 1)] [(1000, 0)]) 1 5 [(1000, 0)]) 5.
Proof. apply (plain_can_build name5 5 [3] _ _ 1); [cbn; lia|eexists; split; [reflexivity|lia]|lia|repeat constructor; lia]. Qed.
(** A name that is wider than its area is broken into lines, here two, which are higher than
    a button: part of the text is drawn above the area. *)
Theorem C104_spill_refuted : exists e text opp fonts font pad count w h ds d,
  can_build e text opp (font_source fonts font count pad) count /\ ~ bad_tab text 512 false /\ ~ In 10 text /\ (0 < w)%Q /\ (h == 19)%Q /\
  draw_immediate no_aids letter 7 e fonts white text count 100 0 w h XCenter YCenter = Ok ds /\ In d ds /\ (r_y (dr_rect d) < 0)%Q /\ (0 < r_h (dr_rect d))%Q.
Proof.
  exists (small_engine name5 5 [3]), name5, (fun _ o => In o [3]), (padded_view [(5, 1)] [(1000, 0)]), 1, [(1000, 0)], 5, 40%Q, 19%Q. do 2 eexists.
  split; [exact name5_ok|]. split; [apply C54_tabs; left; intros HT; cbn in HT; lia|]. split; [cbn; lia|]. split; [reflexivity|]. split; [reflexivity|].
  split; [vm_compute; reflexivity|]. split; [left; reflexivity|]. split; reflexivity.
Qed.
Print Assumptions C104_spill_refuted.
(** The space at which such a line is broken counts for its width: the letters "ab" of the
    centred line "ab " are ten pixels nearer to the left edge than to the right. *)
Theorem C104_space_refuted : exists e text opp fonts font pad count w h ds a b,
  can_build e text opp (font_source fonts font count pad) count /\ ~ bad_tab text 512 false /\
  draw_immediate no_aids letter 7 e fonts white text count 0 0 w h XCenter YCenter = Ok ds /\
  nth_error text 0 = Some 97 /\ nth_error text 1 = Some 98 /\ nth_error text 2 = Some 32 /\ nth_error ds 0 = Some a /\ nth_error ds 1 = Some b /\
  (r_y (dr_rect a) == r_y (dr_rect b))%Q /\ (exists c, nth_error ds 3 = Some c /\ r_y (dr_rect b) < r_y (dr_rect c))%Q /\
  (r_x (dr_rect a) - 0 == 5)%Q /\ (w - (r_x (dr_rect b) + r_w (dr_rect b)) == 15)%Q.
Proof.
  exists (small_engine name5 5 [3]), name5, (fun _ o => In o [3]), (padded_view [(5, 1)] [(1000, 0)]), 1, [(1000, 0)], 5, 40%Q, 19%Q. do 3 eexists.
  split; [exact name5_ok|]. split; [apply C54_tabs; left; intros HT; cbn in HT; lia|].
  split; [vm_compute; reflexivity|]. do 3 (split; [reflexivity|]). split; [reflexivity|]. split; [reflexivity|].
  split; [reflexivity|]. split; [eexists; split; reflexivity|]. split; reflexivity.
Qed.
Print Assumptions C104_space_refuted.
(** It is so for "File". *)
Example C104_table_end_used : bounds_ok (small_engine name4 4 []) 4 /\ 0 < 4 /\ ~ final_separator (small_engine name4 4 []) 4 /\
  draw_immediate no_aids letter 7 (small_engine name4 4 []) (one_font 1 4) white name4 4 100 0 60 19 XCenter YCenter = UB.
Proof.
  split; [exact (proj1 (proj2 (proj2 (plain_ok name4 4 [] _ _ ltac:(cbn; lia) ltac:(constructor)))))|]. split; [lia|]. split; [|vm_compute; reflexivity].
  intros (off & P & L & E & S). cbn in S. lia.
Qed.
