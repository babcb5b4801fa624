(** A small text engine that keeps the contracts, for examples and refutations: one
    glyph per byte, scripts and advances by byte, given paragraphs, opportunities and
    bidi runs. *)
From Coq Require Import Permutation ZifyBool ZifyNat.
From Verif Require Import Base ValueRunsModel ValueRunsSpec ScriptRunModel ScriptRunSpec LayoutModel LayoutSpec BuilderModel BuilderSpec.
Open Scope Z_scope.

Definition demo_font (base : Z) (sc sb sp : bool) : ssfont :=
  {| sf_face := {| fh_handle := base; fh_weight := 0; fh_style := 0 |}; sf_size := 16; sf_weight := 400; sf_style := 0;
     sf_sub := sb; sf_super := sp; sf_small := sc; sf_syn_sub := false; sf_syn_super := false; sf_syn_small := false |}.
Definition demo_code (f : ssfont) : Z :=
  100 * fh_handle (sf_face f) + (if sf_small f then 4 else 0) + (if sf_sub f then 2 else 0) + (if sf_super f then 1 else 0).
Definition demo_info : font_info := {| fo_ascent := 12; fo_descent := -4; fo_space_glyph := 3; fo_space_advance := 640 |}.

Section Demo.
Variables (text : list Z) (bound : Z -> Z * Z) (opps : Z -> list Z) (runs : Z -> Z -> Z -> list (Z * Z * Z)) (levels : Z -> list Z) (script : Z -> Z) (adv yadv : Z -> Z).

Definition byte (x : Z) : Z := nth (Z.to_nat x) text 0.
(** The glyph of a byte is the script in which it was shaped and the byte. *)
Definition demo_glyph (scr a i : Z) : hb_glyph :=
  {| hb_id := 1000 * scr + byte (a + i); hb_cluster := i; hb_xadv := adv (byte (a + i)); hb_yadv := yadv (byte (a + i)); hb_xoff := 0; hb_yoff := 0 |}.
Definition demo_shape (f : ssfont) (scr : Z) (rtl : bool) (a n : Z) : list hb_glyph :=
  let gs := map (fun i => demo_glyph scr a (Z.of_nat i)) (seq 0 (Z.to_nat n)) in if rtl then rev gs else gs.
Definition demo_preceding (ps len x : Z) : Z :=
  fold_right (fun o r => if (o - ps <? x) && (r <? o - ps) then o - ps else r) (-1) (opps ps).
Definition demo : engine := {|
  en_script := script; en_info := fun _ => demo_info; en_shape := demo_shape;
  en_sub := fun base a limit scr sc sb sp => (demo_font base sc sb sp, limit);
  en_runs := runs; en_code := demo_code; en_next := fun a pe => (byte a, a + 1); en_hangs := fun c => (c =? 32) || (c =? 9);
  en_preceding := demo_preceding; en_levels := levels;
  en_items := fun a n => map (fun b => (b, 1)) (firstn (Z.to_nat n) (skipn (Z.to_nat a) text));
  en_bound := bound; en_base_info := fun _ => demo_info; en_default := fun base => demo_font base false false false |}.
Definition demo_opp (ps o : Z) : Prop := In o (opps ps).

Lemma bytes_ones (l : list Z) : bytes (map (fun b => (b, 1)) l) = Z.of_nat (length l).
Proof. induction l as [|x l IH]; [reflexivity|]. cbn [map bytes fold_right snd length] in *. unfold bytes in IH. rewrite IH. lia. Qed.
Lemma nondecreasing_seq k n : nondecreasing (map Z.of_nat (seq k n)).
Proof.
  revert k. induction n as [|n IH]; intros k; [constructor|]. cbn [seq map]. destruct n as [|n]; [constructor|].
  specialize (IH (S k)). cbn [seq map] in *. cbn [nondecreasing]. split; [lia|exact IH].
Qed.

Lemma demo_shaper : shaper_ok demo_shape.
Proof.
  intros f scr rtl a n N. unfold demo_shape. set (gs := map _ _).
  assert (F : Forall (fun g => 0 <= hb_cluster g < n) gs).
  { unfold gs. apply Forall_map, Forall_forall. intros i I. apply in_seq in I. cbn. lia. }
  assert (S : nondecreasing (map hb_cluster gs)) by (unfold gs; rewrite map_map; apply nondecreasing_seq).
  destruct rtl; [rewrite rev_involutive|]; split; try assumption. apply Forall_rev. exact F.
Qed.
Lemma demo_is_preceding ps len x : is_preceding (fun o => demo_opp ps (ps + o)) x (demo_preceding ps len x).
Proof.
  unfold demo_opp, demo_preceding. induction (opps ps) as [|o l (A & B)]; cbn [fold_right].
  - split; [intros o []|right; lia].
  - set (r := fold_right _ _ l) in *. destruct ((o - ps <? x) && (r <? o - ps)) eqn:E; split.
    + intros q [->|I] L; [lia|]. specialize (A q I L). lia.
    + left. split; [left; lia|lia].
    + intros q [Q|I] L; [lia|exact (A q I L)].
    + destruct B as [[B1 B2]|B]; [left; split; [right; exact B1|exact B2]|right; exact B].
Qed.
Lemma demo_ok count : count <= Z.of_nat (length text) -> bounds_ok demo count ->
  (forall ps pe, is_para demo count ps pe -> 0 <= ps /\ pe <= count /\
    (forall a b, ps <= a -> a < b -> b <= pe -> bidi_partition a b (runs ps a (b - a))) /\
    Forall (fun o => o <= pe) (opps ps) /\ pe - ps <= Z.of_nat (length (levels ps))) ->
  engine_ok demo demo_opp count.
Proof.
  intros CL BO H. split; [exact demo_shaper|]. split; [|split; [exact BO|]].
  { intros base a limit scr sc sb sp L. cbn. lia. }
  intros ps pe IP. destruct (H ps pe IP) as (P0 & PE & BP & FO & LV). cbn [demo en_runs en_next en_preceding en_levels en_items].
  split; [exact BP|]. split; [cbn; lia|]. split; [intros x; apply demo_is_preceding|].
  split; [intros o I; exact (proj1 (Forall_forall _ _) FO o I)|]. split; [cbn; lia|]. split; [exact LV|].
  split; [apply Forall_map, Forall_forall; cbn; lia|]. rewrite bytes_ones, firstn_length, skipn_length. destruct IP as (_ & _ & _ & IP). lia.
Qed.
End Demo.

(** ** "ab cd", then "e<tab>f" *)
Definition text1 : list Z := [97; 98; 32; 99; 100; 10; 101; 9; 102; 0].
Definition bound1 (off : Z) : Z * Z := if off =? 0 then (6, 1) else (3, 0).
Definition opps1 (ps : Z) : list Z := if ps =? 0 then [3; 5] else [8; 9].
(** All but the first character of a line is right to left. *)
Definition runs1 (ps a n : Z) : list (Z * Z * Z) := if n =? 1 then [(a, 1, 0)] else [(a, 1, 0); (a + 1, n - 1, 1)].
Definition levels1 (ps : Z) : list Z := [0; 1; 1; 1; 1].
Definition script1 (c : Z) : Z := if c <? 65 then 0 else if c <? 100 then 25 else 8.
Definition engine1 : engine := demo text1 bound1 opps1 runs1 levels1 script1 (fun _ => 640) (fun _ => 0).

Lemma starts1 x : para_start engine1 9 x -> x = 0 \/ x = 6 \/ x = 9.
Proof. induction 1 as [|x P IH L]; [auto|]. cbn [engine1 demo en_bound]. unfold bound1. destruct IH as [E0|[E0|E0]]; subst x; cbn; auto; lia. Qed.
Lemma runs1_partition ps a b : a < b -> bidi_partition a b (runs1 ps a (b - a)).
Proof.
  intros L. unfold runs1. destruct (Z.eqb_spec (b - a) 1); eexists; (split; [reflexivity|]); cbn [consecutive]; lia.
Qed.
Lemma engine1_ok : engine_ok engine1 (demo_opp opps1) 9.
Proof.
  apply demo_ok.
  - cbn. lia.
  - intros off P L. destruct (starts1 _ P) as [E0|[E0|E0]]; subst off; try lia; vm_compute; repeat split; congruence.
  - intros ps pe (P & L & E & H). destruct (starts1 _ P) as [E0|[E0|E0]]; subst ps; try lia; vm_compute in E; subst pe; (split; [lia|]); (split; [lia|]);
      (split; [intros; apply runs1_partition; lia|]); (split; [repeat constructor; lia|cbn; lia]).
Qed.

(** A table in memory with [pad] after it. *)
Definition padded_view {T} (t pad : table T) : runs_view T :=
  {| rv_count := length t; rv_limit := vget (map fst (t ++ pad)); rv_value := vget (map snd (t ++ pad)) |}.
Definition no_style : style_source := {| st_view := None; st_table := []; st_pad := [] |}.
Definition fonts1 : table Z := [(4, 1); (9, 2)].
Definition small1 : table bool := [(2, true); (9, false)].
Definition sources1 : sources :=
  {| so_view := padded_view fonts1 [(1000, 0)]; so_table := fonts1; so_pad := [(1000, 0)];
     so_small := {| st_view := Some (padded_view small1 [(1000, false)]); st_table := small1; st_pad := [(1000, false)] |};
     so_sub := no_style; so_super := no_style |}.
Lemma sources1_ok : sources_ok sources1 9.
Proof.
  unfold sources_ok, style_ok, table_ok, reads, sorted, final_limit. cbn [sources1 so_view so_table so_pad so_small so_sub so_super no_style st_view st_table st_pad].
  split; [|split; [|split; exact I]].
  - split; [split; [reflexivity|split; reflexivity]|]. split; [cbn; lia|]. split; [cbn; repeat constructor; lia|]. split; [discriminate|]. split; [cbn; repeat constructor; lia|reflexivity].
  - split; [split; [reflexivity|split; reflexivity]|]. split; [cbn; lia|]. split; [cbn; repeat constructor; lia|]. split; [discriminate|]. split; [cbn; repeat constructor; lia|reflexivity].
Qed.
Lemma sources1_padded : padded sources1.
Proof.
  split; [discriminate|]. split; [|split].
  - intros s [<-|[<-|[<-|[]]]]; cbn; congruence.
  - intros l [<-|[]]. reflexivity.
  - intros s l [<-|[<-|[<-|[]]]] I; cbn in I; try contradiction. destruct I as [<-|[]]. reflexivity.
Qed.
Lemma can_build1 : can_build engine1 text1 (demo_opp opps1) sources1 9.
Proof. split; [exact engine1_ok|]. split; [exact sources1_ok|]. split; [split; [lia|eexists; split; [reflexivity|lia]]|]. left. exact sources1_padded. Qed.

(** ** Texts of one left to right paragraph *)
Definition sources_of (t : table Z) : sources :=
  {| so_view := padded_view t [(1000, 0)]; so_table := t; so_pad := [(1000, 0)]; so_small := no_style; so_sub := no_style; so_super := no_style |}.
Definition plain_engine (text : list Z) (count : Z) (opps : list Z) (adv yadv : Z -> Z) : engine :=
  demo text (fun _ => (count, 0)) (fun _ => opps) (fun _ a n => [(a, n, 0)]) (fun _ => repeat 0 (Z.to_nat count)) (fun _ => 25) adv yadv.
Lemma plain_starts text count opps adv yadv x : para_start (plain_engine text count opps adv yadv) count x -> x = 0 \/ x = count.
Proof. induction 1 as [|x P IH L]; [auto|]. cbn in *. lia. Qed.
Lemma plain_ok text count opps adv yadv : 0 < count < Z.of_nat (length text) -> Forall (fun o => o <= count) opps ->
  engine_ok (plain_engine text count opps adv yadv) (fun _ o => In o opps) count.
Proof.
  intros C F. apply (demo_ok text _ (fun _ => opps)).
  - lia.
  - intros off P L. destruct (plain_starts _ _ _ _ _ _ P) as [E0|E0]; subst off; cbn; lia.
  - intros ps pe (P & L & E & H). destruct (plain_starts _ _ _ _ _ _ P) as [E0|E0]; subst ps; cbn in E; try lia.
    assert (pe = count) by lia. clear E. subst pe. split; [lia|]. split; [lia|]. split; [|split; [exact F|rewrite repeat_length; lia]].
    intros a b _ LT _. exists [(a, b - a, 0)]. split; [reflexivity|]. cbn [consecutive]. lia.
Qed.
Lemma plain_sources count v : 0 < count < 1000 -> sources_ok (sources_of [(count, v)]) count /\ padded (sources_of [(count, v)]).
Proof.
  intros C. split.
  - unfold sources_ok, style_ok, table_ok, reads, sorted, final_limit. cbn [sources_of so_view so_table so_pad so_small so_sub so_super no_style st_view st_table st_pad].
    split; [|split; [exact I|split; exact I]].
    split; [split; [reflexivity|split; reflexivity]|]. split; [cbn; lia|]. split; [cbn; repeat constructor; lia|]. split; [discriminate|]. split; [cbn; repeat constructor; lia|reflexivity].
  - split; [discriminate|]. split; [|split].
    + intros s [<-|[<-|[<-|[]]]]; cbn; congruence.
    + intros l [<-|[]]. cbn. lia.
    + intros s l [<-|[<-|[<-|[]]]] H; destruct H.
Qed.
Lemma plain_can_build text count opps adv yadv v : 0 < count < Z.of_nat (length text) -> single_byte_at text count -> count < 1000 -> Forall (fun o => o <= count) opps ->
  can_build (plain_engine text count opps adv yadv) text (fun _ o => In o opps) (sources_of [(count, v)]) count.
Proof.
  intros C SB L F. destruct (plain_sources count v ltac:(lia)) as [S1 S2].
  split; [apply plain_ok; assumption|]. split; [exact S1|]. split; [split; [lia|exact SB]|]. left. exact S2.
Qed.

(** ** "a", then "bbd", where "b" and "d" have different scripts *)
Definition text2 : list Z := [97; 10; 98; 98; 100; 0].
Definition bound2 (off : Z) : Z * Z := if off =? 0 then (2, 1) else (3, 0).
Definition fonts2 : table Z := [(3, 1); (5, 2)].
Definition sources2 : sources := sources_of fonts2.
Definition engine2 : engine := demo text2 bound2 (fun _ => []) (fun _ a n => [(a, n, 0)]) (fun _ => [0; 0; 0]) script1 (fun _ => 640) (fun _ => 0).
Lemma starts2 x : para_start engine2 5 x -> x = 0 \/ x = 2 \/ x = 5.
Proof. induction 1 as [|x P IH L]; [auto|]. cbn [engine2 demo en_bound]. unfold bound2. destruct IH as [E0|[E0|E0]]; subst x; cbn; auto; lia. Qed.
Lemma can_build2 : can_build engine2 text2 (demo_opp (fun _ => [])) sources2 5.
Proof.
  split; [|split; [|split; [split; [lia|eexists; split; [reflexivity|lia]]|left]]].
  - apply demo_ok.
    + cbn. lia.
    + intros off P L. destruct (starts2 _ P) as [E0|[E0|E0]]; subst off; try lia; vm_compute; repeat split; congruence.
    + intros ps pe (P & L & E & H). destruct (starts2 _ P) as [E0|[E0|E0]]; subst ps; try lia; vm_compute in E; subst pe; (split; [lia|]); (split; [lia|]);
      (split; [intros a b _ LT _; exists [(a, b - a, 0)]; split; [reflexivity|]; cbn [consecutive]; lia|]); (split; [constructor|cbn; lia]).
  - unfold sources_ok, style_ok, table_ok, reads, sorted, final_limit. cbn [sources2 sources_of so_view so_table so_pad so_small so_sub so_super no_style st_view st_table st_pad].
    split; [|split; [exact I|split; exact I]].
    split; [split; [reflexivity|split; reflexivity]|]. split; [cbn; lia|]. split; [cbn; repeat constructor; lia|]. split; [discriminate|]. split; [cbn; repeat constructor; lia|reflexivity].
  - split; [discriminate|]. split; [|split].
    + intros s [<-|[<-|[<-|[]]]]; cbn; congruence.
    + intros l [<-|[]]. reflexivity.
    + intros s l [<-|[<-|[<-|[]]]] H; destruct H.
Qed.
