From Coq Require Import Permutation ZifyBool ZifyNat.
From Verif Require Import Base BaseFacts ValueRunsModel ValueRunsSpec ValueRunsProofs FloatModel ColorModel FormattingModel FormattingSpec FormattingProofs FormattingIterModel FormattingIterSpec.
From Verif Require Import LayoutModel LayoutSpec LayoutProofs DrawModel DrawSpec DrawProps ScreenModel.
From Verif Require Import BuilderModel BuilderSpec BuilderTileProofs BuilderDocProofs BuilderLineProofs BuilderProps BuiltSpec BuiltProofs RichModel RichSpec.
Open Scope Z_scope.

(** ** Tables *)
Definition entries {T} (r : value_runs T) : table T := combine (vr_limits r) (vr_values r).
Lemma combine_maps {A B} (t : list (A * B)) : combine (map fst t) (map snd t) = t.
Proof. induction t as [|[a b] t IH]; cbn; [reflexivity|rewrite IH; reflexivity]. Qed.
Lemma entries_build {T} (t : table T) : entries (build t) = t.
Proof. unfold entries. rewrite build_eq. cbn. apply combine_maps. Qed.
Lemma packed_build t : packed (build t) = build_bool t.
Proof.
  unfold packed. fold (@entries bool (build t)). rewrite entries_build. unfold build_bool.
  assert (G : forall r, fold_left (fun r p => br_add r (fst p) (snd p)) t r = r ++ map (fun p => br_encode (snd p) (fst p)) t).
  { induction t as [|p t IH]; intros r; cbn [fold_left map]; [rewrite app_nil_r; reflexivity|]. rewrite IH. unfold br_add. rewrite <- app_assoc. reflexivity. }
  rewrite G. reflexivity.
Qed.

Section Runs.
Variables (get_family : bytes -> Z) (d : doc) (f : font) (c : color) (k : stroke).
Let n := Z.of_nat (List.length (displayed d)).
Notation fontc := (font_at get_family d f).

(** A table that gives every displayed character its value. *)
Definition gives {T} (r : value_runs T) (at_ : Z -> T) : Prop :=
  r = build (entries r) /\ entries r <> [] /\ sorted (entries r) /\ (forall q, In q (entries r) -> 0 <= fst q <= n) /\
  final_limit (entries r) 0 = n /\ forall i, 0 <= i < n -> lookup (entries r) i = Some (at_ i).
Lemma gives_of {T} (r : value_runs T) vals at_ : table_gives r vals -> Z.of_nat (List.length vals) = n ->
  (forall i, (i < List.length vals)%nat -> nth_error vals i = Some (at_ (Z.of_nat i))) -> gives r at_.
Proof.
  intros (t & -> & NE & SO & RG & FL & GV) L H. unfold gives. rewrite entries_build. rewrite L in *. split; [reflexivity|].
  repeat (split; [assumption|]). intros i I. specialize (GV (Z.to_nat i) (at_ i)). rewrite Z2Nat.id in GV by lia.
  assert (X : nth_error vals (Z.to_nat i) = Some (at_ i)) by (rewrite H by lia; rewrite Z2Nat.id by lia; reflexivity).
  specialize (GV X). destruct (@lookup_lt_final _ t 0 i NE ltac:(lia)) as (v & V). rewrite V. f_equal.
  pose proof (@get_value_represents _ _ _ i (view_build t)) as G. specialize (G SO). rewrite V in G. rewrite GV in G. congruence.
Qed.

Definition runs_look (r : formatting_runs) : Prop :=
  gives (fr_fonts r) fontc /\ gives (fr_colors r) (color_at d c) /\ gives (fr_strokes r) (stroke_at d k) /\ forall b, gives (fr_flags r b) (flag_at d b).
Lemma parsed ff text : is_markup_of get_family ff text d ->
  exists runs, parse_inline_formatting get_family ff text f c k = Ok (displayed d, runs) /\ runs_look runs.
Proof.
  intros M. destruct (parse_markup get_family ff f c k text d M) as (runs & E & G1 & G2 & G3 & G4). destruct (inner_style get_family (base_style f c k) d) as [Hf Hi].
  exists runs. fold (displayed d) in Hf. rewrite Hf in E. split; [exact E|].
  assert (L : List.length (styled get_family (base_style f c k) d) = List.length (displayed d)) by (rewrite <- Hf, map_length; reflexivity).
  assert (LP : List.length (paths [] d) = List.length (displayed d)) by (unfold displayed; rewrite map_length; reflexivity).
  assert (H : forall T (g : style -> T) at_ r, table_gives r (map g (map snd (styled get_family (base_style f c k) d))) ->
    (forall i x path s, nth_error (paths [] d) i = Some (x, path) -> nth_error (styled get_family (base_style f c k) d) i = Some (x, s) -> g s = at_ (Z.of_nat i)) -> gives r at_).
  { intros T g at_ r G A. eapply gives_of; [exact G|rewrite !map_length, L; reflexivity|]. intros i I. rewrite !map_length in I.
    destruct (nth_error (paths [] d) i) as [[x path]|] eqn:N; [|apply nth_error_None in N; lia]. destruct (Hi i x path N) as (s & S & _).
    rewrite !nth_error_map, S. cbn. f_equal. eapply A; eassumption. }
  assert (AR : forall i x path, nth_error (paths [] d) i = Some (x, path) -> around d (Z.of_nat i) = path) by (intros i x path N; unfold around; rewrite Nat2Z.id, N; reflexivity).
  assert (K : forall i x path s, nth_error (paths [] d) i = Some (x, path) -> nth_error (styled get_family (base_style f c k) d) i = Some (x, s) ->
    s_font s = fontc (Z.of_nat i) /\ s_color s = color_at d c (Z.of_nat i) /\ s_stroke s = stroke_at d k (Z.of_nat i) /\ forall b, s_flag s b = flag_at d b (Z.of_nat i)).
  { intros i x path s N S. destruct (Hi i x path N) as (s' & S' & A1 & A2 & A3 & A4 & A5 & A6 & A7). assert (s' = s) by congruence. subst s'.
    unfold font_at, color_at, stroke_at, flag_at. rewrite (AR _ _ _ N). cbn [base_style s_font s_color s_stroke s_flag] in *. split; [destruct (s_font s); cbn in *; congruence|]. auto. }
  split; [|split; [|split]]; [| | |intros b]; (eapply H; [eauto; fail|]); intros i x path s N S; destruct (K i x path s N S) as (K1 & K2 & K3 & K4); auto.
Qed.
End Runs.

(** ** What the builder is given *)
Definition flag_source (m : behind) (k : flag) (r : value_runs bool) : style_source :=
  {| st_view := Some (flags_in_memory m k r); st_table := entries r; st_pad := [(br_word_limit (be_flag m k), br_word_value (be_flag m k))] |}.
Definition given (handle : font -> Z) (m : behind) (r : formatting_runs) : sources :=
  {| so_view := fonts_in_memory handle m (fr_fonts r); so_table := map (fun p => (fst p, handle (snd p))) (entries (fr_fonts r)); so_pad := [be_font m];
     so_small := flag_source m Small (fr_flags r Small); so_sub := flag_source m Sub (fr_flags r Sub); so_super := flag_source m Super (fr_flags r Super) |}.

Lemma lookup_map {A B} (g : A -> B) (t : table A) i : lookup (map (fun p => (fst p, g (snd p))) t) i = option_map g (lookup t i).
Proof. induction t as [|[l v] t IH]; cbn; [reflexivity|]. destruct (i <? l); [reflexivity|exact IH]. Qed.
Lemma sorted_snoc {T} (t : table T) q : sorted t -> (forall p, In p t -> fst p <= fst q) -> sorted (t ++ [q]).
Proof.
  unfold sorted. rewrite map_app. cbn [map]. induction t as [|p t IH]; intros SO B; cbn [map app]; [repeat constructor|].
  inversion SO; subst. constructor; [apply IH; [assumption|intros; apply B; right; assumption]|].
  rewrite Forall_app. split; [assumption|]. constructor; [apply B; left; reflexivity|constructor].
Qed.
Lemma vget_map {A B} (g : A -> B) l i : omap g (vget l i) = vget (map g l) i.
Proof. unfold vget. rewrite nth_error_map. destruct (nth_error l i); reflexivity. Qed.

Section Given.
Variables (get_family : bytes -> Z) (d : doc) (f : font) (c : color) (k : stroke) (handle : font -> Z) (m : behind) (r : formatting_runs).
Let n := Z.of_nat (List.length (displayed d)).
Hypothesis N : 0 < n < 2 ^ 31.
Hypothesis RL : runs_look get_family d f c k r.
Hypothesis MF : n < fst (be_font m).
Hypothesis MW : forall b, n < br_word_limit (be_flag m b).

Lemma gives_table {T} (x : value_runs T) at_ : gives d x at_ -> table_for n (entries x).
Proof. intros (_ & A & B & C & D & _). split; [exact A|]. split; [exact B|]. split; [exact D|]. intros q Q. specialize (C q Q). fold n in C. lia. Qed.
Lemma flag_ok b : style_ok (flag_source m b (fr_flags r b)) n.
Proof.
  destruct RL as (_ & _ & _ & G). specialize (G b). pose proof (gives_table _ _ G) as TF. destruct G as (E & A & B & C & D & _). fold n in C, D.
  unfold style_ok, flag_source. cbn [st_view st_table st_pad]. set (x := fr_flags r b) in *. set (w := be_flag m b).
  assert (P : packed x = build_bool (entries x)) by (rewrite E at 1; apply packed_build).
  assert (L31 : limits_31 (entries x)). { apply Forall_forall. intros q Q. apply TF. exact Q. }
  assert (BB : build_bool (entries x) = map (fun p => br_encode (snd p) (fst p)) (entries x)) by (rewrite <- packed_build, <- E; reflexivity).
  assert (M1 : map br_word_limit (build_bool (entries x)) = map fst (entries x)).
  { rewrite BB, map_map. apply map_ext_in. intros q Q. apply word_limit_encode. apply TF. exact Q. }
  assert (M2 : map br_word_value (build_bool (entries x)) = map snd (entries x)).
  { rewrite BB, map_map. apply map_ext_in. intros q Q. apply word_value_encode. apply TF. exact Q. }
  split.
  { split; [|split]; intros; cbn [flags_in_memory rv_count rv_limit rv_value]; rewrite P.
    - rewrite BB, map_length. reflexivity.
    - rewrite vget_map, !map_app, M1. reflexivity.
    - rewrite vget_map, !map_app, M2. reflexivity. }
  split; [cbn; lia|]. split.
  { apply sorted_snoc; [exact B|]. intros p P1. cbn [fst]. specialize (C p P1). specialize (MW b). fold w in MW. lia. }
  split; [exact A|]. split; [|exact D]. apply Forall_forall. intros l I. apply in_map_iff in I. destruct I as (q & <- & Q). specialize (C q Q). lia.
Qed.
Lemma given_ok : sources_ok (given handle m r) n.
Proof.
  split; [|split; [|split]]; [|apply flag_ok..]. destruct RL as (G & _). destruct G as (E & A & B & C & D & _). fold n in C, D. set (x := fr_fonts r) in *.
  cbn [given so_view so_table so_pad]. fold x. set (t := entries x) in *.
  assert (X1 : vr_limits x = map fst t) by (rewrite E, build_eq; reflexivity).
  assert (X2 : vr_values x = map snd t) by (rewrite E, build_eq; reflexivity).
  assert (F1 : map fst (map (fun p : Z * font => (fst p, handle (snd p))) t) = map fst t) by (rewrite map_map; reflexivity).
  assert (F2 : map snd (map (fun p : Z * font => (fst p, handle (snd p))) t) = map handle (map snd t)) by (rewrite !map_map; reflexivity).
  split.
  { split; [|split]; intros; cbn [fonts_in_memory rv_count rv_limit rv_value]; rewrite ?X1, ?X2, ?map_app, ?F1, ?F2; [rewrite !map_length; reflexivity|reflexivity..]. }
  split; [cbn; lia|]. split.
  { apply sorted_snoc; [unfold sorted; rewrite F1; exact B|]. intros p P1. apply in_map_iff in P1. destruct P1 as (q & <- & Q). cbn [fst]. specialize (C q Q). lia. }
  split; [destruct t; [congruence|discriminate]|]. split; [|unfold final_limit; rewrite F1; exact D].
  rewrite F1. apply Forall_forall. intros l I. apply in_map_iff in I. destruct I as (q & <- & Q). specialize (C q Q). lia.
Qed.
Lemma given_padded : padded (given handle m r).
Proof.
  destruct RL as (G & _ & _ & GF). split; [discriminate|]. split.
  { intros s I _. cbn [given so_small so_sub so_super] in I. destruct I as [<-|[<-|[<-|[]]]]; discriminate. }
  split.
  - intros l [<-|[]]. cbn [given so_table]. destruct G as (_ & _ & _ & _ & D & _). unfold final_limit.
    replace (map fst (map (fun p : Z * font => (fst p, handle (snd p))) (entries (fr_fonts r)))) with (map fst (entries (fr_fonts r))) by (rewrite map_map; reflexivity).
    unfold final_limit in D. rewrite D. exact MF.
  - intros s l I L. cbn [given so_small so_sub so_super] in I.
    assert (K : exists b, s = flag_source m b (fr_flags r b)) by (destruct I as [<-|[<-|[<-|[]]]]; eauto). destruct K as (b & ->).
    cbn [flag_source st_pad st_table map fst] in *. destruct L as [<-|[]]. destruct (GF b) as (_ & _ & _ & _ & D & _). rewrite D. apply MW.
Qed.
Lemma given_font i : 0 <= i < n -> lookup (so_table (given handle m r)) i = Some (handle (font_at get_family d f i)).
Proof. intros I. cbn [given so_table]. rewrite lookup_map. destruct RL as ((_ & _ & _ & _ & _ & G) & _). rewrite (G i I). reflexivity. Qed.
Lemma given_flag b i v : 0 <= i < n -> style_is (source_table (flag_source m b (fr_flags r b))) i v -> v = flag_at d b i.
Proof. intros I E. cbn in E. destruct RL as (_ & _ & _ & GF). destruct (GF b) as (_ & _ & _ & _ & _ & G). rewrite (G i I) in E. congruence. Qed.

(** ** What is drawn *)
Definition drawn_tables : fmt_tables :=
  {| ft_color := entries (fr_colors r); ft_stroke := entries (fr_strokes r); ft_strike := entries (fr_flags r Strike); ft_under := entries (fr_flags r Under) |}.
Lemma drawn_for : tables_for n drawn_tables.
Proof. destruct RL as (_ & A & B & C). split; [|split; [|split]]; cbn; eapply gives_table; eauto. Qed.
Lemma drawn_views : rich_views r = views_of drawn_tables.
Proof.
  destruct RL as (_ & (A & _) & (B & _) & C). destruct (C Strike) as (C1 & _). destruct (C Under) as (C2 & _). unfold rich_views, views_of, drawn_tables. cbn [ft_color ft_stroke ft_strike ft_under].
  rewrite <- A, <- B. rewrite <- !packed_build, <- C1, <- C2. reflexivity.
Qed.
Lemma drawn_color i : 0 <= i < n -> color_of drawn_tables i = color_at d c i.
Proof. intros I. unfold color_of, attr, drawn_tables. cbn. destruct RL as (_ & (_ & _ & _ & _ & _ & G) & _). rewrite (G i I). reflexivity. Qed.
Lemma drawn_stroke i : 0 <= i < n -> stroke_of drawn_tables i = stroke_at d k i.
Proof. intros I. unfold stroke_of, attr, drawn_tables. cbn. destruct RL as (_ & _ & (_ & _ & _ & _ & _ & G) & _). rewrite (G i I). reflexivity. Qed.
Lemma drawn_line strike i : 0 <= i < n -> lined drawn_tables strike i = line_at d strike i.
Proof.
  intros I. unfold lined, attr, line_at. destruct RL as (_ & _ & _ & G). destruct strike; cbn [drawn_tables ft_strike ft_under];
  [destruct (G Strike) as (_ & _ & _ & _ & _ & H)|destruct (G Under) as (_ & _ & _ & _ & _ & H)]; rewrite (H i I); reflexivity.
Qed.

Section Run.
Variable p : place.
Hypothesis IN : Forall (fun x => 0 <= x < n) (run_chars (pl_of p)).
Lemma looks_run : run_calls drawn_tables p = run_looks d c k p.
Proof.
  unfold run_calls, run_looks. f_equal. rewrite !flat_map_concat_map. f_equal. apply map_ext_in. intros g G. unfold glyph_calls, glyph_looks. cbv zeta.
  assert (I : 0 <= sg_char g < n) by (rewrite Forall_forall in IN; apply IN; unfold run_chars; apply in_map_iff; eauto).
  rewrite (drawn_color _ I), (drawn_stroke _ I). reflexivity.
Qed.
Lemma nth_in j : (j < run_len (pl_of p))%nat -> 0 <= nth_char (pl_of p) j < n.
Proof.
  intros L. rewrite Forall_forall in IN. apply IN. unfold nth_char. apply nth_In. unfold run_chars, run_len in *. rewrite map_length. exact L.
Qed.
Lemma looks_steady strike : steady d c strike (pl_of p) -> steady_run drawn_tables strike (pl_of p).
Proof.
  intros H j L A B. rewrite (drawn_line strike _ (nth_in _ L)) in A. rewrite (drawn_line strike _ (nth_in j ltac:(lia))) in B.
  rewrite (drawn_color _ (nth_in _ L)), (drawn_color _ (nth_in j ltac:(lia))). exact (H j L A B).
Qed.
Lemma spans_bound lo hi spans : spans_in lo hi spans -> forall i j, In (i, j) spans -> (j <= hi)%nat.
Proof.
  revert lo. induction spans as [|[i j] spans IH]; intros lo H a b I; [destruct I|]. cbn in H. destruct H as (H1 & H2). destruct I as [I|I].
  - injection I as -> ->. clear IH H1. revert b H2. induction spans as [|[u v] spans IS]; intros b H2; cbn in H2; [exact H2|]. destruct H2 as (H2 & H3). specialize (IS v H3). lia.
  - exact (IH j H2 a b I).
Qed.
Lemma looks_lines mt strike calls : lines_drawn drawn_tables mt p strike calls -> lines_look d c mt p strike calls.
Proof.
  intros (spans & A & B & C & D). exists spans. split; [exact A|]. split; [|split].
  - intros j L. rewrite <- (drawn_line strike _ (nth_in _ L)). exact (B j L).
  - intros i j x I X1 X2. pose proof (spans_bound _ _ _ A i j I) as Y. rewrite <- (drawn_color _ (nth_in (S x) ltac:(lia))), <- (drawn_color _ (nth_in x ltac:(lia))). exact (C i j x I X1 X2).
  - pose proof (spans_bound _ _ _ A) as Y. clear A B C. induction D as [|[i j] cl spans' cls (col & H1 & H2) D IH]; constructor; [|apply IH; intros; eapply Y; right; eassumption].
    exists col. split; [exact H1|]. cbn [fst snd] in *. intros L. specialize (Y i j ltac:(left; reflexivity)).
    rewrite <- (drawn_color _ (nth_in (j - 1) ltac:(lia))). exact (H2 L).
Qed.
End Run.
End Given.
