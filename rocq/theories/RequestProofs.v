(** Proofs about what is asked of HarfBuzz. *)
From Coq Require Import Lia Bool.
From Verif Require Import Base BuilderModel RequestModel RequestSpec.
Open Scope Z_scope.

Lemma bytes_app a b : bytes (a ++ b) = bytes a + bytes b.
Proof. unfold bytes. induction a; cbn; [lia|]. cbn in *. lia. Qed.
Lemma bytes_cons c a : bytes (c :: a) = snd c + bytes a. Proof. reflexivity. Qed.
Lemma text_bytes_eq a : text_bytes a = bytes a.
Proof. induction a as [|c a IH]; [reflexivity|]. rewrite bytes_cons, <- IH. reflexivity. Qed.
Lemma bytes_nonneg a : well_formed a -> 0 <= bytes a.
Proof. induction 1; [cbn; lia|]. rewrite bytes_cons. lia. Qed.
Lemma bytes_zero a : well_formed a -> bytes a = 0 <-> a = [].
Proof. intros W. destruct W; [tauto|]. rewrite bytes_cons. pose proof (bytes_nonneg l W). split; [lia|discriminate]. Qed.
Lemma cut_app a b : well_formed a -> cut (bytes a) (a ++ b) = Ok (a, b).
Proof.
  induction 1 as [|c a C W IH]; [destruct b; reflexivity|]. rewrite bytes_cons. pose proof (bytes_nonneg a W). cbn [app cut].
  destruct (Z.eqb_spec (snd c + bytes a) 0); [lia|]. destruct (Z.ltb_spec (snd c + bytes a) 0); [lia|]. replace (snd c + bytes a - snd c) with (bytes a) by lia. rewrite IH. reflexivity.
Qed.
Lemma cut_all a : well_formed a -> cut (bytes a) a = Ok (a, []).
Proof. intros W. rewrite <- (app_nil_r a) at 2. apply cut_app, W. Qed.
Lemma cut_0 a : cut 0 a = Ok ([], a). Proof. destruct a; reflexivity. Qed.

Lemma numbered_fst n a : map fst (numbered n a) = map fst a.
Proof. revert n. induction a; intros; cbn; [reflexivity|]. f_equal. apply IHa. Qed.
Lemma numbered_snd n a : map snd (numbered n a) = map (fun i => n + bytes (firstn i a)) (seq 0 (length a)).
Proof.
  revert n. induction a as [|c a IH]; intros; [reflexivity|]. cbn [numbered map seq length firstn snd]. f_equal; [cbn; lia|]. rewrite IH. rewrite <- seq_shift, map_map.
  apply map_ext. intros i. cbn [firstn]. rewrite bytes_cons. lia.
Qed.
Lemma numbered_holds a : holds a (numbered 0 a).
Proof. split; [apply numbered_fst|]. rewrite numbered_snd. apply map_ext. intros; lia. Qed.
Lemma numbered_range n a : well_formed a -> Forall (fun i => n <= snd i < n + bytes a) (numbered n a).
Proof.
  intros W. revert n. induction W as [|c a C W IH]; intros n; cbn [numbered]; constructor.
  - cbn [snd]. rewrite bytes_cons. pose proof (bytes_nonneg a W). lia.
  - eapply Forall_impl; [|apply IH]. cbv beta. intros i I. rewrite bytes_cons. lia.
Qed.

Section Request.
Variables (script_tag : Z -> Z) (language : Z) (to_upper : Z -> list (Z * Z) -> list (Z * Z)).
Definition direction_of (reversed vertical : bool) : hb_direction := if vertical then (if reversed then DirBTT else DirTTB) else (if reversed then DirRTL else DirLTR).
Definition features_of (font : ssfont) (count : Z) : list hb_feature :=
  maybe_add_tag_runs (maybe_add_tag_runs (maybe_add_tag_runs [] SMCP count (sf_small font) (sf_syn_small font)) SUBS count (sf_sub font) (sf_syn_sub font)) SUPS count (sf_super font) (sf_syn_super font).

Definition ask (b : hb_buffer) (q : run_request) := shape_request script_tag language to_upper b (rq_font q) (rq_paragraph q) (rq_offset q) (rq_count q) (rq_length q) (rq_script q) (rq_reversed q) (rq_vertical q).

Lemma ask_plain b q before run after : well_formed before -> well_formed run -> well_formed after -> stands_in q before run after -> sf_syn_small (rq_font q) = false ->
  ask b q = Ok (HbBuffer (script_tag (rq_script q)) language (direction_of (rq_reversed q) (rq_vertical q)) (bytes before =? 0) (bytes after =? 0)
                  (numbered 0 run) (firstn 5 (rev (map fst before))) (firstn 5 (map fst after)) false, features_of (rq_font q) (bytes run)).
Proof.
  intros WB WR WA (EP & EO & EC & EL) SM. unfold ask, shape_request. rewrite SM, EP, EO, EC, EL. unfold hb_add_utf8, hb_set, hb_clear. cbn [hf_glyphs hf_items hf_pre hf_post hf_script hf_language hf_direction hf_bot hf_eot].
  assert (W : well_formed (before ++ run ++ after)) by (unfold well_formed; rewrite !Forall_app; tauto). assert (W' : well_formed (run ++ after)) by (unfold well_formed; rewrite !Forall_app; tauto).
  rewrite cut_all by exact W. cbn [obind]. rewrite cut_app by exact WB. cbn [obind]. rewrite cut_0. cbn [obind].
  assert (E : bytes (before ++ run ++ after) - bytes before = bytes (run ++ after)) by (rewrite !bytes_app; lia). rewrite E. rewrite cut_all by exact W'. cbn [obind]. rewrite cut_0. cbn [obind]. rewrite cut_app by exact WR. cbn [obind numbered app hf_glyphs hf_items hf_pre hf_post hf_script hf_language hf_direction hf_bot hf_eot].
  cbn [app Z.ltb Z.compare]. unfold features_of, direction_of. do 2 f_equal. f_equal.
  - rewrite !bytes_app. destruct (Z.eqb_spec (bytes before + bytes run) (bytes before + (bytes run + bytes after))), (Z.eqb_spec (bytes after) 0); try reflexivity; lia.
  - destruct (Z.ltb_spec 0 (bytes before)) as [|L]; [reflexivity|]. pose proof (bytes_nonneg _ WB). rewrite (proj1 (bytes_zero _ WB)) by lia. reflexivity.
  - rewrite SM. reflexivity.
Qed.
Lemma ask_upper b q before run after : well_formed before -> well_formed run -> well_formed (to_upper (rq_script q) run) -> well_formed after -> stands_in q before run after -> sf_syn_small (rq_font q) = true ->
  ask b q = Ok (HbBuffer (script_tag (rq_script q)) language (direction_of (rq_reversed q) (rq_vertical q)) (bytes before =? 0) (bytes after =? 0)
                  (numbered 0 (to_upper (rq_script q) run)) [] [] false, features_of (rq_font q) (bytes (to_upper (rq_script q) run))).
Proof.
  intros WB WR WU WA (EP & EO & EC & EL) SM. unfold ask, shape_request. rewrite SM, EP, EO, EC, EL. rewrite cut_app by exact WB. cbn [obind]. rewrite cut_app by exact WR. cbn [obind].
  unfold hb_add_utf8, hb_set, hb_clear. cbn [hf_glyphs hf_items hf_pre hf_post hf_script hf_language hf_direction hf_bot hf_eot]. rewrite !text_bytes_eq, cut_all by exact WU. cbn [obind]. rewrite cut_0. cbn [obind]. rewrite cut_all by exact WU. cbn [obind app map firstn].
  cbn [Z.ltb Z.compare]. unfold features_of, direction_of. rewrite SM. do 2 f_equal. f_equal.
  rewrite !bytes_app. destruct (Z.eqb_spec (bytes before + bytes run) (bytes before + (bytes run + bytes after))), (Z.eqb_spec (bytes after) 0); try reflexivity; lia.
Qed.
Lemma ask_fresh b b' q : ask b q = ask b' q.
Proof.
  unfold ask, shape_request. assert (E : forall s l d x y, hb_set (hb_clear b) s l d x y = hb_set (hb_clear b') s l d x y) by reflexivity. rewrite E. reflexivity.
Qed.

Lemma features_tags font count l : (exists f, In f (features_of font count) /\ ff_tag f = tag_of l) <-> wanted l font = true /\ imitated l font = false.
Proof.
  unfold features_of, maybe_add_tag_runs. destruct l; cbn [wanted imitated tag_of];
  destruct (sf_small font), (sf_syn_small font), (sf_sub font), (sf_syn_sub font), (sf_super font), (sf_syn_super font); cbn [negb orb app]; split;
  try (intros (f & I & T); cbn [In] in I; repeat (destruct I as [<- | I]; [first [discriminate T | (split; reflexivity)]|]); contradiction);
  try (intros [X Y]; discriminate);
  intros _; eexists; cbn [In]; first [split; [left; reflexivity|reflexivity]|split; [right; left; reflexivity|reflexivity]|split; [right; right; left; reflexivity|reflexivity]].
Qed.
Lemma features_all font count f : In f (features_of font count) -> ff_value f = 1 /\ ff_start f = 0 /\ ff_end f = wrap32 count /\ exists l, ff_tag f = tag_of l.
Proof.
  unfold features_of, maybe_add_tag_runs.
  destruct (sf_small font), (sf_syn_small font), (sf_sub font), (sf_syn_sub font), (sf_super font), (sf_syn_super font); cbn [negb orb app]; intros I; cbn [In] in I; repeat (destruct I as [<- | I]; [repeat split; first [exists SmallCapitals; reflexivity|exists Lowered; reflexivity|exists Raised; reflexivity]|]); contradiction.
Qed.
Lemma features_nodup font count : NoDup (map ff_tag (features_of font count)).
Proof.
  unfold features_of, maybe_add_tag_runs.
  destruct (sf_small font), (sf_syn_small font), (sf_sub font), (sf_syn_sub font), (sf_super font), (sf_syn_super font); cbn [negb orb app map ff_tag]; repeat constructor; cbn [In]; intros H; repeat (destruct H as [H|H]; [discriminate H|]); contradiction.
Qed.
Lemma requests_alone shape b qs rs : shape_requests script_tag language to_upper shape b qs = Ok rs -> Forall2 (fun q r => forall b', ask b' q = Ok r) qs rs.
Proof.
  revert b rs. induction qs as [|q qs IH]; intros b rs E; cbn [shape_requests] in E; [injection E as <-; constructor|].
  fold (ask b q) in E. destruct (ask b q) as [[b1 fs]| |] eqn:A; cbn [obind] in E; try discriminate.
  destruct (shape_requests script_tag language to_upper shape (leave_glyphs (shape b1 fs)) qs) as [rest| |] eqn:R; cbn [obind] in E; try discriminate. injection E as <-.
  constructor; [|apply (IH _ _ R)]. intros b'. rewrite (ask_fresh b' b). exact A.
Qed.
End Request.
