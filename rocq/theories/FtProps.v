(** C87: FreeType's and HarfBuzz's objects. *)
From Coq Require Import Permutation Lia.
From Verif Require Import Base FtModel FtSpec FtProofs.
Open Scope nat_scope.
Open Scope list_scope.

(** Whatever a thread does, only what exists is used or released; nothing exists twice except
    that HarfBuzz's faces are counted; every font answered earlier can still be used; and
    between calls only the library, the fonts of the cache, HarfBuzz's faces and some glyphs
    exist. *)
Theorem C87_alive : forall name succeeds mapped, ft_names_fresh name ->
  forall os w, ft_run name succeeds mapped (thread_start name) os = Ok w ->
  ft_proper (th_told w) /\
  NoDup (filter (fun x => negb (is_kind HbFace x)) (ft_existing (th_told w))) /\
  (forall a, In (Some a) (th_answers w) ->
     In (Face, ow_face a) (ft_existing (th_told w)) /\ In (HbFont, ow_font a) (ft_existing (th_told w)) /\ In (Impl, ow_impl a) (ft_existing (th_told w))) /\
  (forall n, ~ In (Stroker, n) (ft_existing (th_told w)) /\ ~ In (Points, n) (ft_existing (th_told w)) /\ ~ In (Block, n) (ft_existing (th_told w))).
Proof.
  intros name succeeds mapped F os w E. destruct (@ft_run_inv name succeeds mapped F os _ _ _ (start_inv succeeds F) E) as (g & I). destruct (fi_st I) as (P & Q & N).
  split; [exact P|]. split; [eapply Permutation_NoDup; [apply filter_perm; symmetry; exact Q|exact N]|]. split.
  - intros a H. apply (fi_answers I) in H. repeat split; (eapply st_in; [apply (fi_st I)|]; eapply own_in; [exact H|cbn; tauto]).
  - assert (X : forall k n, In (k, n) (ft_existing (th_told w)) -> In k [Library; Face; HbFont; Impl; HbFace; Glyph]).
    { intros k n H. eapply Permutation_in in H; [|exact Q]. destruct H as [[= <- _]|H]; [cbn; tauto|]. apply in_app_or in H as [H|H].
      - apply in_flat_map in H as (c & _ & H). cbn in H. repeat (destruct H as [[= <- _]|H]; [cbn; tauto|]). destruct H.
      - apply in_map_iff in H as (y & [= <- _] & _). cbn. tauto. }
    intros n. repeat split; intros H; apply X in H; cbn in H; repeat (destruct H as [H|H]; [discriminate|]); exact H.
Qed.
Print Assumptions C87_alive.

(** When the thread ends, whatever the order in which its cache is cleared, everything is
    released in order, the library last; what is left are HarfBuzz's faces and glyphs.  Missing: these. *)
Theorem C87_end_partial : forall name succeeds mapped order, ft_names_fresh name -> (forall l, Permutation (order l) l) ->
  forall os w, ft_run name succeeds mapped (thread_start name) os = Ok w ->
  let tr := thread_end order w in
  ft_proper tr /\ last tr (Made Library 0) = Released Library (th_lib w) /\
  forall k n, In (k, n) (ft_existing tr) -> k = HbFace \/ k = Glyph.
Proof.
  intros name succeeds mapped order F O os w E tr. destruct (@ft_run_inv name succeeds mapped F os _ _ _ (start_inv succeeds F) E) as (g & I). destruct (thread_end_st order O I) as (P & Q & _).
  split; [exact P|]. split; [apply last_last|]. intros k n H. eapply Permutation_in in H; [|exact Q]. apply in_app_or in H as [H|H]; apply in_map_iff in H as (y & [= <- _] & _); auto.
Qed.
Print Assumptions C87_end_partial.

(** Defect: HarfBuzz's face of a font is created with a reference of its creator that nobody
    gives back, and the glyph a stroke is made from is not released.  So every face that was
    loaded and, as long as FreeType succeeds, every stroke leaves an object behind for
    good. *)
Theorem C87_leaks_refuted : forall name succeeds mapped order, ft_names_fresh name -> (forall l, Permutation (order l) l) ->
  forall os w, ft_run name succeeds mapped (thread_start name) os = Ok w ->
  let left_ := ft_existing (thread_end order w) in
  how_many HbFace left_ = length (made HbFace (th_told w)) /\
  how_many Glyph left_ <= length (made Stroker (th_told w)) /\
  ((forall tr, succeeds tr = true) -> how_many Glyph left_ = length (made Stroker (th_told w))).
Proof.
  intros name succeeds mapped order F O os w E left_. destruct (@ft_run_inv name succeeds mapped F os _ _ _ (start_inv succeeds F) E) as (g & I). destruct (thread_end_st order O I) as (_ & Q & _).
  assert (H1 : how_many HbFace left_ = length (th_cache w)).
  { unfold left_. rewrite (how_many_perm _ Q), how_many_app, how_many_all. unfold left_over. rewrite how_many_none by discriminate. rewrite (Permutation_length (O _)). lia. }
  assert (H2 : how_many Glyph left_ = length g).
  { unfold left_. rewrite (how_many_perm _ Q), how_many_app, how_many_none by discriminate. apply how_many_all. }
  rewrite H1, H2. split; [symmetry; apply (fi_faces I)|]. split; [apply (fi_glyphs I)|apply (fi_all I)].
Qed.
Print Assumptions C87_leaks_refuted.

(** As long as FreeType succeeds and fonts with a face are used, every step is defined. *)
Theorem C87_defined : forall name succeeds mapped w o, (forall tr, succeeds tr = true) -> font_answered w o ->
  exists w', ft_step name succeeds mapped w o = Ok w'.
Proof. intros. apply ft_step_defined; assumption. Qed.
Print Assumptions C87_defined.

(** A face is loaded at most once: asking again answers the same objects, and what was
    answered never changes. *)
Theorem C87_same : forall name succeeds mapped w f w', ft_step name succeeds mapped w (Get f) = Ok w' ->
  exists a, th_answers w' = th_answers w ++ [a] /\
  forall os w'' w3, ft_run name succeeds mapped w' os = Ok w'' -> ft_step name succeeds mapped w'' (Get f) = Ok w3 -> a <> None ->
  th_answers w3 = th_answers w'' ++ [a] /\ made Face (th_told w3) = made Face (th_told w'').
Proof.
  intros name succeeds mapped w f w' E. destruct (get_cached name succeeds mapped w f) as (a & A & C). cbn [ft_step] in E. injection E as <-. exists a. split; [exact A|].
  intros os w'' w3 R E N. destruct a as [o|]; [|congruence]. specialize (C o eq_refl). pose proof (run_cached _ _ _ _ R C) as C'. cbn [ft_step] in E. injection E as <-.
  unfold get_font_data. destruct C' as [k C']. rewrite C'. cbn [th_answers th_told]. split; [reflexivity|]. rewrite made_app. apply app_nil_r.
Qed.
Print Assumptions C87_same.

(** Opaque names that are never reused. *)
Definition ft_counting (tr : list ft_told) (k : ft_kind) : Z := (1 + fold_right Z.max 0 (map snd (ft_existing tr)))%Z.
Lemma ft_counting_fresh : ft_names_fresh ft_counting.
Proof.
  intros tr k. assert (H : forall l x, In x l -> (x <= fold_right Z.max 0 l)%Z).
  { induction l as [|y l IH]; intros x []; cbn; [subst; lia|]. specialize (IH _ H). lia. }
  assert (P : forall l, (0 <= fold_right Z.max 0 l)%Z) by (induction l; cbn; lia).
  unfold ft_counting. split; [specialize (P (map snd (ft_existing tr))); lia|]. intros I. apply (in_map snd) in I. apply H in I. cbn [snd] in I. lia.
Qed.
(** Two faces, one asked for twice and one whose file is missing; a stroke and a curve. *)
Example C87_example : exists w, ft_run ft_counting (fun _ => true) (fun f => (f <? 10)%Z) (thread_start ft_counting) [Get 3; Get 4; Get 3; Get 12; Picture 0; Curve 1; Plain 2] = Ok w /\
  map (fun a => match a with Some o => ow_face o | None => 0%Z end) (th_answers w) = [2; 6; 2; 0]%Z /\
  ft_existing (thread_end (@rev _) w) = [(Glyph, 11); (Glyph, 10); (HbFace, 7); (HbFace, 3)]%Z.
Proof. eexists. split; [vm_compute; reflexivity|]. split; vm_compute; reflexivity. Qed.
