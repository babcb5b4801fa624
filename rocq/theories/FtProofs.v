(** Proofs about the ownership of FreeType's and HarfBuzz's objects. *)
From Coq Require Import Permutation Lia.
From Verif Require Import Base FtModel FtSpec.
Set Implicit Arguments.
Open Scope nat_scope.
Open Scope list_scope.

Lemma exist_app a : forall now b, ft_exist_after now (a ++ b) = ft_exist_after (ft_exist_after now a) b.
Proof. induction a as [|e a IH]; intros now b; [reflexivity|]. destruct e; cbn; apply IH. Qed.
Lemma exist_snoc tr e : ft_existing (tr ++ [e]) =
  match e with Made k n | Referenced k n => (k, n) :: ft_existing tr | Used _ _ => ft_existing tr | Released k n => remove_one (k, n) (ft_existing tr) end.
Proof. unfold ft_existing. rewrite exist_app. destruct e; reflexivity. Qed.
Lemma snoc_eq A (a b : list A) (x y : A) (c : list A) : a ++ [x] = b ++ y :: c -> (c = [] /\ a = b /\ x = y) \/ exists c', c = c' ++ [x] /\ a = b ++ y :: c'.
Proof.
  destruct c as [|z c _] using rev_ind; intros H.
  - apply app_inj_tail in H as [-> ->]. left. auto.
  - change (y :: c ++ [z]) with ((y :: c) ++ [z]) in H. rewrite app_assoc in H. apply app_inj_tail in H as [-> ->]. right. exists c. auto.
Qed.
Lemma proper_snoc tr e : ft_proper tr -> match e with Made _ _ => True | Referenced k n | Used k n | Released k n => In (k, n) (ft_existing tr) end -> ft_proper (tr ++ [e]).
Proof. intros P H before x after E. apply snoc_eq in E as [(-> & -> & ->)|(c & -> & ->)]; [exact H|eapply P; reflexivity]. Qed.
Lemma remove_perm x l : In x l -> Permutation l (x :: remove_one x l).
Proof.
  induction l as [|y l IH]; intros []; cbn; destruct (thing_eq_dec x y) as [->|N]; try reflexivity; [congruence|]. rewrite perm_swap. apply perm_skip, IH. assumption.
Qed.

(** Not counted by references. *)
Definition single (x : ft_kind * Z) : bool := negb (is_kind HbFace x).
Definition st (tr : list ft_told) (l : list (ft_kind * Z)) : Prop := ft_proper tr /\ Permutation (ft_existing tr) l /\ NoDup (filter single l).
Lemma filter_perm A (f : A -> bool) l l' : Permutation l l' -> Permutation (filter f l) (filter f l').
Proof.
  induction 1; cbn; [reflexivity| | |etransitivity; eassumption].
  - destruct (f x); [apply perm_skip|]; assumption.
  - destruct (f x), (f y); try apply perm_swap; reflexivity.
Qed.
Lemma st_perm tr l l' : Permutation l l' -> st tr l -> st tr l'.
Proof. intros P (A & B & C). split; [exact A|]. split; [rewrite <- P; exact B|]. eapply Permutation_NoDup; [|exact C]. apply filter_perm, P. Qed.
Lemma st_in tr l x : st tr l -> In x l -> In x (ft_existing tr).
Proof. intros (_ & P & _) H. eapply Permutation_in; [symmetry; exact P|exact H]. Qed.
Lemma st_made name tr l k n : ft_names_fresh name -> n = name tr k -> st tr l -> st (tr ++ [Made k n]) ((k, n) :: l).
Proof.
  intros F -> (A & B & C). split; [apply proper_snoc; auto|]. split; [rewrite exist_snoc; apply perm_skip, B|]. cbn. destruct (single (k, name tr k)); [|exact C].
  constructor; [|exact C]. intros H. apply filter_In in H as [H _]. destruct (F tr k) as [_ N]. apply N. eapply Permutation_in; [symmetry; exact B|exact H].
Qed.
Lemma st_ref tr l n : In (HbFace, n) l -> st tr l -> st (tr ++ [Referenced HbFace n]) ((HbFace, n) :: l).
Proof. intros H S. pose proof (st_in _ S H) as H'. destruct S as (A & B & C). split; [apply proper_snoc; auto|]. split; [rewrite exist_snoc; apply perm_skip, B|exact C]. Qed.
Lemma st_used tr l k n : In (k, n) l -> st tr l -> st (tr ++ [Used k n]) l.
Proof. intros H S. pose proof (st_in _ S H) as H'. destruct S as (A & B & C). split; [apply proper_snoc; auto|]. split; [rewrite exist_snoc; exact B|exact C]. Qed.
Lemma st_rel tr l k n r : Permutation l ((k, n) :: r) -> st tr l -> st (tr ++ [Released k n]) r.
Proof.
  intros P S. apply (st_perm P) in S. assert (H : In (k, n) (ft_existing tr)) by (eapply st_in; [exact S|left; reflexivity]). destruct S as (A & B & C).
  split; [apply proper_snoc; auto|]. split; [rewrite exist_snoc; apply Permutation_cons_inv with (a := (k, n)); rewrite <- (remove_perm _ _ H); exact B|].
  cbn in C. destruct (single (k, n)); [inversion C; assumption|exact C].
Qed.
Lemma cons_app A (tr : list A) e l : tr ++ e :: l = (tr ++ [e]) ++ l.
Proof. rewrite <- app_assoc. reflexivity. Qed.
Lemma made_app k a b : made k (a ++ b) = made k a ++ made k b.
Proof. apply flat_map_app. Qed.

Section Ft.
Variable name : list ft_told -> ft_kind -> Z.
Variable succeeds : list ft_told -> bool.
Variable mapped : Z -> bool.
Hypothesis fresh : ft_names_fresh name.

(** What an owner has. *)
Definition own (o : ft_owner) : list (ft_kind * Z) := [(Face, ow_face o); (HbFont, ow_font o); (Impl, ow_impl o); (HbFace, ow_hbface o); (HbFace, ow_hbface o)].
Definition full (o : ft_owner) : Prop := ow_face o <> 0%Z /\ ow_font o <> 0%Z.
Definition left_over (g : list Z) : list (ft_kind * Z) := map (pair Glyph) g.
Definition kept (lib : Z) (c : list (Z * ft_owner)) (g : list Z) : list (ft_kind * Z) := (Library, lib) :: flat_map (fun x => own (snd x)) c ++ left_over g.
Record ft_inv (w : ft_thread) (g : list Z) : Prop := {
  fi_st : st (th_told w) (kept (th_lib w) (th_cache w) g);
  fi_full : Forall (fun c => full (snd c)) (th_cache w);
  fi_answers : forall a, In (Some a) (th_answers w) -> In a (map snd (th_cache w));
  fi_faces : length (made HbFace (th_told w)) = length (th_cache w);
  fi_glyphs : length g <= length (made Stroker (th_told w));
  fi_all : (forall tr, succeeds tr = true) -> length g = length (made Stroker (th_told w)) }.

Lemma start_inv : ft_inv (thread_start name) [].
Proof.
  destruct (fresh [] Library) as [N _]. split; [|constructor|intros a []|reflexivity|auto|auto]. cbn.
  apply st_made with (name := name) (tr := []); [exact fresh|reflexivity|]. split; [intros [|? ?] e after E; discriminate|]. split; constructor.
Qed.
Lemma own_in c o x lib g : In o (map snd c) -> In x (own o) -> In x (kept lib c g).
Proof. intros H X. right. apply in_or_app. left. apply in_map_iff in H as (y & <- & H). apply in_flat_map. exists y. auto. Qed.

Lemma stroke_ok tr l face tr' s gl : st tr l -> In (Face, face) l -> stroke name succeeds tr face = Ok (tr', s, gl) ->
  exists g, st tr' ((Glyph, gl) :: (Stroker, s) :: left_over g ++ l) /\ length g <= 1 /\ ((forall tr, succeeds tr = true) -> length g = 1) /\
  made HbFace tr' = made HbFace tr /\ length (made Stroker tr') = S (length (made Stroker tr)).
Proof.
  intros H F E. unfold stroke in E. destruct (negb (succeeds (tr ++ [Used Face face]))); [discriminate|].
  set (tr1 := tr ++ [Used Face face]) in *. assert (S1 : st tr1 l) by (apply st_used; assumption).
  set (g := name tr1 Glyph) in *. assert (S2 : st (tr1 ++ [Made Glyph g]) ((Glyph, g) :: l)) by (apply st_made with (name := name); auto).
  rewrite cons_app in E. set (tr2 := (tr1 ++ [Made Glyph g]) ++ [Used Glyph g]) in *. assert (S3 : st tr2 ((Glyph, g) :: l)) by (apply st_used; [left; reflexivity|exact S2]).
  destruct (negb (succeeds tr2)); [discriminate|]. set (s0 := name tr2 Stroker) in *. rewrite 2(cons_app _ _ (_ :: _)) in E.
  set (tr3 := ((tr2 ++ [Made Stroker s0]) ++ [Used Stroker s0]) ++ [Used Glyph g]) in *.
  assert (S4 : st tr3 ((Stroker, s0) :: (Glyph, g) :: l)).
  { apply st_used; [right; left; reflexivity|]. apply st_used; [left; reflexivity|]. apply st_made with (name := name); auto. }
  assert (MH : made HbFace tr3 = made HbFace tr) by (unfold tr3, tr2, tr1; rewrite !made_app; cbn; rewrite !app_nil_r; reflexivity).
  assert (MS : length (made Stroker tr3) = S (length (made Stroker tr))) by (unfold tr3, tr2, tr1; rewrite !made_app; cbn; rewrite !app_nil_r, app_length; cbn; lia).
  destruct (succeeds tr3) eqn:X; injection E as <- <- <-.
  - exists [g]. split; [|split; [auto|split; [auto|]]].
    + apply st_made with (name := name); auto. 
    + rewrite !made_app. cbn. rewrite !app_nil_r. auto.
  - exists []. split; [|split; [auto|split; [intros A; rewrite A in X; discriminate|auto]]]. eapply st_perm; [|exact S4]. apply perm_swap.
Qed.
Lemma picture_ok tr l face tr' : st tr l -> In (Face, face) l -> rasterize_glyph_outline name succeeds tr face = Ok tr' ->
  exists g, st tr' (left_over g ++ l) /\ length g <= 1 /\ ((forall tr, succeeds tr = true) -> length g = 1) /\
  made HbFace tr' = made HbFace tr /\ length (made Stroker tr') = S (length (made Stroker tr)).
Proof.
  intros H F E. unfold rasterize_glyph_outline, rasterize_outline_internal in E. destruct (stroke name succeeds tr face) as [[[t s] gl]| |] eqn:K; cbn [obind] in E; try discriminate.
  destruct (@stroke_ok _ _ _ _ _ _ H F K) as (g & S0 & L & A & MH & MS). destruct (negb (succeeds (t ++ [Used Glyph gl]))); [discriminate|]. cbn [obind] in E. set (b := name (t ++ [Used Glyph gl]) Glyph) in *.
  injection E as <-. exists g. unfold rasterize_outline_finish. split; [|split; [exact L|split; [exact A|]]].
  - rewrite !(cons_app _ _ (_ :: _)). eapply st_rel; [apply Permutation_refl|]. eapply st_rel; [apply perm_swap|]. apply st_used; [left; reflexivity|]. apply st_used; [left; reflexivity|].
    eapply st_rel; [apply perm_swap|]. apply st_made with (name := name); [exact fresh|reflexivity|]. apply st_used; [left; reflexivity|exact S0].
  - rewrite !made_app. cbn. rewrite !app_nil_r. auto.
Qed.
Lemma curve_ok tr l face tr' : st tr l -> In (Face, face) l -> load_glyph_outline_curve name succeeds tr face = Ok tr' ->
  exists g, st tr' (left_over g ++ l) /\ length g <= 1 /\ ((forall tr, succeeds tr = true) -> length g = 1) /\
  made HbFace tr' = made HbFace tr /\ length (made Stroker tr') = S (length (made Stroker tr)).
Proof.
  intros H F E. unfold load_glyph_outline_curve, load_outline_curve_internal in E. destruct (stroke name succeeds tr face) as [[[t s] gl]| |] eqn:K; cbn [obind] in E; try discriminate.
  destruct (@stroke_ok _ _ _ _ _ _ H F K) as (g & S0 & L & A & MH & MS). set (m := name (t ++ [Used Stroker s]) Block) in *. set (t2 := (t ++ [Used Stroker s]) ++ [Made Block m; Used Glyph gl]) in *. destruct (negb (succeeds t2)); [discriminate|]. cbn [obind] in E. set (p := name t2 Points) in *.
  injection E as <-. exists g. unfold outline_curve_finish. split; [|split; [exact L|split; [exact A|]]].
  - rewrite !(cons_app _ _ (_ :: _)). eapply st_rel; [apply Permutation_refl|]. eapply st_rel; [apply perm_swap|]. eapply st_rel; [apply Permutation_sym, Permutation_middle with (l1 := [_; _])|]. eapply st_rel; [apply Permutation_refl|].
    apply st_used; [right; right; left; reflexivity|]. apply st_used; [left; reflexivity|]. apply st_used; [right; left; reflexivity|]. apply st_used; [left; reflexivity|]. apply st_used; [right; right; right; left; reflexivity|]. apply st_used; [right; left; reflexivity|].
    apply st_made with (name := name); [exact fresh|reflexivity|]. unfold t2. rewrite !(cons_app _ _ (_ :: _)). apply st_used; [right; left; reflexivity|]. apply st_made with (name := name); [exact fresh|reflexivity|]. apply st_used; [right; left; reflexivity|exact S0].
  - unfold t2. rewrite !made_app. cbn. rewrite !app_nil_r. auto.
Qed.

Lemma bind_ok A B (m : outcome A) (f : A -> outcome B) b : obind m f = Ok b -> exists a, m = Ok a /\ f a = Ok b.
Proof. destruct m; cbn; intros H; [eexists; eauto|discriminate..]. Qed.
Lemma left_over_app a b : left_over (a ++ b) = left_over a ++ left_over b.
Proof. apply map_app. Qed.
Lemma kept_more lib c g g' : Permutation (left_over g' ++ kept lib c g) (kept lib c (g' ++ g)).
Proof.
  unfold kept. rewrite left_over_app. rewrite <- Permutation_middle. apply perm_skip. rewrite !app_assoc. apply Permutation_app_tail, Permutation_app_comm.
Qed.
Lemma answered_in w g i a : ft_inv w g -> answered w i = Ok a -> In a (map snd (th_cache w)).
Proof. intros I E. unfold answered in E. destruct (nth_error (th_answers w) i) as [[b|]|] eqn:N; try discriminate. injection E as ->. apply (fi_answers I). eapply nth_error_In, N. Qed.
Lemma told_inv w g tr g' : ft_inv w g -> st tr (left_over g' ++ kept (th_lib w) (th_cache w) g) -> length g' <= 1 -> ((forall tr, succeeds tr = true) -> length g' = 1) ->
  made HbFace tr = made HbFace (th_told w) -> length (made Stroker tr) = S (length (made Stroker (th_told w))) -> ft_inv (with_told w tr) (g' ++ g).
Proof.
  intros I S0 L A MH MS. split; cbn [with_told th_told th_lib th_cache th_answers].
  - eapply st_perm; [apply kept_more|exact S0].
  - apply (fi_full I).
  - apply (fi_answers I).
  - rewrite MH. apply (fi_faces I).
  - rewrite app_length, MS. pose proof (fi_glyphs I). lia.
  - intros X. rewrite app_length, MS, (A X), (fi_all I X). reflexivity.
Qed.

Lemma get_inv w g f : ft_inv w g -> ft_inv (get_font_data name succeeds mapped w f) g.
Proof.
  intros I. unfold get_font_data. destruct (find (fun c => (fst c =? f)%Z) (th_cache w)) as [[f' o]|] eqn:Fd.
  - apply find_some in Fd as [Fd _]. assert (O : In o (map snd (th_cache w))) by (apply in_map_iff; exists (f', o); auto). destruct I as [I1 I2 I3 I4 I5 I6]. split; cbn [with_told th_told th_lib th_cache th_answers].
    + rewrite !(cons_app _ _ (_ :: _)). repeat (apply st_used; [eapply own_in; [exact O|cbn; tauto]|]). exact I1.
    + exact I2.
    + intros a H. apply in_app_or in H as [H|[[= ->]|[]]]; auto.
    + rewrite !made_app. cbn [made flat_map]. rewrite app_nil_r. exact I4.
    + rewrite !made_app. cbn [made flat_map]. rewrite app_nil_r. exact I5.
    + rewrite !made_app. cbn [made flat_map]. rewrite app_nil_r. exact I6.
  - destruct (negb (mapped f)).
    { destruct I as [I1 I2 I3 I4 I5 I6]. split; cbn [with_told th_told th_lib th_cache th_answers]; auto. intros a H. apply in_app_or in H as [H|[H|[]]]; [auto|discriminate]. }
    assert (S1 : st (th_told w ++ [Used Library (th_lib w)]) (kept (th_lib w) (th_cache w) g)) by (apply st_used; [left; reflexivity|apply (fi_st I)]).
    assert (M1 : forall k, made k (th_told w ++ [Used Library (th_lib w)]) = made k (th_told w)) by (intros k; rewrite made_app; apply app_nil_r).
    set (tr1 := th_told w ++ [Used Library (th_lib w)]) in *. destruct (negb (succeeds tr1)).
    { destruct I as [I1 I2 I3 I4 I5 I6]. split; cbn [th_told th_lib th_cache th_answers]; rewrite ?M1; auto. intros a H. apply in_app_or in H as [H|[H|[]]]; [auto|discriminate]. }
    set (n := name tr1 Face). assert (N : n <> 0%Z) by apply fresh. unfold harfbuzz_font_create, owner_move, owner_assign.
    set (tr2 := tr1 ++ [Made Face n]). set (fc := name (tr2 ++ [Used Face n]) HbFace). set (tr3 := tr2 ++ [Used Face n] ++ [Made HbFace fc]).
    set (h := name tr3 HbFont). assert (Nh : h <> 0%Z) by apply fresh. set (tr4 := tr3 ++ [Made HbFont h; Referenced HbFace fc]). set (im := name tr4 Impl).
    cbn [owner_end no_owner ow_face ow_font Z.eqb]. set (o := {| ow_face := n; ow_font := h; ow_impl := im; ow_hbface := fc |}).
    assert (S4 : st tr4 ((HbFace, fc) :: (HbFont, h) :: (HbFace, fc) :: (Face, n) :: kept (th_lib w) (th_cache w) g)).
    { unfold tr4. rewrite cons_app. apply st_ref; [right; left; reflexivity|]. apply st_made with (name := name); [exact fresh|reflexivity|]. unfold tr3. rewrite app_assoc. apply st_made with (name := name); [exact fresh|reflexivity|]. apply st_used; [left; reflexivity|]. apply st_made with (name := name); [exact fresh|reflexivity|exact S1]. }
    assert (S5 : st ((tr4 ++ [Made Impl im; Used HbFont h; Used Impl im; Used Face n]) ++ [Used Face n; Used HbFont h; Used Impl im; Used Face n]) ((Impl, im) :: (HbFace, fc) :: (HbFont, h) :: (HbFace, fc) :: (Face, n) :: kept (th_lib w) (th_cache w) g)).
    { rewrite !(cons_app _ _ (_ :: _)). repeat (apply st_used; [cbn [In]; tauto|]). apply st_made with (name := name); [exact fresh|reflexivity|exact S4]. }
    assert (MH : length (made HbFace ((tr4 ++ [Made Impl im; Used HbFont h; Used Impl im; Used Face n]) ++ [Used Face n; Used HbFont h; Used Impl im; Used Face n])) = S (length (made HbFace (th_told w)))).
    { rewrite <- M1. unfold tr4, tr3, tr2. rewrite !made_app. cbn. rewrite !app_nil_r, app_length. cbn. lia. }
    assert (MS : made Stroker ((tr4 ++ [Made Impl im; Used HbFont h; Used Impl im; Used Face n]) ++ [Used Face n; Used HbFont h; Used Impl im; Used Face n]) = made Stroker (th_told w)).
    { rewrite <- M1. unfold tr4, tr3, tr2. rewrite !made_app. cbn. rewrite !app_nil_r. reflexivity. }
    split; cbn [th_told th_lib th_cache th_answers].
    + eapply st_perm; [|exact S5]. unfold kept. cbn [flat_map snd own]. rewrite <- app_assoc. cbn [o ow_face ow_font ow_impl ow_hbface app].
      set (r := flat_map _ (th_cache w) ++ left_over g). 
      apply Permutation_trans with (l' := (Library, th_lib w) :: (Impl, im) :: (HbFace, fc) :: (HbFont, h) :: (HbFace, fc) :: (Face, n) :: r); [symmetry; apply (Permutation_middle [_; _; _; _; _])|]. apply perm_skip.
      apply Permutation_trans with (l' := (Face, n) :: (Impl, im) :: (HbFace, fc) :: (HbFont, h) :: (HbFace, fc) :: r); [symmetry; apply (Permutation_middle [_; _; _; _])|]. apply perm_skip.
      symmetry. apply (Permutation_middle [_; _]).
    + constructor; [split; assumption|apply (fi_full I)].
    + intros a H. apply in_app_or in H as [H|[[= <-]|[]]]; [right; apply (fi_answers I); exact H|left; reflexivity].
    + etransitivity; [exact MH|]. cbn [length]. f_equal. apply (fi_faces I).
    + eapply Nat.le_trans; [apply (fi_glyphs I)|]. apply Nat.eq_le_incl. symmetry. exact (f_equal (@length Z) MS).
    + intros X. etransitivity; [apply (fi_all I X)|]. symmetry. exact (f_equal (@length Z) MS).
Qed.
Lemma ft_step_inv w g o w' : ft_inv w g -> ft_step name succeeds mapped w o = Ok w' -> exists g', ft_inv w' g'.
Proof.
  intros I E. destruct o as [f|i|i|i]; cbn [ft_step] in E.
  - injection E as <-. exists g. apply get_inv, I.
  - apply bind_ok in E as (a & Ea & E). injection E as <-. pose proof (answered_in _ I Ea) as O. exists g. destruct I as [I1 I2 I3 I4 I5 I6]. split; cbn [with_told th_told th_lib th_cache th_answers]; auto; rewrite ?made_app, ?app_nil_r; auto.
    rewrite !(cons_app _ _ (_ :: _)). repeat (apply st_used; [eapply own_in; [exact O|cbn; tauto]|]). exact I1.
  - apply bind_ok in E as (a & Ea & E). apply bind_ok in E as (tr & Et & E). injection E as <-. pose proof (answered_in _ I Ea) as O.
    destruct (@picture_ok _ _ _ _ (fi_st I) (own_in _ _ _ O (or_introl eq_refl)) Et) as (g' & S0 & L & A & MH & MS). exists (g' ++ g). apply told_inv; assumption.
  - apply bind_ok in E as (a & Ea & E). apply bind_ok in E as (tr & Et & E). injection E as <-. pose proof (answered_in _ I Ea) as O.
    destruct (@curve_ok _ _ _ _ (fi_st I) (own_in _ _ _ O (or_introl eq_refl)) Et) as (g' & S0 & L & A & MH & MS). exists (g' ++ g). apply told_inv; assumption.
Qed.
Lemma ft_run_inv os : forall w g w', ft_inv w g -> ft_run name succeeds mapped w os = Ok w' -> exists g', ft_inv w' g'.
Proof.
  induction os as [|o os IH]; intros w g w' I E; cbn [ft_run] in E; [injection E as <-; eauto|]. apply bind_ok in E as (w1 & E1 & E). destruct (ft_step_inv _ I E1) as (g1 & I1). eapply IH; eassumption.
Qed.

(** The end of a thread. *)
Lemma end_st (c : list (Z * ft_owner)) : forall tr r, Forall (fun x => full (snd x)) c -> st tr (flat_map (fun x => own (snd x)) c ++ r) ->
  st (fold_left (fun tr c => owner_end tr (snd c)) c tr) (map (fun x => (HbFace, ow_hbface (snd x))) c ++ r).
Proof.
  induction c as [|x c IH]; intros tr r F S0; [exact S0|]. inversion_clear F as [|? ? [N1 N2] F']. cbn [fold_left map app].
  eapply st_perm; [symmetry; apply Permutation_middle|]. apply IH; [exact F'|]. eapply st_perm; [apply Permutation_middle|]. unfold owner_end. apply Z.eqb_neq in N1, N2. rewrite N1, N2.
  rewrite 2(cons_app _ _ (_ :: _)). do 4 (eapply st_rel; [apply Permutation_refl|]). exact S0.
Qed.
Lemma thread_end_st order w g : (forall l, Permutation (order l) l) -> ft_inv w g ->
  st (thread_end order w) (map (fun x => (HbFace, ow_hbface (snd x))) (order (th_cache w)) ++ left_over g).
Proof.
  intros P I. unfold thread_end. eapply st_rel; [apply Permutation_sym, Permutation_middle|]. apply end_st.
  - eapply Permutation_Forall; [symmetry; apply P|apply (fi_full I)].
  - eapply st_perm; [|apply (fi_st I)]. unfold kept. etransitivity; [apply Permutation_middle|]. apply Permutation_app_tail. apply Permutation_flat_map. symmetry. apply P.
Qed.
Lemma how_many_perm k l l' : Permutation l l' -> how_many k l = how_many k l'.
Proof. intros P. apply Permutation_length, filter_perm, P. Qed.
Lemma how_many_app k l l' : how_many k (l ++ l') = how_many k l + how_many k l'.
Proof. unfold how_many. rewrite filter_app. apply app_length. Qed.
Lemma how_many_all A k (f : A -> Z) l : how_many k (map (fun x => (k, f x)) l) = length l.
Proof. induction l as [|x l IH]; [reflexivity|]. unfold how_many in *. cbn. unfold is_kind at 1. cbn. destruct (ft_kind_eq_dec k k); [|congruence]. cbn. f_equal. exact IH. Qed.
Lemma how_many_none A k k' (f : A -> Z) l : k <> k' -> how_many k (map (fun x => (k', f x)) l) = 0.
Proof. intros N. induction l as [|x l IH]; [reflexivity|]. unfold how_many in *. cbn. unfold is_kind at 1. cbn. destruct (ft_kind_eq_dec k k'); [congruence|]. exact IH. Qed.

(** Nothing goes wrong if every call succeeds. *)
Lemma ft_step_defined w o : (forall tr, succeeds tr = true) -> font_answered w o -> exists w', ft_step name succeeds mapped w o = Ok w'.
Proof.
  intros A N. destruct o as [f|i|i|i]; cbn [ft_step]; [eauto|..]; destruct N as [a N]; unfold answered; rewrite N; cbn [obind]; [eauto|..].
  - unfold rasterize_glyph_outline, rasterize_outline_internal, stroke. rewrite !A. cbn. rewrite !A. cbn. eauto.
  - unfold load_glyph_outline_curve, load_outline_curve_internal, stroke. rewrite !A. cbn. rewrite !A. cbn. eauto.
Qed.
End Ft.

(** A face stays in the cache. *)
Definition in_cache (w : ft_thread) (f : Z) (o : ft_owner) : Prop := exists k, find (fun c => (fst c =? f)%Z) (th_cache w) = Some (k, o).
Lemma get_cached name succeeds mapped w f : exists a, th_answers (get_font_data name succeeds mapped w f) = th_answers w ++ [a] /\
  forall o, a = Some o -> in_cache (get_font_data name succeeds mapped w f) f o.
Proof.
  unfold get_font_data, in_cache. destruct (find (fun c => (fst c =? f)%Z) (th_cache w)) as [[f' o]|] eqn:Fd.
  - exists (Some o). split; [reflexivity|]. intros o' [= <-]. exists f'. exact Fd.
  - destruct (negb (mapped f)); [exists None; split; [reflexivity|discriminate]|]. destruct (negb (succeeds _)); [exists None; split; [reflexivity|discriminate]|].
    unfold harfbuzz_font_create, owner_move, owner_assign. eexists. split; [cbn [th_answers]; reflexivity|]. intros o [= <-]. cbn [th_cache find fst]. rewrite Z.eqb_refl. eauto.
Qed.
Lemma step_cached name succeeds mapped w op w' f o : ft_step name succeeds mapped w op = Ok w' -> in_cache w f o -> in_cache w' f o.
Proof.
  intros E [k C]. destruct op as [f'|i|i|i]; cbn [ft_step] in E.
  - injection E as <-. unfold get_font_data, in_cache. destruct (find (fun c => (fst c =? f')%Z) (th_cache w)) as [[k' o']|] eqn:Fd; [cbn [th_cache]; eauto|].
    destruct (negb (mapped f')); [cbn [th_cache]; eauto|]. destruct (negb (succeeds _)); [cbn [th_cache]; eauto|]. unfold harfbuzz_font_create, owner_move, owner_assign. cbn [th_cache find fst].
    destruct (Z.eqb_spec f' f) as [->|N]; [congruence|]. eauto.
  - apply bind_ok in E as (a & _ & E). injection E as <-. exists k. exact C.
  - apply bind_ok in E as (a & _ & E). apply bind_ok in E as (tr & _ & E). injection E as <-. exists k. exact C.
  - apply bind_ok in E as (a & _ & E). apply bind_ok in E as (tr & _ & E). injection E as <-. exists k. exact C.
Qed.
Lemma run_cached name succeeds mapped os : forall w w' f o, ft_run name succeeds mapped w os = Ok w' -> in_cache w f o -> in_cache w' f o.
Proof.
  induction os as [|op os IH]; intros w w' f o E C; cbn [ft_run] in E; [injection E as <-; exact C|]. apply bind_ok in E as (w1 & E1 & E). eapply IH; [exact E|]. eapply step_cached; eassumption.
Qed.
