From Coq Require Import ZifyBool ZifyNat.
From Verif Require Import Base BaseFacts BuilderModel FontModel FontSpec.
Open Scope Z_scope.

Section Cache.
Variable ft_advance : Z -> Z -> Z -> Z.
Variable space_glyph : Z -> Z.
Variable can_load : Z -> bool.
Notation get := (get_font_data ft_advance space_glyph can_load).
Notation step := (cache_step ft_advance space_glyph can_load).
Notation steps := (cache_steps ft_advance space_glyph can_load).

Lemma put_same h o c : cache_find h (cache_put h o c) = Some o.
Proof. induction c as [|[k x] c IH]; cbn; [rewrite Z.eqb_refl; reflexivity|]. destruct (k =? h) eqn:E; cbn; rewrite E; auto. Qed.
Lemma put_other h k o c : h <> k -> cache_find h (cache_put k o c) = cache_find h c.
Proof.
  intros N. induction c as [|[j x] c IH]; cbn; [destruct (Z.eqb_spec k h); congruence|]. destruct (j =? k) eqn:E; cbn; destruct (j =? h) eqn:F; auto. lia.
Qed.
Definition consistent (h : Z) (o : owner) : Prop := forall g v, advance_find g (ow_advances o) = Some v -> v = ft_advance h (ow_ft o) g.
(** What the cache has of a face after the requests. *)
Definition state_ok (c : cache) (h : Z) (last : option Z) : Prop :=
  match last with
  | None => cache_find h c = None
  | Some eff =>
      if can_load h
      then exists o, cache_find h c = Some o /\ (ow_size o = 0 \/ (ow_size o = ow_ft o /\ ow_hb o = ow_ft o)) /\ consistent h o /\ (eff <> 0 -> ow_ft o = eff)
      else cache_find h c = None
  end.
Lemma advance_spec h o g v o' : consistent h o -> glyph_advance ft_advance h o g = (v, o') ->
  v = ft_advance h (ow_ft o) g /\ consistent h o' /\ ow_ft o' = ow_ft o /\ ow_size o' = ow_size o /\ ow_hb o' = ow_hb o.
Proof.
  intros C E. unfold glyph_advance in E. destruct (advance_find g (ow_advances o)) as [x|] eqn:F; inversion E; subst; clear E.
  - split; [apply C; exact F|]. auto.
  - split; [reflexivity|]. cbn. split; [|auto]. intros k v. cbn. destruct (g =? k) eqn:K; [|apply C]. intros H. inversion H. replace k with g by lia. reflexivity.
Qed.
Lemma resize_spec h o n : (ow_size o = 0 \/ (ow_size o = ow_ft o /\ ow_hb o = ow_ft o)) -> consistent h o ->
  let o' := resize o n in (ow_size o' = 0 \/ (ow_size o' = ow_ft o' /\ ow_hb o' = ow_ft o')) /\ consistent h o' /\ (n <> 0 -> ow_ft o' = n /\ ow_hb o' = n).
Proof.
  intros S C. unfold resize. destruct (Z.eqb_spec (ow_size o) n) as [E|N]; cbn.
  - split; [exact S|]. split; [exact C|]. intros NZ. destruct S as [S|[S1 S2]]; lia.
  - split; [auto|]. split; [|auto]. intros g v. cbn. discriminate.
Qed.
Lemma get_spec c h size eff c' d last : state_ok c h last -> get c h size eff = (c', d) ->
  state_ok c' h (Some eff) /\
  (can_load h = false -> d = None) /\
  (can_load h = true -> exists x, d = Some x /\ (eff <> 0 -> dt_ft x = eff) /\ (eff <> 0 -> last <> None -> dt_hb x = eff)).
Proof.
  intros S E. unfold get_font_data in E. unfold state_ok in *. destruct (can_load h) eqn:L.
  - destruct last as [e0|].
    + destruct S as (o & F & SZ & C & _). rewrite F in E. inversion E; subst; clear E. destruct (resize_spec h o eff SZ C) as (A & B & D). cbv zeta in *.
      split; [|split; [discriminate|]].
      * exists (resize o eff). rewrite put_same. split; [reflexivity|]. split; [exact A|]. split; [exact B|]. apply D.
      * intros _. eexists. split; [reflexivity|]. cbn. split; [intros; apply D; assumption|intros NZ _; apply D; exact NZ].
    + rewrite S in E. set (o := {| ow_size := size; ow_ft := eff; ow_hb := 0; ow_space := 0; ow_advances := [] |}) in E.
      destruct (glyph_advance ft_advance h o (space_glyph h)) as [v o1] eqn:GA. assert (C0 : consistent h o) by (intros g x; cbn; discriminate).
      destruct (advance_spec _ _ _ _ _ C0 GA) as (V & C1 & F1 & S1 & H1). inversion E; subst; clear E. split; [|split; [discriminate|]].
      * eexists. rewrite put_same. split; [reflexivity|]. cbn. split; [left; reflexivity|]. split; [|intros _; rewrite F1; reflexivity]. intros g x. cbn. apply C1.
      * intros _. eexists. split; [reflexivity|]. cbn. split; [intros _; rewrite F1; reflexivity|congruence].
  - assert (F : cache_find h c = None) by (destruct last; exact S). rewrite F in E. inversion E; subst. split; [exact F|]. split; [reflexivity|discriminate].
Qed.
Lemma get_other c k size eff c' d h : h <> k -> get c k size eff = (c', d) -> cache_find h c' = cache_find h c.
Proof.
  intros N E. unfold get_font_data in E. destruct (cache_find k c); [inversion E; apply put_other; exact N|]. destruct (can_load k); [|inversion E; reflexivity].
  destruct (glyph_advance _ _ _ _) in E. inversion E. apply put_other. exact N.
Qed.
Lemma steps_spec h : forall os c last, state_ok c h last -> state_ok (steps c os) h (last_size os h last).
Proof.
  induction os as [|[k size eff|k g] os IH]; intros c last S; cbn [cache_steps last_size]; [exact S| |].
  - cbn [cache_step]. destruct (get c k size eff) as [c' d] eqn:E. cbn [fst]. apply IH. destruct (Z.eqb_spec k h) as [->|N].
    + apply (get_spec _ _ _ _ _ _ _ S E).
    + unfold state_ok. rewrite (get_other _ _ _ _ _ _ h (not_eq_sym N) E). exact S.
  - apply IH. cbn [cache_step]. destruct (cache_find k c) as [o|] eqn:F; cbn [fst]; [|exact S]. destruct (glyph_advance ft_advance k o g) as [v o'] eqn:GA. cbn [fst].
    destruct (Z.eq_dec h k) as [->|N]; [|unfold state_ok; rewrite put_other by exact N; exact S].
    unfold state_ok in *. destruct last as [e0|]; [|congruence]. destruct (can_load k); [|congruence]. destruct S as (o0 & F0 & A & B & D). assert (o0 = o) by congruence. subst o0.
    destruct (advance_spec _ _ _ _ _ B GA) as (_ & C1 & F1 & S1 & H1). exists o'. rewrite put_same. split; [reflexivity|]. rewrite S1, H1, F1. auto.
Qed.

Lemma served_size os h size eff : eff <> 0 -> can_load h = true ->
  exists d, snd (step (steps [] os) (QGet h size eff)) = AData (Some d) /\ dt_ft d = eff /\ (last_size os h None <> None -> dt_hb d = eff).
Proof.
  intros N L. cbn [cache_step]. destruct (get (steps [] os) h size eff) as [c' d] eqn:E. pose proof (steps_spec h os [] None eq_refl) as S.
  destruct (get_spec _ _ _ _ _ _ _ S E) as (_ & _ & X). destruct (X L) as (x & -> & A & B). exists x. cbn. auto.
Qed.
Lemma served_advance os h g eff : last_size os h None = Some eff -> eff <> 0 -> can_load h = true ->
  snd (step (steps [] os) (QAdvance h g)) = AAdvance (Some (ft_advance h eff g)).
Proof.
  intros LS N L. pose proof (steps_spec h os [] None eq_refl) as S. rewrite LS in S. unfold state_ok in S. rewrite L in S. destruct S as (o & F & _ & C & D). cbn [cache_step]. rewrite F.
  destruct (glyph_advance ft_advance h o g) as [v o'] eqn:GA. destruct (advance_spec _ _ _ _ _ C GA) as (-> & _). cbn. rewrite D by exact N. reflexivity.
Qed.
End Cache.
