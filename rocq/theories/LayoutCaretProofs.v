(** Caret offsets inside a run. *)
From Coq Require Import Lqa.
From Verif Require Import Base BaseFacts BinarySearchModel BinarySearchProofs PackingProofs LayoutModel LayoutSpec LayoutProofs
  LayoutGeomProofs.
Open Scope Z_scope.
Set Implicit Arguments.

Lemma vget_nth {A} (l : list A) i d : (i < length l)%nat -> vget l i = Ok (nth i l d).
Proof. intros H. apply vget_ok. apply nth_error_nth'. exact H. Qed.

Lemma nondecreasing_nth l d : nondecreasing l -> forall i j, (i <= j < length l)%nat -> nth i l d <= nth j l d.
Proof.
  induction l as [|a l IH]; intros H i j Hij; cbn [length] in Hij; [lia|].
  assert (Hl : nondecreasing l) by (destruct l; [exact Logic.I|apply H]).
  destruct i as [|i], j as [|j]; cbn [nth]; try lia.
  - destruct l as [|b l]; [cbn [length] in Hij; lia|]. destruct H as [Hab _].
    specialize (IH Hl 0%nat j). cbn [length] in *. change (nth 0 (b :: l) d) with b in IH. lia.
  - apply IH; [exact Hl|lia].
Qed.
Lemma qnondecreasing_nth l d : qnondecreasing l -> forall i j, (i <= j < length l)%nat -> (nth i l d <= nth j l d)%Q.
Proof.
  induction l as [|a l IH]; intros H i j Hij; cbn [length] in Hij; [lia|].
  assert (Hl : qnondecreasing l) by (destruct l; [exact Logic.I|apply H]).
  destruct i as [|i], j as [|j]; cbn [nth]; try lia.
  - apply Qle_refl.
  - destruct l as [|b l]; [cbn [length] in Hij; lia|]. destruct H as [Hab _].
    specialize (IH Hl 0%nat j). cbn [length] in *. change (nth 0 (b :: l) d) with b in IH.
    eapply Qle_trans; [exact Hab|apply IH; lia].
  - apply IH; [exact Hl|lia].
Qed.

Lemma length_run_xs r : length (run_xs r) = S (run_len r).
Proof. unfold run_xs, run_len. rewrite app_length, map_length. cbn [length]. lia. Qed.
Lemma length_run_chars r : length (run_chars r) = run_len r.
Proof. apply map_length. Qed.
Lemma length_logical_xs r : length (logical_xs r) = S (run_len r).
Proof. unfold logical_xs. destruct (sr_rtl r); rewrite ?rev_length; apply length_run_xs. Qed.
Lemma length_logical_chars r : length (logical_chars r) = run_len r.
Proof. unfold logical_chars. destruct (sr_rtl r); rewrite ?rev_length; apply length_run_chars. Qed.

(** Facts about a well-formed run in logical order. *)
Lemma run_ok_chars r k : run_ok r -> (k < run_len r)%nat -> sr_start r <= nth k (logical_chars r) (sr_end r) < sr_end r.
Proof.
  intros (_ & _ & _ & F & _) H.
  assert (F' : Forall (fun c => sr_start r <= c < sr_end r) (logical_chars r)).
  { unfold logical_chars. destruct (sr_rtl r); [apply Forall_rev|]; exact F. }
  rewrite Forall_forall in F'. apply F', nth_In. rewrite length_logical_chars. exact H.
Qed.
Lemma run_ok_sorted r i j : run_ok r -> (i <= j <= run_len r)%nat ->
  nth i (logical_chars r) (sr_end r) <= nth j (logical_chars r) (sr_end r).
Proof.
  intros H Hij. destruct (Nat.eq_dec j (run_len r)) as [->|Hj].
  - rewrite (nth_overflow (logical_chars r) (n := run_len r)) by (rewrite length_logical_chars; lia).
    destruct (Nat.eq_dec i (run_len r)) as [->|Hi].
    + rewrite nth_overflow by (rewrite length_logical_chars; lia). lia.
    + pose proof (@run_ok_chars r i H). lia.
  - destruct H as (_ & _ & _ & _ & M). apply nondecreasing_nth; [|rewrite length_logical_chars; lia].
    destruct (logical_chars r); [exact Logic.I|apply M].
Qed.
Lemma run_ok_first r : run_ok r -> nth 0 (logical_chars r) (sr_end r) = sr_start r.
Proof. intros (_ & _ & _ & _ & M). destruct (logical_chars r); cbn [nth]; [congruence|apply M]. Qed.

(** The caret at [p]: after the [g] characters before [p] in logical order. *)
Definition caret_at (r : srun) (p : Z) (g : nat) (x : Q) : Prop :=
  (g <= run_len r)%nat /\
  (forall k, (k < g)%nat -> nth k (logical_chars r) (sr_end r) < p) /\
  (forall k, (g <= k)%nat -> p <= nth k (logical_chars r) (sr_end r)) /\
  match g with
  | O => (x == nth 0 (logical_xs r) 0)%Q
  | S k => (x == lerp (nth k (logical_xs r) 0) (nth (S k) (logical_xs r) 0) (nth k (logical_chars r) (sr_end r)) (char_after r k) p)%Q
  end.

Lemma lerp_end a b c n : c < n -> (lerp a b c n n == b)%Q.
Proof.
  intros H. unfold lerp. assert (N : ~ (inject_Z (n - c) == 0)%Q).
  { intros E. unfold Qeq in E. cbn [inject_Z Qnum Qden] in E. lia. }
  field. exact N.
Qed.
Lemma scale_bounds c n p : c < n -> c <= p <= n -> (0 <= inject_Z (p - c) / inject_Z (n - c) <= 1)%Q.
Proof.
  intros H Hp. assert (N : (0 < inject_Z (n - c))%Q) by (change 0%Q with (inject_Z 0); rewrite <- Zlt_Qlt; lia).
  split.
  - apply Qle_shift_div_l; [exact N|]. rewrite Qmult_0_l. change 0%Q with (inject_Z 0). rewrite <- Zle_Qle. lia.
  - apply Qle_shift_div_r; [exact N|]. rewrite Qmult_1_l. rewrite <- Zle_Qle. lia.
Qed.
Lemma scale_mono c n p q : c < n -> p <= q -> (inject_Z (p - c) / inject_Z (n - c) <= inject_Z (q - c) / inject_Z (n - c))%Q.
Proof.
  intros H Hp. assert (N : (0 < inject_Z (n - c))%Q) by (change 0%Q with (inject_Z 0); rewrite <- Zlt_Qlt; lia).
  unfold Qdiv. apply Qmult_le_compat_r; [rewrite <- Zle_Qle; lia|]. apply Qlt_le_weak, Qinv_lt_0_compat, N.
Qed.

Lemma wrap_sub a b : 0 <= b <= a -> a < 2 ^ 31 -> wrap32 (a - b) = a - b.
Proof. intros H1 H2. apply wrap_small. lia. Qed.

Section Run.
Variables (d : sdoc) (y : Q) (pre : list srun) (r : srun) (post : list srun).
Hypothesis E : doc_runs d = pre ++ r :: post.
Hypothesis OK : run_ok r.
Let l := layout_of d y.
Let G := count_glyphs pre.
Let i := length pre.
Let n := run_len r.

Lemma char_get k : (k < n)%nat -> vget (lo_chars l) (G + k) = Ok (nth k (run_chars r) (sr_end r)).
Proof.
  intros H. destruct (@doc_run_view d y pre r post E) as (_ & _ & _ & V & _). cbv zeta in V.
  unfold l, G. rewrite V by exact H. apply vget_nth. rewrite length_run_chars. exact H.
Qed.
Lemma pos_get k : (k <= n)%nat -> vget (lo_pos l) (2 * (G + i) + 2 * k) = Ok (nth k (run_xs r) 0%Q).
Proof.
  intros H. destruct (@doc_run_view d y pre r post E) as (_ & _ & _ & _ & _ & V & _). cbv zeta in V.
  unfold l, G, i. rewrite V by exact H. apply vget_nth. rewrite length_run_xs. unfold n in H. lia.
Qed.

Lemma ltr_caret p : sr_rtl r = false -> sr_start r <= p <= sr_end r ->
  exists g x, get_glyph_offset_ltr l i p = Ok x /\ caret_at r p g x.
Proof.
  intros Hd Hp. unfold get_glyph_offset_ltr.
  destruct (@doc_run_view d y pre r post E) as (Vr & Vg & Vp & _). cbv zeta in Vr, Vg, Vp. fold l G i in Vr, Vg, Vp.
  rewrite Vr, Vg, Vp. cbn [obind vrun_of ru_glyph_end ru_end]. fold n.
  assert (LC : logical_chars r = run_chars r) by (unfold logical_chars; rewrite Hd; reflexivity).
  assert (LX : logical_xs r = run_xs r) by (unfold logical_xs; rewrite Hd; reflexivity).
  assert (Hs : sr_end r < 2 ^ 31 /\ 0 <= sr_start r) by (destruct OK as (? & ? & _); lia).
  replace (G + n - G)%nat with n by lia.
  destruct (@binary_search_partition G n (fun k => nth (k - G) (run_chars r) (sr_end r) <? p)) with
    (cond := fun k => do c <- vget (lo_chars l) k; Ok (c <? p)) as (g & Eg & Rg & A & B).
  { intros a b Ha Hab Hb Hlt. pose proof (@run_ok_sorted r (a - G) (b - G) OK) as S. rewrite LC in S. fold n in S. lia. }
  { intros k Hk. replace k with (G + (k - G))%nat at 1 by lia. rewrite char_get by lia. reflexivity. }
  rewrite Eg. cbn [obind].
  set (h := (g - G)%nat). assert (Eh : g = (G + h)%nat) by (unfold h; lia). assert (Hh : (h <= n)%nat) by (unfold h; lia).
  clearbody h. subst g.
  assert (Lo : forall k, (k < h)%nat -> nth k (run_chars r) (sr_end r) < p).
  { intros k Hk. specialize (A (G + k)%nat). replace (G + k - G)%nat with k in A by lia. lia. }
  assert (Hi : forall k, (h <= k)%nat -> p <= nth k (run_chars r) (sr_end r)).
  { intros k Hk. destruct (Nat.ltb_spec k n).
    - specialize (B (G + k)%nat). replace (G + k - G)%nat with k in B by lia. lia.
    - rewrite nth_overflow by (rewrite length_run_chars; exact H). lia. }
  replace (G + h =? G + n)%nat with (h =? n)%nat by (destruct (Nat.eqb_spec h n), (Nat.eqb_spec (G + h) (G + n)); lia).
  assert (Nx : (if (h =? n)%nat then Ok (sr_end r) else vget (lo_chars l) (G + h)) = Ok (nth h (run_chars r) (sr_end r))).
  { destruct (Nat.eqb_spec h n) as [->|Hn].
    - rewrite nth_overflow by (rewrite length_run_chars; unfold n; lia). reflexivity.
    - apply char_get. lia. }
  rewrite Nx. cbn [obind]. set (nx := nth h (run_chars r) (sr_end r)) in *.
  assert (Hnx : p <= nx) by (apply Hi; lia).
  assert (Hnx2 : nx <= sr_end r).
  { pose proof (@run_ok_sorted r h n OK) as S. rewrite LC in S. unfold nx.
    rewrite (nth_overflow (run_chars r) (n := n)) in S by (rewrite length_run_chars; unfold n; lia). apply S. fold n. lia. }
  rewrite wrap_sub by lia.
  replace (G + h - G)%nat with h by lia. rewrite pos_get by exact Hh. cbn [obind].
  destruct h as [|k].
  - assert (Pn : nx = p).
    { pose proof (run_ok_first OK) as F. rewrite LC in F. unfold nx. lia. }
    replace (nx - p) with 0 by lia. cbn [andb Z.ltb]. change (0 <? 0) with false. cbn [andb].
    exists 0%nat. eexists. split; [reflexivity|]. split; [lia|]. rewrite LC, LX. split; [exact Lo|]. split; [exact Hi|]. reflexivity.
  - assert (Hc : nth k (run_chars r) (sr_end r) < p) by (apply Lo; lia).
    assert (Hc0 : sr_start r <= nth k (run_chars r) (sr_end r)).
    { pose proof (@run_ok_chars r k OK) as S. rewrite LC in S. fold n in S. lia. }
    exists (S k). destruct (0 <? nx - p) eqn:Ed; cbn [andb].
    + rewrite (proj2 (Nat.ltb_lt 0 (G + S k))) by lia. cbn [andb].
      replace (G + S k - 1)%nat with (G + k)%nat by lia. rewrite char_get by lia. cbn [obind].
      unfold zget. replace (_ <? 0) with false by lia.
      replace (Z.to_nat _) with (2 * (G + i) + 2 * k)%nat by lia. rewrite pos_get by lia. cbn [obind].
      rewrite (@wrap_sub nx (nth k (run_chars r) (sr_end r))) by lia. replace (nx - nth k (run_chars r) (sr_end r) - (nx - p)) with (p - nth k (run_chars r) (sr_end r)) by lia.
      rewrite wrap_small by lia.
      eexists. split; [reflexivity|]. split; [lia|]. rewrite LC, LX. split; [exact Lo|]. split; [exact Hi|].
      unfold lerp, char_after. rewrite LC. reflexivity.
    + cbn [andb]. eexists. split; [reflexivity|]. split; [lia|]. rewrite LC, LX. split; [exact Lo|]. split; [exact Hi|].
      assert (Pn : nx = p) by lia. unfold char_after. rewrite LC. fold nx. rewrite Pn. symmetry. apply lerp_end. exact Hc.
Qed.

Lemma rev_chars_nth k : sr_rtl r = true -> (k < n)%nat ->
  nth k (run_chars r) (sr_end r) = nth (n - 1 - k) (logical_chars r) (sr_end r).
Proof.
  intros Hd H. unfold logical_chars. rewrite Hd. rewrite rev_nth by (rewrite length_run_chars; fold n; lia).
  rewrite length_run_chars. fold n. f_equal. lia.
Qed.
Lemma rev_xs_nth k : sr_rtl r = true -> (k <= n)%nat -> nth k (run_xs r) 0%Q = nth (n - k) (logical_xs r) 0%Q.
Proof.
  intros Hd H. unfold logical_xs. rewrite Hd. rewrite rev_nth by (rewrite length_run_xs; fold n; lia).
  rewrite length_run_xs. fold n. f_equal. lia.
Qed.

Lemma rtl_caret p : sr_rtl r = true -> sr_start r <= p <= sr_end r ->
  exists g x, get_glyph_offset_rtl l i p = Ok x /\ caret_at r p g x.
Proof.
  intros Hd Hp. unfold get_glyph_offset_rtl.
  destruct (@doc_run_view d y pre r post E) as (Vr & Vg & Vp & _). cbv zeta in Vr, Vg, Vp. fold l G i in Vr, Vg, Vp.
  rewrite Vr, Vg, Vp. cbn [obind vrun_of ru_glyph_end ru_end]. fold n.
  assert (Hs : sr_end r < 2 ^ 31 /\ 0 <= sr_start r) by (destruct OK as (? & ? & _); lia).
  replace (G + n - G)%nat with n by lia.
  destruct (@binary_search_partition G n (fun k => p <=? nth (n - 1 - (k - G)) (logical_chars r) (sr_end r))) with
    (cond := fun k => do c <- vget (lo_chars l) k; Ok (p <=? c)) as (g & Eg & Rg & A & B).
  { intros a b Ha Hab Hb Hlt. pose proof (@run_ok_sorted r (n - 1 - (b - G)) (n - 1 - (a - G)) OK) as S. fold n in S. lia. }
  { intros k Hk. replace k with (G + (k - G))%nat at 1 by lia. rewrite char_get by lia. cbn [obind].
    rewrite rev_chars_nth by (assumption || lia). reflexivity. }
  rewrite Eg. cbn [obind].
  (* h characters are before [p] *)
  set (h := (n - (g - G))%nat). assert (Eh : g = (G + (n - h))%nat) by (unfold h; lia). assert (Hh : (h <= n)%nat) by (unfold h; lia).
  clearbody h. subst g.
  assert (Lo : forall k, (k < h)%nat -> nth k (logical_chars r) (sr_end r) < p).
  { intros k Hk. specialize (B (G + (n - 1 - k))%nat). replace (n - 1 - (G + (n - 1 - k) - G))%nat with k in B by lia. lia. }
  assert (Hi : forall k, (h <= k)%nat -> p <= nth k (logical_chars r) (sr_end r)).
  { intros k Hk. destruct (Nat.ltb_spec k n).
    - specialize (A (G + (n - 1 - k))%nat). replace (n - 1 - (G + (n - 1 - k) - G))%nat with k in A by lia. lia.
    - rewrite nth_overflow by (rewrite length_logical_chars; exact H). lia. }
  assert (Nx : (if (G + (n - h) =? G)%nat then Ok (sr_end r) else vget (lo_chars l) (G + (n - h) - 1)) = Ok (nth h (logical_chars r) (sr_end r))).
  { destruct (Nat.eqb_spec (G + (n - h)) G) as [He|Hn].
    - rewrite nth_overflow by (rewrite length_logical_chars; fold n; lia). reflexivity.
    - replace (G + (n - h) - 1)%nat with (G + (n - h - 1))%nat by lia. rewrite char_get by lia.
      rewrite rev_chars_nth by (assumption || lia). do 2 f_equal. lia. }
  rewrite Nx. cbn [obind]. set (nx := nth h (logical_chars r) (sr_end r)) in *.
  assert (Hnx : p <= nx) by (apply Hi; lia).
  assert (Hnx2 : nx <= sr_end r).
  { pose proof (@run_ok_sorted r h n OK) as S. unfold nx.
    rewrite (nth_overflow (logical_chars r) (n := n)) in S by (rewrite length_logical_chars; unfold n; lia). apply S. fold n. lia. }
  rewrite wrap_sub by lia.
  replace (G + (n - h) - G)%nat with (n - h)%nat by lia. rewrite pos_get by lia. cbn [obind].
  rewrite rev_xs_nth by (assumption || lia). replace (n - (n - h))%nat with h by lia.
  destruct h as [|k].
  - assert (Pn : nx = p).
    { pose proof (run_ok_first OK) as F. unfold nx. lia. }
    replace (nx - p) with 0 by lia. change (0 <? 0) with false. cbn [andb].
    exists 0%nat. eexists. split; [reflexivity|]. split; [lia|]. split; [exact Lo|]. split; [exact Hi|]. reflexivity.
  - assert (Hc : nth k (logical_chars r) (sr_end r) < p) by (apply Lo; lia).
    assert (Hc0 : sr_start r <= nth k (logical_chars r) (sr_end r)).
    { pose proof (@run_ok_chars r k OK) as S. fold n in S. lia. }
    exists (S k). destruct (0 <? nx - p) eqn:Ed; cbn [andb].
    + rewrite (proj2 (Nat.ltb_lt (G + (n - S k)) (G + n))) by lia. cbn [andb].
      rewrite char_get by lia. rewrite rev_chars_nth by (assumption || lia). cbn [obind].
      replace (n - 1 - (n - S k))%nat with k by lia.
      replace (2 * (G + i) + 2 * (n - S k + 1))%nat with (2 * (G + i) + 2 * (n - k))%nat by lia.
      rewrite pos_get by lia. rewrite rev_xs_nth by (assumption || lia). replace (n - (n - k))%nat with k by lia. cbn [obind].
      rewrite (@wrap_sub nx (nth k (logical_chars r) (sr_end r))) by lia. replace (nx - nth k (logical_chars r) (sr_end r) - (nx - p)) with (p - nth k (logical_chars r) (sr_end r)) by lia.
      rewrite wrap_small by lia.
      eexists. split; [reflexivity|]. split; [lia|]. split; [exact Lo|]. split; [exact Hi|].
      unfold lerp, char_after. reflexivity.
    + cbn [andb]. eexists. split; [reflexivity|]. split; [lia|]. split; [exact Lo|]. split; [exact Hi|].
      assert (Pn : nx = p) by lia. unfold char_after. fold nx. rewrite Pn. symmetry. apply lerp_end. exact Hc.
Qed.

Lemma run_caret p : sr_start r <= p <= sr_end r ->
  exists g x, get_glyph_offset_in_run l i p = Ok x /\ caret_at r p g x.
Proof.
  intros Hp. unfold get_glyph_offset_in_run.
  destruct (@doc_run_view d y pre r post E) as (Vr & _). cbv zeta in Vr. fold l G i in Vr. rewrite Vr.
  cbn [obind vrun_of ru_rtl]. destruct (sr_rtl r) eqn:Hd; [apply rtl_caret|apply ltr_caret]; assumption.
Qed.
End Run.

(** ** Consequences *)
Lemma reads_refl r a b : (a == b)%Q -> reads r a b.
Proof. unfold reads. intros H. destruct (sr_rtl r); rewrite H; apply Qle_refl. Qed.
Lemma reads_trans r a b c : reads r a b -> reads r b c -> reads r a c.
Proof. unfold reads. destruct (sr_rtl r); intros; lra. Qed.
Lemma reads_eq r a b a' b' : (a == a')%Q -> (b == b')%Q -> reads r a b -> reads r a' b'.
Proof. unfold reads. intros Ha Hb. destruct (sr_rtl r); rewrite Ha, Hb; auto. Qed.

Lemma logical_xs_mono r i j : qnondecreasing (run_xs r) -> (i <= j <= run_len r)%nat ->
  reads r (nth i (logical_xs r) 0%Q) (nth j (logical_xs r) 0%Q).
Proof.
  intros H Hij. unfold reads, logical_xs. destruct (sr_rtl r).
  - rewrite !rev_nth by (rewrite length_run_xs; lia). apply qnondecreasing_nth; [exact H|]. rewrite length_run_xs. lia.
  - apply qnondecreasing_nth; [exact H|]. rewrite length_run_xs. lia.
Qed.

Lemma lerp_reads r a b c n p q : reads r a b -> c < n -> p <= q -> reads r (lerp a b c n p) (lerp a b c n q).
Proof.
  intros H Hn Hp. pose proof (@scale_mono c n p q Hn Hp) as S. unfold reads, lerp in *.
  destruct (sr_rtl r); [apply Qplus_le_r|apply Qplus_le_r]; nra.
Qed.
Lemma lerp_start a b c n : (lerp a b c n c == a)%Q.
Proof. unfold lerp. replace (c - c) with 0 by lia. unfold Qdiv. change (inject_Z 0) with 0%Q. ring. Qed.

Lemma caret_interval r p k x : run_ok r -> caret_at r p (S k) x ->
  nth k (logical_chars r) (sr_end r) < p <= char_after r k.
Proof. intros OK (H & Lo & Hi & _). split; [apply Lo|apply Hi]; lia. Qed.

Lemma caret_reads r p g x : run_ok r -> qnondecreasing (run_xs r) -> caret_at r p g x ->
  reads r (nth (g - 1) (logical_xs r) 0%Q) x /\ reads r x (nth g (logical_xs r) 0%Q).
Proof.
  intros OK M C. destruct g as [|k].
  - destruct C as (_ & _ & _ & Ex). cbn [Nat.sub]. split; apply reads_refl; [symmetry|]; exact Ex.
  - pose proof (caret_interval OK C) as I. destruct C as (Hk & _ & _ & Ex). replace (S k - 1)%nat with k by lia.
    assert (R : reads r (nth k (logical_xs r) 0%Q) (nth (S k) (logical_xs r) 0%Q)) by (apply logical_xs_mono; [exact M|lia]).
    split.
    + eapply reads_eq; [apply (lerp_start _ (nth (S k) (logical_xs r) 0%Q) (nth k (logical_chars r) (sr_end r)) (char_after r k))
        |symmetry; exact Ex|]. apply lerp_reads; [exact R|lia|lia].
    + eapply reads_eq; [symmetry; exact Ex|apply lerp_end with (c := nth k (logical_chars r) (sr_end r)) (n := char_after r k); lia|].
      apply lerp_reads; [exact R|lia|lia].
Qed.

Lemma caret_mono r p q g h x z : run_ok r -> qnondecreasing (run_xs r) ->
  caret_at r p g x -> caret_at r q h z -> p <= q -> reads r x z.
Proof.
  intros OK M Cp Cq Hpq.
  assert (Hgh : (g <= h)%nat).
  { destruct (Nat.ltb_spec h g); [|lia]. destruct Cp as (_ & Lo & _). destruct Cq as (_ & _ & Hi & _).
    specialize (Lo h H). specialize (Hi h (le_n _)). lia. }
  destruct (Nat.eq_dec g h) as [->|Hne].
  - destruct h as [|k].
    + destruct Cp as (_ & _ & _ & Ep). destruct Cq as (_ & _ & _ & Eq). apply reads_refl. rewrite Ep, Eq. reflexivity.
    + pose proof (caret_interval OK Cp) as Ip. destruct Cp as (Hk & _ & _ & Ep). destruct Cq as (_ & _ & _ & Eq).
      eapply reads_eq; [symmetry; exact Ep|symmetry; exact Eq|]. apply lerp_reads; [|lia|lia].
      apply logical_xs_mono; [exact M|lia].
  - destruct (caret_reads OK M Cp) as [_ R1]. destruct (caret_reads OK M Cq) as [R2 _].
    eapply reads_trans; [exact R1|]. eapply reads_trans; [|exact R2]. apply logical_xs_mono; [exact M|].
    destruct Cq as (Hh & _). lia.
Qed.

Lemma caret_boundary r p g x k : run_ok r -> caret_at r p g x -> (k <= run_len r)%nat ->
  nth k (logical_chars r) (sr_end r) = p -> (forall j, (j < k)%nat -> nth j (logical_chars r) (sr_end r) < p) ->
  (x == nth k (logical_xs r) 0)%Q.
Proof.
  intros OK C Hk Ek Hj.
  assert (Egk : g = k).
  { destruct C as (_ & Lo & Hi & _). destruct (lt_eq_lt_dec g k) as [[H|H]|H]; [|exact H|].
    - specialize (Hi g (le_n _)). specialize (Hj g H). lia.
    - specialize (Lo k H). lia. }
  subst g. destruct k as [|k]; [apply C|].
  pose proof (caret_interval OK C) as I. destruct C as (_ & _ & _ & Ex). rewrite Ex.
  unfold char_after in *. rewrite Ek in *. apply lerp_end. lia.
Qed.

Lemma logical_first_last r : (if sr_rtl r then nth 0 (logical_xs r) 0 = sr_end_x r /\ nth (run_len r) (logical_xs r) 0 = run_first_x r
  else nth 0 (logical_xs r) 0 = run_first_x r /\ nth (run_len r) (logical_xs r) 0 = sr_end_x r)%Q.
Proof.
  assert (L : nth (run_len r) (run_xs r) 0%Q = sr_end_x r).
  { unfold run_xs. rewrite app_nth2 by (rewrite map_length; unfold run_len; lia). rewrite map_length.
    unfold run_len. rewrite Nat.sub_diag. reflexivity. }
  assert (F : nth 0 (run_xs r) 0%Q = run_first_x r) by (unfold run_first_x; destruct (run_xs r); reflexivity).
  unfold logical_xs. destruct (sr_rtl r); [|auto].
  rewrite !rev_nth by (rewrite length_run_xs; lia). rewrite length_run_xs.
  replace (S (run_len r) - 1)%nat with (run_len r) by lia. replace (S (run_len r) - S (run_len r))%nat with 0%nat by lia. auto.
Qed.

Lemma caret_bounds r p g x : run_ok r -> qnondecreasing (run_xs r) -> caret_at r p g x ->
  (run_first_x r <= x <= sr_end_x r)%Q.
Proof.
  intros OK M C. destruct (caret_reads OK M C) as [R1 R2]. pose proof (logical_first_last r) as FL.
  assert (Hg : (g <= run_len r)%nat) by apply C.
  pose proof (@logical_xs_mono r 0 (g - 1) M) as A. pose proof (@logical_xs_mono r g (run_len r) M) as B.
  unfold reads in *. destruct (sr_rtl r); destruct FL as [F1 F2]; rewrite F1 in A; rewrite F2 in B;
    (split; [|]); [eapply Qle_trans; [apply B; lia|exact R2]|eapply Qle_trans; [exact R1|apply A; lia]
                  |eapply Qle_trans; [apply A; lia|exact R1]|eapply Qle_trans; [exact R2|apply B; lia]].
Qed.

(** ** Selection ranges *)
Lemma range_of d y pre r post : doc_runs d = pre ++ r :: post -> run_ok r -> qnondecreasing (run_xs r) ->
  forall first last, first <= last ->
  let cf := Z.max (Z.min first (sr_end r)) (sr_start r) in let cl := Z.max (Z.min last (sr_end r)) (sr_start r) in
  exists a b, get_position_range_in_run (layout_of d y) (length pre) first last = Ok (a, b) /\
    (run_first_x r <= a)%Q /\ (a <= b)%Q /\ (b <= sr_end_x r)%Q /\
    get_glyph_offset_in_run (layout_of d y) (length pre) cf = Ok (if sr_rtl r then b else a) /\
    get_glyph_offset_in_run (layout_of d y) (length pre) cl = Ok (if sr_rtl r then a else b).
Proof.
  intros E OK M first last Hfl cf cl. unfold get_position_range_in_run.
  destruct (@doc_run_view d y pre r post E) as (Vr & _). cbv zeta in Vr. rewrite Vr. cbn [obind vrun_of ru_end ru_start ru_rtl].
  fold cf cl. assert (Hse : sr_start r <= sr_end r) by (destruct OK; lia).
  destruct (@run_caret d y pre r post E OK cf) as (g & x & Ex & Cx); [unfold cf; lia|].
  destruct (@run_caret d y pre r post E OK cl) as (h & z & Ez & Cz); [unfold cl; lia|].
  rewrite Ex, Ez. cbn [obind].
  pose proof (caret_bounds OK M Cx) as Bx. pose proof (caret_bounds OK M Cz) as Bz.
  assert (R : reads r x z) by (eapply caret_mono; [exact OK|exact M|exact Cx|exact Cz|unfold cf, cl; lia]).
  unfold reads in R. destruct (sr_rtl r).
  - exists z, x. repeat split; try lra; try reflexivity.
  - exists x, z. repeat split; try lra; try reflexivity.
Qed.
