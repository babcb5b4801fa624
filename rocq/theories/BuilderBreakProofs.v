(** Proofs about line breaking and tab stops of [LayoutBuilder]. *)
From Coq Require Import ZifyBool ZifyNat.
From Verif Require Import Base BinarySearchModel BinarySearchProofs LayoutModel LayoutSpec LayoutProofs BuilderModel BuilderSpec BuilderVisualProofs.
Open Scope Z_scope.
Set Implicit Arguments.

(** The call ends, with a result in [P] unless [U] allows undefined behaviour. *)
Definition returns {A} (U : Prop) (P : A -> Prop) (o : outcome A) : Prop :=
  match o with Ok x => P x | UB => U | OutOfFuel => False end.
Lemma returns_bind {A B} U (P : A -> Prop) (Q : B -> Prop) o f :
  returns U P o -> (forall x, P x -> returns U Q (f x)) -> returns U Q (obind o f).
Proof. destruct o; cbn; auto. Qed.
Lemma returns_impl {A} U (P Q : A -> Prop) o : returns U P o -> (forall x, P x -> Q x) -> returns U Q o.
Proof. destruct o; cbn; auto. Qed.

(** ** Sums of widths *)
Definition sumw (ws : list Z) (a b : nat) : Z := fold_right Z.add 0 (firstn (b - a) (skipn a ws)).
Lemma sumw_nil ws a b : (b <= a)%nat -> sumw ws a b = 0.
Proof. intros H. unfold sumw. replace (b - a)%nat with 0%nat by lia. reflexivity. Qed.
Lemma fold_add_app l1 l2 : fold_right Z.add 0 (l1 ++ l2) = fold_right Z.add 0 l1 + fold_right Z.add 0 l2.
Proof. induction l1; cbn; lia. Qed.
Lemma firstn_S_nth {A} (l : list A) : forall n x, nth_error l n = Some x -> firstn (S n) l = firstn n l ++ [x].
Proof.
  induction l as [|y l IH]; intros [|n] x H; cbn in H; try discriminate.
  - inversion H. reflexivity.
  - cbn [firstn app]. f_equal. exact (IH n x H).
Qed.
Lemma nth_error_skipn {A} (l : list A) : forall a i, nth_error (skipn a l) i = nth_error l (a + i).
Proof. induction l as [|y l IH]; intros [|a] i; cbn; auto. destruct i; reflexivity. Qed.
Lemma sumw_S ws a b x : (a <= b)%nat -> nth_error ws b = Some x -> sumw ws a (S b) = sumw ws a b + x.
Proof.
  intros H N. unfold sumw. replace (S b - a)%nat with (S (b - a)) by lia.
  rewrite (@firstn_S_nth _ _ (b - a) x) by (rewrite nth_error_skipn; replace (a + (b - a))%nat with b by lia; exact N).
  rewrite fold_add_app. cbn. lia.
Qed.
Lemma firstn_ext {A} (l1 l2 : list A) : forall n, (forall i, (i < n)%nat -> nth_error l1 i = nth_error l2 i) -> firstn n l1 = firstn n l2.
Proof.
  revert l2. induction l1 as [|x l1 IH]; intros l2 n H.
  - destruct n; [reflexivity|]. destruct l2; [reflexivity|]. specialize (H 0%nat ltac:(lia)). discriminate.
  - destruct n; [reflexivity|]. destruct l2; [specialize (H 0%nat ltac:(lia)); discriminate|].
    pose proof (H 0%nat ltac:(lia)) as H0. cbn in H0. inversion H0; subst. cbn [firstn]. f_equal. apply IH.
    intros i Hi. exact (H (S i) ltac:(lia)).
Qed.
Lemma sumw_ext ws1 ws2 a b : (forall i, (a <= i < b)%nat -> nth_error ws1 i = nth_error ws2 i) -> sumw ws1 a b = sumw ws2 a b.
Proof.
  intros H. unfold sumw. f_equal. apply firstn_ext. intros i Hi. rewrite !nth_error_skipn. apply H. lia.
Qed.
Lemma nth_list_set {A} (l : list A) : forall i x j, nth_error (list_set l i x) j = if ((i =? j) && (i <? length l))%nat then Some x else nth_error l j.
Proof.
  induction l as [|y l IH]; intros i x j; cbn [list_set].
  - cbn. rewrite andb_false_r. reflexivity.
  - destruct i as [|i], j as [|j]; cbn [list_set nth_error]; try reflexivity. rewrite IH. cbn [length]. reflexivity.
Qed.
Lemma length_list_set {A} (l : list A) : forall i x, length (list_set l i x) = length l.
Proof. induction l as [|y l IH]; intros [|i] x; cbn; auto. Qed.
Lemma list_set_same {A} (l : list A) : forall i x, nth_error l i = Some x -> list_set l i x = l.
Proof. induction l as [|y l IH]; intros [|i] x H; cbn in *; try discriminate; [inversion H; reflexivity|]. f_equal. auto. Qed.
Lemma vget_some {A} (l : list A) i x : nth_error l i = Some x -> vget l i = Ok x.
Proof. intros H. unfold vget. rewrite H. reflexivity. Qed.

(** ** Other widths *)
Lemma length_set_widths (l : list lglyph) : forall ws, length ws = length l -> length (set_widths l ws) = length l.
Proof. induction l as [|g l IH]; intros [|w ws] H; cbn in *; try lia. rewrite IH; lia. Qed.
Lemma set_widths_chars (l : list lglyph) : forall ws, length ws = length l -> map lg_char (set_widths l ws) = map lg_char l.
Proof. induction l as [|g l IH]; intros [|w ws] H; cbn in *; try lia; [reflexivity|]. rewrite IH by lia. reflexivity. Qed.
Lemma set_widths_widths (l : list lglyph) : forall ws, length ws = length l -> map lg_width (set_widths l ws) = ws.
Proof. induction l as [|g l IH]; intros [|w ws] H; cbn in *; try lia; [reflexivity|]. rewrite IH by lia. reflexivity. Qed.
Lemma set_widths_ids (l : list lglyph) : forall ws, length ws = length l -> map lg_id (set_widths l ws) = map lg_id l.
Proof. induction l as [|g l IH]; intros [|w ws] H; cbn in *; try lia; [reflexivity|]. rewrite IH by lia. reflexivity. Qed.
Lemma set_widths_secs (l : list lglyph) : forall ws, length ws = length l -> map lg_sec (set_widths l ws) = map lg_sec l.
Proof. induction l as [|g l IH]; intros [|w ws] H; cbn in *; try lia; [reflexivity|]. rewrite IH by lia. reflexivity. Qed.
Lemma count_below_chars c (l1 l2 : list lglyph) : map lg_char l1 = map lg_char l2 -> count_below c l1 = count_below c l2.
Proof.
  revert l2. induction l1 as [|g l1 IH]; intros [|h l2] H; cbn in H; try discriminate; [reflexivity|].
  inversion H as [[H1 H2]]. rewrite !count_below_cons, H1, (IH l2 H2). reflexivity.
Qed.
Lemma total_sum l : total l = fold_right Z.add 0 (map lg_width l).
Proof. induction l; cbn; [reflexivity|]. rewrite <- IHl. reflexivity. Qed.
Lemma firstn_map_ {A B} (f : A -> B) l k : firstn k (map f l) = map f (firstn k l).
Proof. revert k. induction l; intros [|k]; cbn; congruence. Qed.
Lemma skipn_map_ {A B} (f : A -> B) l k : skipn k (map f l) = map f (skipn k l).
Proof. revert k. induction l; intros [|k]; cbn; congruence. Qed.

Section Break.
Variables (text : list Z) (tabWidth : Z) (pixels : bool).
Variable p : para.
Variables ps pe : Z.
Hypothesis OK : para_ok ps pe p.
Hypothesis ReadText : exists m, pe <= m /\ single_byte_at text m.
Let gs := pa_glyphs p.
Let n := length gs.

(** Undefined behaviour is only left to tabs without a width. *)
Definition bad_tabs : Prop := exists g old, In g gs /\ zget text (lg_char g) = Ok TAB /\ forall w, tab_stop tabWidth pixels old w = UB.

Definition tab_at (i : nat) : Prop := exists g, nth_error gs i = Some g /\ zget text (lg_char g) = Ok TAB.

Lemma glyph_char g : In g gs -> ps <= lg_char g < pe.
Proof. intros H. pose proof OK as (_ & _ & F & _). rewrite Forall_forall in F. exact (F g H). Qed.
Lemma reads_to m i b : zget text m = Ok b -> 0 <= i <= m -> exists c, zget text i = Ok c.
Proof.
  unfold zget, vget. intros M I. rewrite (proj2 (Z.ltb_ge i 0)) by lia. rewrite (proj2 (Z.ltb_ge m 0)) in M by lia.
  destruct (nth_error text (Z.to_nat i)) eqn:E; [eauto|]. apply nth_error_None in E.
  destruct (nth_error text (Z.to_nat m)) eqn:F; [|discriminate]. assert (N : nth_error text (Z.to_nat m) <> None) by congruence. apply nth_error_Some in N. lia.
Qed.
Lemma read_text g : In g gs -> exists b, zget text (lg_char g) = Ok b.
Proof.
  intros H. pose proof (glyph_char g H). pose proof OK as (P0 & _). destruct ReadText as (m & PM & z & Z1 & _).
  apply (@reads_to m _ z Z1). lia.
Qed.

Lemma tab_width_spec cur ws i w : (i < n)%nat -> length ws = n ->
  returns bad_tabs (fun r => exists old, nth_error ws i = Some old /\ fst r = list_set ws i (snd r) /\
    (tab_at i -> tab_stop tabWidth pixels old w = Ok (snd r)) /\ (~ tab_at i -> snd r = old))
    (tab_width text (shaped_of p cur) tabWidth pixels ws i w).
Proof.
  intros Hi L. unfold tab_width. cbn [shaped_of sh_chars].
  destruct (nth_error gs i) as [g|] eqn:G; [|apply nth_error_None in G; unfold n in Hi; lia].
  destruct (nth_error ws i) as [old|] eqn:W; [|apply nth_error_None in W; lia].
  rewrite (@vget_some _ (map lg_char (pa_glyphs p)) i (lg_char g)) by (rewrite nth_error_map; fold gs; rewrite G; reflexivity).
  cbn [obind]. pose proof (nth_error_In _ _ G) as GI. destruct (read_text g GI) as [b B]. rewrite B. cbn [obind].
  rewrite (vget_some _ _ W). cbn [obind]. destruct (Z.eqb_spec b TAB) as [->|NT].
  - unfold tab_stop. destruct (_ =? 0) eqn:Z0.
    + cbn [obind returns]. exists g, old. split; [exact GI|]. split; [exact B|]. intros w'. unfold tab_stop. rewrite Z0. reflexivity.
    + cbn [obind]. unfold vset. rewrite (proj2 (Nat.ltb_lt _ _)) by lia. cbn [obind returns fst snd].
      exists old. split; [reflexivity|]. split; [reflexivity|]. split; [intros _; rewrite Z0; reflexivity|]. intros C. exfalso. apply C. exists g. auto.
  - cbn [returns fst snd]. exists old. split; [reflexivity|]. split; [symmetry; apply list_set_same; exact W|]. split; [|reflexivity].
    intros (g' & G' & T). rewrite G in G'. inversion G'; subst. rewrite B in T. inversion T. contradiction.
Qed.

(** [ws'] comes from [ws] by setting the tabs of [a, b), where the pen is at [w] at
    the left of [a]. *)
Definition tabbed (ws : list Z) (a b : nat) (w : Z) (ws' : list Z) : Prop :=
  length ws' = n /\ (forall i, (i < a \/ b <= i)%nat -> nth_error ws' i = nth_error ws i) /\
  (forall i, ~ tab_at i -> nth_error ws' i = nth_error ws i) /\
  (forall i, (a <= i < b)%nat -> tab_at i -> exists old new, nth_error ws i = Some old /\ nth_error ws' i = Some new /\
     tab_stop tabWidth pixels old (w + sumw ws' a i) = Ok new).

Lemma tabbed_refl ws a w : length ws = n -> tabbed ws a a w ws.
Proof. intros L. split; [exact L|]. split; [reflexivity|]. split; [reflexivity|]. intros. lia. Qed.

Lemma tabbed_step ws a b w ws1 gw ws2 : (a < b)%nat -> length ws = n -> (a < n)%nat ->
  (exists old, nth_error ws a = Some old /\ ws1 = list_set ws a gw /\
     (tab_at a -> tab_stop tabWidth pixels old w = Ok gw) /\ (~ tab_at a -> gw = old)) ->
  tabbed ws1 (S a) b (w + gw) ws2 -> tabbed ws a b w ws2 /\ nth_error ws2 a = Some gw /\
    forall i, (a < i)%nat -> sumw ws2 a i = gw + sumw ws2 (S a) i.
Proof.
  intros AB L AN (old & O & -> & T & NT) (L2 & OUT & NTS & TS).
  assert (NA : nth_error ws2 a = Some gw).
  { rewrite OUT by lia. rewrite nth_list_set, Nat.eqb_refl. rewrite (proj2 (Nat.ltb_lt a (length ws))) by lia. reflexivity. }
  assert (SS : forall i, (a < i)%nat -> sumw ws2 a i = gw + sumw ws2 (S a) i).
  { intros i Hi. induction i as [|i IH]; [lia|]. destruct (Nat.eq_dec i a) as [->|D].
    - rewrite (@sumw_S ws2 a a gw) by (lia || exact NA). rewrite !sumw_nil by lia. lia.
    - destruct (nth_error ws2 i) as [x|] eqn:X.
      + rewrite (@sumw_S ws2 a i x), (@sumw_S ws2 (S a) i x) by (lia || exact X). rewrite IH by lia. lia.
      + apply nth_error_None in X. unfold sumw in *.
        rewrite !firstn_all2 in * by (rewrite skipn_length; lia). rewrite <- IH; [reflexivity|lia]. }
  split; [|split; [exact NA|exact SS]].
  assert (DEC : tab_at a \/ ~ tab_at a).
  { unfold tab_at. destruct (nth_error gs a) as [g|] eqn:G; [|right; intros (g & G' & _); discriminate].
    destruct (read_text g (nth_error_In _ _ G)) as [b' B]. destruct (Z.eq_dec b' TAB) as [->|D]; [left; eauto|right].
    intros (g' & G' & T'). inversion G'; subst. rewrite B in T'. inversion T'. contradiction. }
  split; [exact L2|]. split; [|split].
  - intros i Hi. rewrite OUT by lia. rewrite nth_list_set. replace (a =? i)%nat with false by (symmetry; apply Nat.eqb_neq; lia). reflexivity.
  - intros i Hi. rewrite NTS by exact Hi. rewrite nth_list_set. destruct (Nat.eqb_spec a i) as [<-|D]; [|reflexivity].
    cbn [andb]. rewrite (proj2 (Nat.ltb_lt a (length ws))) by lia. rewrite O, (NT Hi). reflexivity.
  - intros i Hi TA. destruct (Nat.eq_dec i a) as [->|D].
    + exists old, gw. split; [exact O|]. split; [exact NA|]. rewrite sumw_nil by lia. rewrite Z.add_0_r. exact (T TA).
    + destruct (TS i ltac:(lia) TA) as (o & nw & O1 & O2 & O3). exists o, nw. split; [|split; [exact O2|]].
      * rewrite nth_list_set in O1. replace (a =? i)%nat with false in O1 by (symmetry; apply Nat.eqb_neq; lia). exact O1.
      * rewrite SS by lia. rewrite <- O3. f_equal. lia.
Qed.

Lemma apply_tabs_spec cur : forall k ws i w, (i + k <= n)%nat -> length ws = n ->
  returns bad_tabs (tabbed ws i (i + k) w) (apply_tabs text k (shaped_of p cur) tabWidth pixels ws i w).
Proof.
  induction k as [|k IH]; intros ws i w Hi L; cbn [apply_tabs].
  - cbn [returns]. rewrite Nat.add_0_r. apply tabbed_refl. exact L.
  - eapply returns_bind; [apply tab_width_spec; [lia|exact L]|]. intros [ws1 gw] (old & O & E & T & NT). cbn [fst snd] in *.
    eapply returns_impl; [apply IH; [lia|rewrite E, length_list_set; exact L]|]. intros ws2 T2.
    replace (S i + k)%nat with (i + S k)%nat in T2 by lia.
    assert (HS : exists old0 : Z, nth_error ws i = Some old0 /\ ws1 = list_set ws i gw /\ (tab_at i -> tab_stop tabWidth pixels old0 w = Ok gw) /\ (~ tab_at i -> gw = old0)).
    { exists old. auto. }
    destruct (@tabbed_step ws i (i + S k) w ws1 gw ws2 ltac:(lia) L ltac:(lia) HS T2) as (R & _). exact R.
Qed.

(** [fill_line] stops at the first glyph that does not fit. *)
Definition filled (area : Z) (ws : list Z) (g : nat) (w : Z) (r : list Z * nat * Z) : Prop :=
  let '(ws', g1, w1) := r in
  (g <= g1 <= n)%nat /\ tabbed ws g (Nat.min (S g1) n) w ws' /\ w1 = w + sumw ws' g g1 /\
  (forall k, (g < k <= g1)%nat -> w + sumw ws' g k <= area) /\
  (forall gw, nth_error ws' g1 = Some gw -> area < w1 + gw).

Lemma fill_line_spec cur area : forall fuel ws g w, (n - g <= fuel)%nat -> (g <= n)%nat -> length ws = n ->
  returns bad_tabs (filled area ws g w) (fill_line text fuel (shaped_of p cur) tabWidth pixels area ws g w).
Proof.
  induction fuel as [|fuel IH]; intros ws g w F G L; cbn [fill_line];
    replace (length (sh_glyphs (shaped_of p cur))) with n by (cbn [shaped_of sh_glyphs]; rewrite map_length; reflexivity).
  1,2: destruct (Nat.ltb_spec g n) as [C|C]; [try lia|].
  1,3: cbn [returns]; unfold filled; replace g with n by lia; replace (Nat.min (S n) n) with n by lia;
    split; [lia|]; split; [apply tabbed_refl; exact L|]; split; [rewrite sumw_nil by lia; lia|]; split; [intros; lia|];
    intros gw H; assert (HN : nth_error ws n <> None) by congruence; apply nth_error_Some in HN; lia.
  eapply returns_bind; [apply tab_width_spec; [lia|exact L]|]. intros [ws1 gw] (old & O & E & T & NT). cbn [fst snd] in *.
  assert (HS : exists old0 : Z, nth_error ws g = Some old0 /\ ws1 = list_set ws g gw /\ (tab_at g -> tab_stop tabWidth pixels old0 w = Ok gw) /\ (~ tab_at g -> gw = old0)).
  { exists old. auto. }
  assert (L1 : length ws1 = n) by (rewrite E, length_list_set; exact L).
  destruct (Z.ltb_spec area (w + gw)) as [C'|C'].
  - cbn [returns]. unfold filled. split; [lia|]. replace (Nat.min (S g) n) with (S g) by lia.
    destruct (@tabbed_step ws g (S g) w ws1 gw ws1 ltac:(lia) L C HS (@tabbed_refl ws1 (S g) (w + gw) L1)) as (R & NA & _).
    split; [exact R|]. split; [rewrite sumw_nil by lia; lia|]. split; [intros; lia|]. intros gw' H. rewrite NA in H. inversion H; subst. exact C'.
  - eapply returns_impl; [apply IH; [lia|lia|exact L1]|]. intros [[ws2 g1] w1] (H1 & H2 & H3 & H4 & H5). unfold filled.
    destruct (@tabbed_step ws g (Nat.min (S g1) n) w ws1 gw ws2 ltac:(lia) L C HS H2) as (R & NA & SS).
    split; [lia|]. split; [exact R|]. split; [rewrite SS by lia; lia|]. split; [|exact H5].
    intros k Hk. rewrite SS by lia. destruct (Nat.eq_dec k (S g)) as [->|D]; [rewrite sumw_nil by lia; lia|].
    specialize (H4 k ltac:(lia)). lia.
Qed.

(** ** Breaks *)
Variables (next_char : Z -> Z -> Z * Z) (hangs : Z -> bool) (preceding : Z -> Z -> Z -> Z).
Hypothesis Next : forall a, ps <= a < pe -> a < snd (next_char a pe) <= pe.
Let len := pe - ps.

Definition skipped (c : Z) (r : option Z * Z) : Prop :=
  exists h, hanging next_char hangs pe (ps + c) h /\ c <= h - ps <= len /\
  match r with
  | (Some c', _) => h < pe /\ hangs (fst (next_char h pe)) = false /\ ps + c' = snd (next_char h pe)
  | (None, c') => h = pe /\ c' = len
  end.
Lemma skip_hanging_spec : forall fuel c, (Z.to_nat (len - c) <= fuel)%nat -> 0 <= c <= len ->
  exists r, skip_hanging next_char hangs fuel ps len c = Ok r /\ skipped c r.
Proof.
  induction fuel as [|fuel IH]; intros c F C; cbn [skip_hanging]; destruct (Z.ltb_spec c len) as [L|L]; try lia.
  1,3: exists (None, c); split; [reflexivity|]; exists (ps + c); split; [constructor|]; unfold len in *; lia.
  replace (ps + len) with pe by (unfold len; lia).
  pose proof (Next (a := ps + c) ltac:(unfold len in *; lia)) as NX.
  destruct (next_char (ps + c) pe) as [chr nx] eqn:E. cbn [snd] in NX. destruct (hangs chr) eqn:H.
  - destruct (IH (nx - ps)) as (r & R & h & H1 & H2 & H3); [unfold len in *; lia|unfold len in *; lia|].
    exists r. split; [exact R|]. exists h. split; [|split; [lia|exact H3]].
    apply hanging_cons; [unfold len in *; lia|rewrite E; exact H|rewrite E; cbn [snd]]. replace nx with (ps + (nx - ps)) by lia. exact H1.
  - exists (Some (nx - ps), nx - ps). split; [reflexivity|]. exists (ps + c). split; [constructor|]. split; [unfold len in *; lia|].
    rewrite E. cbn [fst snd]. split; [unfold len in *; lia|]. split; [exact H|lia].
Qed.

Definition prev_break (c r : Z) : Prop :=
  exists h x, hanging next_char hangs pe (ps + c) h /\ c <= h - ps <= len /\ r = preceding ps len x /\
    ((h < pe /\ ps + x = snd (next_char h pe)) \/ (h = pe /\ len < x)).
Lemma u8_fwd_1_spec : 0 <= len -> exists i, u8_fwd_1 text ps len len = Ok i /\ len < i.
Proof.
  intros LN. destruct ReadText as (m & PM & z & Z1 & Z2). pose proof OK as (P0 & _).
  assert (PE : ps + len = pe) by (unfold len; lia).
  assert (RD : forall k, 0 <= k -> pe + k <= m \/ (exists c, zget text (pe + k - 1) = Ok c /\ 128 <= c /\ pe + k - 1 <= m) ->
    exists c, zget text (ps + (len + k)) = Ok c /\ pe + k <= m).
  { intros k K H. assert (L : pe + k <= m).
    { destruct H as [H|(c & C1 & C2 & C3)]; [exact H|]. destruct (Z.eq_dec (pe + k - 1) m) as [E|E]; [|lia]. rewrite E, Z1 in C1. inversion C1. lia. }
    destruct (@reads_to m (ps + (len + k)) z Z1 ltac:(lia)) as (c & C). eauto. }
  destruct (RD 0 ltac:(lia) ltac:(lia)) as (b & B & B'). unfold u8_fwd_1. replace (ps + len) with (ps + (len + 0)) by lia. rewrite B. cbn [obind].
  rewrite (proj2 (Z.eqb_neq (len + 1) len)) by lia. cbn [negb]. rewrite andb_true_r.
  destruct (u8_lead b) eqn:LB; [|eexists; split; [reflexivity|lia]].
  destruct (RD 1 ltac:(lia)) as (t & T & T').
  { right. exists b. replace (pe + 1 - 1) with (ps + (len + 0)) by lia. unfold u8_lead in LB. split; [exact B|lia]. }
  rewrite T. cbn [obind]. replace (len + 1 + 1) with (len + 2) by lia.
  assert (TR : u8_trail t = true -> exists u, zget text (ps + (len + 2)) = Ok u /\ pe + 2 <= m).
  { intros TT. apply RD; [lia|]. right. exists t. replace (pe + 2 - 1) with (ps + (len + 1)) by lia. unfold u8_trail in TT. split; [exact T|lia]. }
  rewrite !(proj2 (Z.eqb_neq (len + 2) len)) by lia. replace (len + 2 + 1) with (len + 3) by lia. rewrite !(proj2 (Z.eqb_neq (len + 3) len)) by lia.
  destruct ((224 <=? b) && (b <? 240)).
  { destruct (u8_lead3_t1 b t) eqn:L3; [|eexists; split; [reflexivity|lia]].
    apply andb_true_iff in L3. destruct (TR (proj1 L3)) as (u & U & _). rewrite U. cbn [obind]. eexists. split; [reflexivity|]. destruct (u8_trail u); lia. }
  destruct (b <? 224); [eexists; split; [reflexivity|destruct (u8_trail t); lia]|].
  destruct (u8_lead4_t1 b t) eqn:L4; [|eexists; split; [reflexivity|lia]].
  apply andb_true_iff in L4. destruct (TR (proj1 L4)) as (u & U & U'). rewrite U. cbn [obind].
  destruct (u8_trail u) eqn:TU; [|eexists; split; [reflexivity|lia]].
  destruct (RD 3 ltac:(lia)) as (v & V & _).
  { right. exists u. replace (pe + 3 - 1) with (ps + (len + 2)) by lia. unfold u8_trail in TU. split; [exact U|lia]. }
  rewrite V. cbn [obind]. eexists. split; [reflexivity|]. destruct (u8_trail v); lia.
Qed.
Lemma find_break_spec c : 0 <= c <= len ->
  exists r, find_previous_line_break text next_char hangs preceding ps len c = Ok r /\ prev_break c r.
Proof.
  intros C. unfold find_previous_line_break.
  destruct (@skip_hanging_spec (Z.to_nat (len - c)) c ltac:(lia) C) as ([[c'|] c2] & -> & h & H1 & H2 & H3); cbn [obind].
  - eexists. split; [reflexivity|]. exists h, c'. split; [exact H1|]. split; [exact H2|]. split; [reflexivity|]. left. tauto.
  - destruct H3 as [-> ->]. destruct (u8_fwd_1_spec ltac:(lia)) as (i & -> & I). cbn [obind]. eexists. split; [reflexivity|]. exists pe, i.
    split; [exact H1|]. split; [exact H2|]. split; [reflexivity|]. right. split; [reflexivity|exact I].
Qed.

Definition retried (ls le : Z) (g : nat) (r : Z * nat) : Prop :=
  let '(le', g') := r in
  (ls < le /\ le' = le /\ g' = g) \/
  (le <= ls /\ (g < g' <= n)%nat /\ ls < le' /\ (exists x, nth_error gs (g' - 1) = Some x /\ lg_char x = le') /\
     forall i x, (g <= i < g' - 1)%nat -> nth_error gs i = Some x -> lg_char x <= ls) \/
  (le <= ls /\ le' <= ls /\ g' = n /\ forall i x, (g <= i)%nat -> nth_error gs i = Some x -> lg_char x <= ls).
Lemma retry_break_spec cur ls : forall fuel le g, (n - g <= fuel)%nat -> (g <= n)%nat ->
  exists r, retry_break fuel (shaped_of p cur) ls le g = Ok r /\ retried ls le g r.
Proof.
  induction fuel as [|fuel IH]; intros le g F G; cbn [retry_break];
    replace (length (sh_glyphs (shaped_of p cur))) with n by (cbn [shaped_of sh_glyphs]; rewrite map_length; reflexivity);
    destruct (Z.leb_spec le ls) as [A|A], (Nat.ltb_spec g n) as [B|B]; cbn [andb]; try lia.
  all: try (eexists; split; [reflexivity|]; cbn; left; lia).
  1,3: eexists; split; [reflexivity|]; right; right; split; [exact A|]; split; [exact A|]; split; [lia|];
    intros i x Hi Hx; assert (HN : nth_error gs i <> None) by congruence; apply nth_error_Some in HN; fold n in HN; lia.
  destruct (nth_error gs g) as [x|] eqn:X; [|apply nth_error_None in X; fold n in X; lia].
  cbn [shaped_of sh_chars]. rewrite (@vget_some _ (map lg_char (pa_glyphs p)) g (lg_char x)) by (rewrite nth_error_map; fold gs; rewrite X; reflexivity).
  cbn [obind]. destruct (IH (lg_char x) (S g) ltac:(lia) ltac:(lia)) as ([le' g'] & R & C).
  exists (le', g'). split; [exact R|]. destruct C as [(C1 & -> & ->)|[(C1 & C2 & C3 & C4 & C5)|(C1 & C2 & -> & C4)]].
  - right. left. split; [exact A|]. split; [lia|]. split; [exact C1|]. split.
    + exists x. replace (S g - 1)%nat with g by lia. auto.
    + intros i y Hi. lia.
  - right. left. split; [exact A|]. split; [lia|]. split; [exact C3|]. split; [exact C4|].
    intros i y Hi Hy. destruct (Nat.eq_dec i g) as [->|D]; [rewrite X in Hy; inversion Hy; subst; exact C1|]. apply (C5 i y); [lia|exact Hy].
  - right. right. split; [exact A|]. split; [exact C2|]. split; [reflexivity|].
    intros i y Hi Hy. destruct (Nat.eq_dec i g) as [->|D]; [rewrite X in Hy; inversion Hy; subst; exact C1|]. apply (C4 i y); [lia|exact Hy].
Qed.

(** One line. *)
Hypothesis Bounded : forall x, preceding ps len x <= len.

Definition broken (area ls : Z) (r : Z * list Z) : Prop :=
  let '(le, ws) := r in
  exists ws1 g1 w1 g2 g3 c b le0, let g0 := count_below ls gs in
    filled area (map lg_width gs) g0 0 (ws1, g1, w1) /\
    g2 = (if (w1 =? 0) && (g1 <? n)%nat then S g1 else g1) /\
    (c = (if (g2 =? n)%nat then pe else lg_char (nth g2 gs {| lg_id := 0; lg_char := 0; lg_width := 0; lg_sec := 0 |}))) /\
    prev_break (c - ps) b /\ retried ls (b + ps) g2 (le0, g3) /\
    le = (if (le0 <=? ls) && (g3 =? n)%nat then pe else le0) /\
    tabbed ws1 g1 (g1 + (g3 - g1)) w1 ws /\ ls < le <= pe.

Lemma break_line_spec cur area ls : ps <= ls < pe ->
  returns bad_tabs (broken area ls) (break_line text next_char hangs preceding (shaped_of p cur) tabWidth pixels area ps len ls).
Proof.
  intros LS. unfold break_line.
  replace (length (sh_glyphs (shaped_of p cur))) with n by (cbn [shaped_of sh_glyphs]; rewrite map_length; reflexivity).
  assert (SG : binary_search 0 (length (sh_chars (shaped_of p cur))) (fun i => omap (fun c => c <? ls) (vget (sh_chars (shaped_of p cur)) i)) = Ok (count_below ls gs)).
  { cbn [shaped_of sh_chars]. rewrite map_length. apply (@search_glyphs p ps pe OK 0 (length (pa_glyphs p)) ls (fun c => c <? ls));
      [pose proof (count_below_le ls (pa_glyphs p)); lia|lia|reflexivity]. }
  rewrite SG. cbn [obind]. pose proof (count_below_le ls gs) as CB. fold n in CB.
  eapply returns_bind.
  { cbn [shaped_of sh_width]. apply fill_line_spec; [lia|exact CB|apply map_length]. }
  intros [[ws1 g1] w1] FL. pose proof FL as (F1 & F2 & F3 & F4 & F5).
  set (g2 := if (w1 =? 0) && (g1 <? n)%nat then S g1 else g1).
  assert (G2 : (g1 <= g2 <= n)%nat) by (unfold g2; destruct ((w1 =? 0) && (g1 <? n)%nat) eqn:E; lia).
  set (dflt := {| lg_id := 0; lg_char := 0; lg_width := 0; lg_sec := 0 |}).
  set (c := if (g2 =? n)%nat then pe else lg_char (nth g2 gs dflt)).
  assert (EC : (if (g2 =? n)%nat then Ok (len + ps) else vget (sh_chars (shaped_of p cur)) g2) = Ok c).
  { unfold c. destruct (Nat.eqb_spec g2 n) as [E|E]; [f_equal; unfold len; lia|]. cbn [shaped_of sh_chars]. apply vget_some.
    rewrite nth_error_map. fold gs. rewrite (nth_error_nth' gs dflt) by (fold n; lia). reflexivity. }
  rewrite EC. cbn [obind].
  assert (CR : 0 <= c - ps <= len).
  { unfold c. destruct (Nat.eqb_spec g2 n) as [E|E]; [unfold len; lia|].
    pose proof (glyph_char (nth g2 gs dflt) (nth_In gs dflt (n := g2) ltac:(fold n; lia))). unfold len. lia. }
  destruct (@find_break_spec (c - ps) CR) as (b & -> & PB). cbn [obind].
  destruct (@retry_break_spec cur ls n (b + ps) g2 ltac:(lia) ltac:(lia)) as ([le0 g3] & -> & RT). cbn [obind].
  assert (G3 : (g2 <= g3 <= n)%nat) by (destruct RT as [R|[R|R]]; lia).
  eapply returns_bind; [apply (@apply_tabs_spec cur (g3 - g1) ws1 g1 w1); [lia|exact (proj1 F2)]|].
  intros ws TB. cbn [returns broken]. exists ws1, g1, w1, g2, g3, c, b, le0. cbv zeta.
  replace (ps + len) with pe by (unfold len; lia).
  split; [exact FL|]. split; [reflexivity|]. split; [reflexivity|]. split; [exact PB|]. split; [exact RT|]. split; [reflexivity|]. split; [exact TB|].
  destruct PB as (h & x & _ & _ & -> & _). pose proof (Bounded x) as BD.
  destruct RT as [(R1 & -> & ->)|[(R1 & R2 & R3 & (y & Y & <-) & R5)|(R1 & R2 & -> & R4)]].
  - replace (preceding ps len x + ps <=? ls) with false by lia. cbn [andb]. unfold len in *. lia.
  - replace (lg_char y <=? ls) with false by lia. cbn [andb]. pose proof (glyph_char y (nth_error_In _ _ Y)). lia.
  - replace (le0 <=? ls) with true by lia. rewrite Nat.eqb_refl. cbn [andb]. lia.
Qed.

End Break.

Lemma skipn_add {A} (l : list A) : forall a b, skipn a (skipn b l) = skipn (b + a) l.
Proof. induction l as [|x l IH]; intros a [|b]; cbn; auto. apply skipn_nil. Qed.
Lemma tab_stop_multiple base w old new : 0 < base -> 0 <= w -> tab_stop base true old w = Ok new -> w + new = base * (w / base + 1).
Proof.
  intros B W. unfold tab_stop. replace (base =? 0) with false by lia. intros H. injection H as <-.
  rewrite Z.rem_mod_nonneg by lia. pose proof (Z.div_mod w base ltac:(lia)). lia.
Qed.
Lemma tab_at_dec text p i : tab_at text p i \/ ~ tab_at text p i.
Proof.
  unfold tab_at. destruct (nth_error (pa_glyphs p) i) as [g|]; [|right; intros (g & G & _); discriminate].
  destruct (zget text (lg_char g)) as [b| |] eqn:B; [destruct (Z.eq_dec b TAB) as [->|N]|..].
  1: left; eauto.
  all: right; intros (g' & G & T); inversion G; subst g'; rewrite B in T; inversion T; contradiction.
Qed.
(** In pixels a tab is never narrower than a pixel unit. *)
Lemma tabbed_rightward text tabWidth p ws a b w ws' : 0 < tabWidth -> length ws = length (pa_glyphs p) ->
  Forall (fun x => 0 <= x) ws -> tabbed text tabWidth true p ws a b w ws' -> Forall (fun x => 0 <= x) ws'.
Proof.
  intros TW L F (L' & T1 & T2 & T3). rewrite Forall_forall in *. intros x I. destruct (In_nth_error _ _ I) as (i & N).
  assert (K : nth_error ws' i = nth_error ws i -> 0 <= x) by (intros E; apply F; rewrite E in N; exact (nth_error_In _ _ N)).
  destruct (tab_at_dec text p i) as [T|T]; [|exact (K (T2 i T))].
  destruct (Nat.lt_ge_cases i a); [apply K, T1; lia|]. destruct (Nat.le_gt_cases b i); [apply K, T1; lia|].
  destruct (T3 i ltac:(lia) T) as (old & new & _ & N2 & S). rewrite N in N2. inversion N2; subst new.
  unfold tab_stop in S. replace (tabWidth =? 0) with false in S by lia. inversion S.
  pose proof (Z.rem_bound_abs (w + sumw ws' a i) tabWidth ltac:(lia)). lia.
Qed.
Lemma with_widths_rightward p ws : length ws = length (pa_glyphs p) -> Forall (fun x => 0 <= x) ws -> rightward (with_widths p ws).
Proof. intros L F. unfold rightward. cbn [with_widths pa_glyphs]. apply Forall_map with (f := lg_width) (P := fun x => 0 <= x). rewrite set_widths_widths by exact L. exact F. Qed.

Section Shape.
Variables (text : list Z) (tabWidth : Z) (pixels : bool).
Variable p : para.
Variables ps pe : Z.
Hypothesis OK : para_ok ps pe p.
Variables (next_char : Z -> Z -> Z * Z) (hangs : Z -> bool) (preceding : Z -> Z -> Z -> Z).
Let gs := pa_glyphs p.
Let n := length gs.
Variable ws : list Z.
Hypothesis LW : length ws = n.
Let p' := with_widths p ws.

Lemma with_widths_ok : para_ok ps pe p'.
Proof.
  pose proof OK as (A & B & C & D & E). split; [exact A|]. cbn [p' with_widths pa_glyphs pa_runs].
  split; [rewrite set_widths_chars by exact LW; exact B|]. split; [|split; [exact D|exact E]].
  assert (F : Forall (fun c => ps <= c < pe) (map lg_char (set_widths gs ws))).
  { rewrite set_widths_chars by exact LW. rewrite Forall_map. exact C. }
  rewrite Forall_map in F. exact F.
Qed.
Lemma with_widths_count c : count_below c (pa_glyphs p') = count_below c gs.
Proof. apply count_below_chars. cbn [p' with_widths pa_glyphs]. apply set_widths_chars. exact LW. Qed.
Lemma with_widths_shaped cur : with_width (shaped_of p cur) ws = shaped_of p' cur.
Proof.
  unfold with_width, shaped_of. cbn [sh_glyphs sh_chars sh_sec sh_cursor sh_runs p' with_widths pa_glyphs pa_runs pa_end_sec].
  rewrite set_widths_ids, set_widths_chars, set_widths_widths, set_widths_secs by exact LW. f_equal.
  apply map_ext. intros fe. unfold lrun_of. f_equal. symmetry. apply with_widths_count.
Qed.

(** The glyphs of [a, b) are a slice, and a prefix of it sums up its widths. *)
Lemma slice_total a b gs1 gs2 : a <= b -> glyphs_in p' a b = gs1 ++ gs2 ->
  total gs1 = sumw ws (count_below a gs) (count_below a gs + length gs1) /\ (count_below a gs + length gs1 <= count_below b gs)%nat.
Proof.
  intros AB E. pose proof with_widths_ok as (_ & S & _). rewrite (@glyphs_in_slice p' a b S AB) in E. rewrite !with_widths_count in E.
  pose proof (@count_below_mono a b gs AB) as M. pose proof (count_below_le b gs) as M2. fold n in M2.
  assert (LP : length (pa_glyphs p') = n) by (apply length_set_widths; exact LW).
  assert (LE : (length gs1 + length gs2 = count_below b gs - count_below a gs)%nat).
  { rewrite <- app_length, <- E, skipn_length, firstn_length, LP. lia. }
  split; [|lia].
  assert (G1 : gs1 = firstn (length gs1) (gs1 ++ gs2)) by (rewrite firstn_app, firstn_all, Nat.sub_diag, firstn_O, app_nil_r; reflexivity).
  rewrite total_sum. rewrite G1 at 1. rewrite <- E. rewrite <- firstn_map_, <- skipn_map_, <- firstn_map_.
  cbn [p' with_widths pa_glyphs]. rewrite set_widths_widths by exact LW. unfold sumw.
  rewrite skipn_firstn_comm, firstn_firstn. f_equal. f_equal. lia.
Qed.
Lemma slice_nth a b i g : a <= b -> nth_error (glyphs_in p' a b) i = Some g ->
  nth_error (pa_glyphs p') (count_below a gs + i) = Some g /\ (count_below a gs + i < count_below b gs)%nat.
Proof.
  intros AB E. pose proof with_widths_ok as (_ & S & _). rewrite (@glyphs_in_slice p' a b S AB) in E. rewrite !with_widths_count in E.
  rewrite nth_error_skipn in E. split; [exact (nth_error_firstn _ _ _ E)|].
  assert (HN : nth_error (firstn (count_below b gs) (pa_glyphs p')) (count_below a gs + i) <> None) by congruence.
  apply nth_error_Some in HN. rewrite firstn_length in HN. lia.
Qed.


Lemma nth_width i g : nth_error (pa_glyphs p') i = Some g -> nth_error ws i = Some (lg_width g) /\
  exists g0, nth_error gs i = Some g0 /\ lg_char g0 = lg_char g.
Proof.
  intros H. split.
  - rewrite <- (@set_widths_widths gs ws LW). rewrite nth_error_map. cbn [p' with_widths pa_glyphs] in H. fold gs in H. rewrite H. reflexivity.
  - assert (M : nth_error (map lg_char gs) i = Some (lg_char g)).
    { rewrite <- (@set_widths_chars gs ws LW). rewrite nth_error_map. cbn [p' with_widths pa_glyphs] in H. fold gs in H. rewrite H. reflexivity. }
    rewrite nth_error_map in M. destruct (nth_error gs i) as [g0|]; [|discriminate]. exists g0. split; [reflexivity|]. cbn in M. congruence.
Qed.

(** Characters grow with the index. *)
Lemma chars_sorted i j x y : (i <= j)%nat -> nth_error gs i = Some x -> nth_error gs j = Some y -> lg_char x <= lg_char y.
Proof.
  pose proof OK as (_ & S & _). fold gs in S.
  assert (G : forall (l : list Z) i j a b, nondecreasing l -> (i <= j)%nat -> nth_error l i = Some a -> nth_error l j = Some b -> a <= b).
  { clear. induction l as [|z l IH]; intros i j a b N H A B; [destruct i; discriminate|].
    destruct (nondecreasing_cons _ _ N) as [F N'].
    destruct i as [|i], j as [|j]; cbn in A, B; try lia.
    - inversion A; inversion B; subst. lia.
    - inversion A; subst. apply nth_error_In in B. rewrite Forall_forall in F. exact (F b B).
    - exact (IH i j a b N' ltac:(lia) A B). }
  intros H A B. apply (G (map lg_char gs) i j); [exact S|exact H| |]; rewrite nth_error_map; [rewrite A|rewrite B]; reflexivity.
Qed.
Lemma index_below i x c : nth_error gs i = Some x -> (lg_char x <? c) = (i <? count_below c gs)%nat.
Proof.
  intros H. pose proof OK as (_ & S & _). apply (@char_below gs S c i). apply vget_some. rewrite nth_error_map, H. reflexivity.
Qed.

Variables (area ls le : Z).
Hypothesis LS : ps <= ls < pe.

(** The part [ls, x) of a line whose first [k] glyphs are under control. *)
Lemma total_same_below ws1 g0 g1 : (forall i, (g0 <= i < g1)%nat -> nth_error ws i = nth_error ws1 i) ->
  forall i, (i <= g1)%nat -> sumw ws g0 i = sumw ws1 g0 i.
Proof. intros H i Hi. apply sumw_ext. intros j Hj. apply H. lia. Qed.

Lemma sumw_split a b c : (a <= b <= c)%nat -> sumw ws a c = sumw ws a b + sumw ws b c.
Proof.
  intros H. unfold sumw. rewrite <- fold_add_app. f_equal.
  replace (skipn b ws) with (skipn (b - a) (skipn a ws)) by (rewrite skipn_add; f_equal; lia).
  replace (c - a)%nat with ((b - a) + (c - b))%nat by lia. generalize (skipn a ws). intros l.
  generalize (b - a)%nat as i, (c - b)%nat as j. clear. induction l as [|x l IH]; intros [|i] j; cbn; try reflexivity.
  - destruct j; reflexivity.
  - f_equal. apply IH.
Qed.

Hypothesis BR : broken text tabWidth pixels p ps pe next_char hangs preceding area ls (le, ws).
Hypothesis Next : forall a, ps <= a < pe -> a < snd (next_char a pe) <= pe.

Lemma broken_same : same_but_tabs text p ws.
Proof.
  destruct BR as (ws1 & g1 & w1 & g2 & g3 & c & b & le0 & (F1 & F2 & _) & _ & _ & _ & _ & _ & TB & _).
  split; [exact LW|]. intros i g G T. assert (NT : ~ tab_at text p i).
  { intros (g' & G' & T'). fold gs in G. unfold gs in *. rewrite G in G'. inversion G'; subst. contradiction. }
  destruct TB as (_ & _ & T1 & _). rewrite (T1 i NT). destruct F2 as (_ & _ & T2 & _). rewrite (T2 i NT).
  rewrite nth_error_map. fold gs. unfold gs. rewrite G. reflexivity.
Qed.

Lemma broken_range : ls < le <= pe.
Proof. destruct BR as (ws1 & g1 & w1 & g2 & g3 & c & b & le0 & _ & _ & _ & _ & _ & _ & _ & H). exact H. Qed.

Variable opp : Z -> Prop.
Hypothesis Opp : forall x, is_preceding (fun o => opp (ps + o)) x (preceding ps (pe - ps) x).
Hypothesis OppChar : forall o a, opp o -> ps <= a < o -> snd (next_char a pe) <= o.
Hypothesis OppEnd : forall o, opp o -> o <= pe.

(** What is left of the line: up to [c] its glyphs are among those measured, or they
    all come from one character. *)
Lemma broken_shape : exists ws1 g1 w1 g3 c h, let g0 := count_below ls gs in
  filled text tabWidth pixels p area (map lg_width gs) g0 0 (ws1, g1, w1) /\ tabbed text tabWidth pixels p ws1 g1 (g1 + (g3 - g1)) w1 ws /\
  (g1 <= g3 <= n)%nat /\ ls <= c /\ hanging next_char hangs pe c h /\ le <= h /\
  (count_below (Z.min c le) gs <= g3)%nat /\
  ((count_below (Z.min c le) gs <= g1)%nat \/ (w1 = 0 /\ (count_below (Z.min c le) gs <= S g1)%nat) \/
   (forall i x, nth_error gs i = Some x -> lg_char x < le -> lg_char x <= ls)).
Proof.
  destruct BR as (ws1 & g1 & w1 & g2 & g3 & c & b & le0 & FL & E2 & EC & PB & RT & ELE & TB & RG). cbv zeta in FL. unfold retried in RT. fold gs in FL, RT, E2, EC. fold n in RT, E2, EC.
  pose proof FL as (F1 & _). fold gs in F1. fold n in F1.
  set (dflt := {| lg_id := 0; lg_char := 0; lg_width := 0; lg_sec := 0 |}) in EC.
  assert (G2 : (g1 <= g2 <= n)%nat) by (rewrite E2; destruct ((w1 =? 0) && (g1 <? n)%nat) eqn:E; lia).
  assert (G3 : (g2 <= g3 <= n)%nat) by (destruct RT as [R|[R|R]]; lia).
  assert (CG : g2 = n /\ c = pe \/ exists x, nth_error gs g2 = Some x /\ c = lg_char x).
  { rewrite EC. destruct (Nat.eqb_spec g2 n) as [E|E]; [left; auto|right]. exists (nth g2 gs dflt). split; [|reflexivity]. apply nth_error_nth'. fold n. lia. }
  assert (CB : forall x, x <= c -> (count_below x gs <= g2)%nat).
  { intros x Hx. pose proof (count_below_le x gs) as M. fold n in M. destruct CG as [[-> _]|(y & Y & ->)]; [exact M|].
    pose proof (@index_below g2 y x Y). lia. }
  assert (CL : ls <= c).
  { destruct CG as [[_ ->]|(y & Y & ->)]; [lia|]. pose proof (@index_below g2 y ls Y). lia. }
  assert (W : (g2 = g1)%nat \/ (w1 = 0 /\ g2 = S g1)).
  { rewrite E2. destruct ((w1 =? 0) && (g1 <? n)%nat) eqn:E; [right|left; reflexivity]. split; [lia|reflexivity]. }
  assert (G13 : (g1 <= g3 <= n)%nat) by lia.
  (* the part up to [c] *)
  assert (UP : forall h, hanging next_char hangs pe c h -> le <= h -> exists ws1 g1 w1 g3 c h, let g0 := count_below ls gs in
    filled text tabWidth pixels p area (map lg_width gs) g0 0 (ws1, g1, w1) /\ tabbed text tabWidth pixels p ws1 g1 (g1 + (g3 - g1)) w1 ws /\
    (g1 <= g3 <= n)%nat /\ ls <= c /\ hanging next_char hangs pe c h /\ le <= h /\
    (count_below (Z.min c le) gs <= g3)%nat /\
    ((count_below (Z.min c le) gs <= g1)%nat \/ (w1 = 0 /\ (count_below (Z.min c le) gs <= S g1)%nat) \/
     (forall i x, nth_error gs i = Some x -> lg_char x < le -> lg_char x <= ls))).
  { intros h H1 H2. exists ws1, g1, w1, g3, c, h. cbv zeta. specialize (CB (Z.min c le) ltac:(lia)).
    split; [exact FL|]. split; [exact TB|]. split; [exact G13|]. split; [exact CL|]. split; [exact H1|]. split; [exact H2|]. split; [lia|].
    destruct W as [W|[W1 W2]]; [left; lia|right; left; lia]. }
  (* one cluster *)
  assert (ONE : (count_below le gs <= g3)%nat -> (forall i x, nth_error gs i = Some x -> lg_char x < le -> lg_char x <= ls) ->
    exists ws1 g1 w1 g3 c h, let g0 := count_below ls gs in
    filled text tabWidth pixels p area (map lg_width gs) g0 0 (ws1, g1, w1) /\ tabbed text tabWidth pixels p ws1 g1 (g1 + (g3 - g1)) w1 ws /\
    (g1 <= g3 <= n)%nat /\ ls <= c /\ hanging next_char hangs pe c h /\ le <= h /\
    (count_below (Z.min c le) gs <= g3)%nat /\
    ((count_below (Z.min c le) gs <= g1)%nat \/ (w1 = 0 /\ (count_below (Z.min c le) gs <= S g1)%nat) \/
     (forall i x, nth_error gs i = Some x -> lg_char x < le -> lg_char x <= ls))).
  { intros H1 H2. exists ws1, g1, w1, g3, le, le. cbv zeta. rewrite Z.min_id.
    split; [exact FL|]. split; [exact TB|]. split; [exact G13|]. split; [lia|]. split; [constructor|]. split; [lia|]. split; [exact H1|]. auto. }
  destruct PB as (h & x & PB1 & PB2 & PB3 & PB4). replace (ps + (c - ps)) with c in PB1 by lia.
  destruct RT as [(R1 & -> & ->)|[(R1 & R2 & R3 & (y & Y & YE) & R5)|(R1 & R2 & -> & R4)]].
  - (* an opportunity *)
    replace (b + ps <=? ls) with false in ELE by lia. cbn [andb] in ELE. apply (UP h PB1).
    destruct (Opp x) as [_ O]. rewrite <- PB3 in O. destruct O as [[O1 O2]|O]; [|lia].
    destruct PB4 as [[Q1 Q2]|[Q1 Q2]]; [|lia]. destruct (Z.le_gt_cases le h) as [L|L]; [exact L|].
    pose proof (@OppChar (ps + b) h O1 ltac:(lia)). lia.
  - replace (le0 <=? ls) with false in ELE by lia. cbn [andb] in ELE. subst le0.
    destruct (Nat.eq_dec (g3 - 1) g2) as [E|E].
    + apply (UP h PB1). destruct CG as [[C1 _]|(z & Z1 & ->)]; [lia|]. rewrite E, Z1 in Y. inversion Y; subst. lia.
    + assert (CC : (count_below le gs <= g3 - 1)%nat) by (pose proof (@index_below (g3 - 1) y le Y); lia).
      apply ONE; [lia|]. intros i z Z1 Z2. pose proof (@index_below i z le Z1). 
      destruct (Nat.le_gt_cases g2 i) as [I1|I1]; [apply (R5 i z); [lia|exact Z1]|].
      destruct (nth_error gs g2) as [z2|] eqn:Z3; [|apply nth_error_None in Z3; fold n in Z3; lia].
      pose proof (R5 g2 z2 ltac:(lia) Z3). pose proof (@chars_sorted i g2 z z2 ltac:(lia) Z1 Z3). lia.
  - replace (le0 <=? ls) with true in ELE by lia. fold n in ELE. rewrite Nat.eqb_refl in ELE. cbn [andb] in ELE. subst le.
    destruct (Nat.eq_dec g2 n) as [E|E].
    + apply (UP h PB1). destruct CG as [[_ ->]|(z & Z1 & _)]; [lia|].
      exfalso. assert (HN : nth_error gs g2 <> None) by congruence. apply nth_error_Some in HN. fold n in HN. lia.
    + apply ONE; [exact (count_below_le pe gs)|]. intros i z Z1 Z2.
      destruct (Nat.le_gt_cases g2 i) as [I1|I1]; [exact (R4 i z I1 Z1)|].
      destruct (nth_error gs g2) as [z2|] eqn:Z3; [|apply nth_error_None in Z3; fold n in Z3; lia].
      pose proof (R4 g2 z2 ltac:(lia) Z3). pose proof (@chars_sorted i g2 z z2 ltac:(lia) Z1 Z3). lia.
Qed.

Lemma broken_breaks : breaks_well opp p' pe ls le.
Proof.
  destruct BR as (ws1 & g1 & w1 & g2 & g3 & c & b & le0 & FL & E2 & EC & PB & RT & ELE & TB & RG). unfold retried in RT. fold gs in RT, E2, EC. fold n in RT, E2, EC.
  set (dflt := {| lg_id := 0; lg_char := 0; lg_width := 0; lg_sec := 0 |}) in EC.
  destruct PB as (h & x & PB1 & PB2 & PB3 & PB4). unfold breaks_well.
  assert (XC : c - ps < x).
  { destruct PB4 as [[Q1 Q2]|[Q1 Q2]]; [|lia]. pose proof OK as (P0 & _). assert (ps <= h).
    { enough (ps <= c) by lia. rewrite EC. destruct (Nat.eqb_spec g2 n) as [E|E]; [lia|].
      assert (HN : (g2 < n)%nat). { pose proof FL as (F1 & _). fold gs in F1. fold n in F1. rewrite E2 in *. destruct ((w1 =? 0) && (g1 <? n)%nat) eqn:EE; lia. }
      pose proof OK as (_ & _ & F & _). rewrite Forall_forall in F. specialize (F _ (nth_In gs dflt HN)). cbv beta in F. lia. } pose proof (@Next h ltac:(lia)). lia. }
  destruct (Opp x) as [O1 O2]. rewrite <- PB3 in O1, O2.
  destruct RT as [(R1 & -> & ->)|[(R1 & R2 & R3 & (y & Y & YE) & R5)|(R1 & R2 & -> & R4)]].
  - left. replace (b + ps <=? ls) with false in ELE by lia. cbn [andb] in ELE. destruct O2 as [[O2 _]|O2]; [|lia].
    replace le with (ps + b) by lia. exact O2.
  - right. right. replace (le0 <=? ls) with false in ELE by lia. cbn [andb] in ELE. subst le0.
    split. { cbn [p' with_widths pa_glyphs]. rewrite set_widths_chars by exact LW. rewrite ELE. apply in_map. exact (nth_error_In _ _ Y). }
    intros g G GR OG. destruct (In_nth_error _ _ G) as (i & Gi). destruct (@nth_width i g Gi) as (_ & q & Q & QC).
    pose proof (O1 (lg_char g - ps)) as O1g. replace (ps + (lg_char g - ps)) with (lg_char g) in O1g by lia. specialize (O1g OG).
    pose proof (@index_below i q le Q) as IB. pose proof (@index_below (g3 - 1) y le Y) as IY.
    destruct (Nat.eq_dec (g3 - 1) g2) as [E|E].
    + rewrite (proj2 (Nat.eqb_neq g2 n)) in EC by lia. assert (NY : nth g2 gs dflt = y) by (apply nth_error_nth; rewrite <- E; exact Y). rewrite NY in EC. lia.
    + destruct (Nat.le_gt_cases g2 i) as [I1|I1]; [pose proof (R5 i q ltac:(lia) Q); lia|].
      destruct (nth_error gs g2) as [z2|] eqn:Z3; [|apply nth_error_None in Z3; fold n in Z3; lia].
      pose proof (R5 g2 z2 ltac:(lia) Z3). pose proof (@chars_sorted i g2 q z2 ltac:(lia) Q Z3). lia.
  - right. left. replace (le0 <=? ls) with true in ELE by lia. fold n in ELE. rewrite Nat.eqb_refl in ELE. exact ELE.
Qed.

Lemma broken_rightward : pixels = true -> 0 < tabWidth -> rightward p -> rightward p'.
Proof.
  intros PX TW RW. destruct BR as (ws1 & g1 & w1 & g2 & g3 & c & b & le0 & FL & _ & _ & _ & _ & _ & TB & _).
  destruct FL as (_ & TB1 & _). apply with_widths_rightward; [exact LW|]. rewrite PX in TB, TB1.
  eapply tabbed_rightward; [exact TW|exact (proj1 TB1)| |exact TB].
  eapply tabbed_rightward; [exact TW| | |exact TB1]; [apply map_length|]. apply Forall_map. exact RW.
Qed.

Lemma broken_fits : line_fits next_char hangs area p' pe ls le.
Proof.
  destruct broken_shape as (ws1 & g1 & w1 & g3 & c & h & (F1 & F2 & F3 & F4 & F5) & TB & G3 & CL & HG & LH & M3 & M). cbv zeta in *.
  fold gs in F1, F2, F3, F4, M. fold n in F1. pose proof broken_range as RG.
  set (g0 := count_below ls gs) in *.
  exists c, h. split; [|split; [exact HG|exact LH]].
  assert (XL : ls <= Z.min c le) by lia.
  assert (SAME : forall i, (i < g1)%nat -> nth_error ws i = nth_error ws1 i).
  { intros i Hi. destruct TB as (_ & T & _). apply T. lia. }
  assert (SUM : forall i, (i <= g1)%nat -> sumw ws g0 i = sumw ws1 g0 i).
  { intros i Hi. apply sumw_ext. intros j Hj. apply SAME. lia. }
  destruct M as [M|[[M0 M]|M]].
  - left. intros a1 a2 E NE. destruct (@slice_total ls (Z.min c le) a1 a2 XL E) as [T B]. fold g0 in T, B.
    assert (1 <= length a1)%nat by (destruct a1; [contradiction|cbn; lia]).
    rewrite T, SUM by lia. specialize (F4 (g0 + length a1)%nat ltac:(lia)). lia.
  - destruct (Nat.le_gt_cases (count_below (Z.min c le) gs) g1) as [M1|M1].
    + left. intros a1 a2 E NE. destruct (@slice_total ls (Z.min c le) a1 a2 XL E) as [T B]. fold g0 in T, B.
      assert (1 <= length a1)%nat by (destruct a1; [contradiction|cbn; lia]).
      rewrite T, SUM by lia. specialize (F4 (g0 + length a1)%nat ltac:(lia)). lia.
    + right. left. pose proof with_widths_ok as (_ & S & _).
      destruct (glyphs_in p' ls (Z.min c le)) as [|q0 qs] eqn:E using rev_ind.
      * exfalso. rewrite (@glyphs_in_slice p' ls (Z.min c le) S XL) in E. rewrite !with_widths_count in E. fold g0 in E.
        apply (f_equal (@length _)) in E. rewrite skipn_length, firstn_length in E. cbn [length] in E.
        assert (LP : length (pa_glyphs p') = n) by (apply length_set_widths; exact LW).
        pose proof (count_below_le (Z.min c le) gs) as M2. fold n in M2. lia.
      * exists qs, q0. split; [reflexivity|]. 
        destruct (@slice_total ls (Z.min c le) qs [q0] XL E) as [T B]. fold g0 in T, B. 
        destruct (@slice_total ls (Z.min c le) (qs ++ [q0]) [] XL ltac:(rewrite app_nil_r; exact E)) as [T' B']. fold g0 in B'.
        rewrite app_length in B'. cbn [length] in B'.
        assert (LL : (g0 + length qs = g1)%nat).
        { rewrite (@glyphs_in_slice p' ls (Z.min c le) S XL) in E. rewrite !with_widths_count in E. fold g0 in E.
          apply (f_equal (@length _)) in E. rewrite skipn_length, firstn_length, app_length in E. cbn [length] in E.
          assert (LP : length (pa_glyphs p') = n) by (apply length_set_widths; exact LW).
          pose proof (count_below_le (Z.min c le) gs) as M2. fold n in M2. lia. }
        rewrite T, LL, SUM by lia. lia.
  - right. right. intros x1 x2 I1 I2.
    assert (K : forall x0, In x0 (glyphs_in p' ls (Z.min c le)) -> lg_char x0 = ls).
    { intros x0 I0. unfold glyphs_in in I0. apply filter_In in I0. destruct I0 as [I0 I3].
      destruct (In_nth_error _ _ I0) as (i & Gi). destruct (@nth_width i x0 Gi) as (_ & q & Q & QC).
      pose proof (M i q Q). lia. }
    rewrite (K x1 I1), (K x2 I2). reflexivity.
Qed.


Lemma broken_tabs : pixels = true -> 0 < tabWidth -> line_tabs text next_char hangs tabWidth p' pe ls le.
Proof.
  intros PX TW.
  destruct broken_shape as (ws1 & g1 & w1 & g3 & c & h & (F1 & F2 & F3 & F4 & F5) & TB & G3 & CL & HG & LH & M3 & _). cbv zeta in *.
  fold gs in F1, F2, F3, F4. fold n in F1. pose proof broken_range as RG.
  set (g0 := count_below ls gs) in *.
  exists c, h. split; [|split; [exact HG|exact LH]].
  assert (XL : ls <= Z.min c le) by lia.
  assert (SAME : forall i, (i < g1)%nat -> nth_error ws i = nth_error ws1 i).
  { intros i Hi. destruct TB as (_ & T & _). apply T. lia. }
  assert (SUM : forall i, (i <= g1)%nat -> sumw ws g0 i = sumw ws1 g0 i).
  { intros i Hi. apply sumw_ext. intros j Hj. apply SAME. lia. }
  intros a1 g a2 E TG T0. destruct (@slice_total ls (Z.min c le) a1 (g :: a2) XL E) as [T B]. fold g0 in T, B.
  assert (NG : nth_error (glyphs_in p' ls (Z.min c le)) (length a1) = Some g) by (rewrite E, nth_error_app2, Nat.sub_diag by lia; reflexivity).
  destruct (@slice_nth ls (Z.min c le) (length a1) g XL NG) as [NP IB]. fold g0 in NP, IB.
  destruct (@nth_width _ _ NP) as (NW & q & Q & QC).
  assert (TA : tab_at text p (g0 + length a1)) by (exists q; split; [exact Q|rewrite QC; exact TG]).
  destruct (Nat.lt_ge_cases (g0 + length a1) g1) as [I|I].
  - destruct F2 as (_ & _ & _ & F2). destruct (F2 (g0 + length a1)%nat ltac:(fold gs; fold n; lia) TA) as (old & new & _ & N1 & N2).
    rewrite SAME, N1 in NW by lia. injection NW as NW. rewrite T, SUM by lia. rewrite <- NW. rewrite PX in N2.
    rewrite T, SUM in T0 by lia. apply (@tab_stop_multiple tabWidth _ old new TW T0 N2).
  - destruct TB as (_ & _ & _ & TB). destruct (TB (g0 + length a1)%nat ltac:(lia) TA) as (old & new & _ & N1 & N2).
    rewrite N1 in NW. injection NW as NW. rewrite T. rewrite <- NW. rewrite PX in N2.
    replace (w1 + sumw ws g1 (g0 + length a1)) with (sumw ws g0 (g0 + length a1)) in N2
      by (rewrite (@sumw_split g0 g1 (g0 + length a1)) by lia; rewrite (SUM g1) by lia; lia).
    rewrite T in T0. apply (@tab_stop_multiple tabWidth _ old new TW T0 N2).
Qed.
End Shape.

(** ** All lines of a paragraph *)
Section Lines.
Variables (text : list Z) (tabWidth : Z) (pixels : bool) (area : Z).
Variables ps pe : Z.
Hypothesis ReadText : exists m, pe <= m /\ single_byte_at text m.
Variables (next_char : Z -> Z -> Z * Z) (hangs : Z -> bool) (preceding : Z -> Z -> Z -> Z).
Hypothesis Next : forall a, ps <= a < pe -> a < snd (next_char a pe) <= pe.
Hypothesis Bounded : forall x, preceding ps (pe - ps) x <= pe - ps.
Variables (info : ssfont -> font_info) (vertical : bool) (code : ssfont -> Z) (line_runs : Z -> Z -> Z -> list (Z * Z * Z)).
Hypothesis Runs : forall a b, ps <= a -> a < b -> b <= pe -> bidi_partition a b (line_runs ps a (b - a)).

Variable good : para -> para -> Z -> Z -> Prop.
Hypothesis Good : forall p ls le ws, para_ok ps pe p -> ps <= ls < pe ->
  broken text tabWidth pixels p ps pe next_char hangs preceding area ls (le, ws) -> good p (with_widths p ws) ls le.

(** Some character of the paragraph is a tab of undefined width. *)
Definition no_tab_width (p : para) : Prop := bad_tabs text tabWidth pixels p.
Lemma no_tab_width_with p ws : length ws = length (pa_glyphs p) -> no_tab_width (with_widths p ws) -> no_tab_width p.
Proof.
  intros L (g & old & G & T & U). assert (C : In (lg_char g) (map lg_char (pa_glyphs p))).
  { rewrite <- (@set_widths_chars (pa_glyphs p) ws L). apply in_map. exact G. }
  apply in_map_iff in C. destruct C as (g' & C1 & C2). exists g', old. split; [exact C2|]. split; [rewrite C1; exact T|exact U].
Qed.
Lemma returns_weaken {A} (U V : Prop) (P : A -> Prop) o : (U -> V) -> returns U P o -> returns V P o.
Proof. destruct o; cbn; auto. Qed.

Lemma break_lines_spec (cur : Z) d0 y : forall fuel p dp ls high hend, para_ok ps pe p -> ps <= ls <= pe -> (Z.to_nat (pe - ls) <= fuel)%nat ->
  highest (length (doc_runs d0)) (doc_runs dp) high hend ->
  returns (no_tab_width p) (fun r => exists bs hend',
      wrapped good text p pe ls bs /\
      fst r = layout_of (d0 ++ dp ++ wrapped_lines code info vertical (fun a b => line_runs ps a (b - a)) p ls bs) y /\
      highest (length (doc_runs d0)) (doc_runs (dp ++ wrapped_lines code info vertical (fun a b => line_runs ps a (b - a)) p ls bs)) (snd r) hend')
    (break_lines info text vertical line_runs code next_char hangs preceding fuel (shaped_of p cur) tabWidth pixels area ps (pe - ps)
       (layout_of (d0 ++ dp) y) ls high hend).
Proof.
  induction fuel as [|fuel IH]; intros p dp ls high hend OK LS F HI; cbn [break_lines];
    replace (ps + (pe - ps)) with pe by lia; destruct (Z.ltb_spec ls pe) as [L|L]; try lia.
  1,3: cbn [returns fst snd]; exists [], hend; cbn [wrapped wrapped_lines]; rewrite !app_nil_r; split; [lia|]; split; [reflexivity|exact HI].
  eapply returns_bind; [apply (@break_line_spec text tabWidth pixels p ps pe OK ReadText next_char hangs preceding Next Bounded); lia|].
  intros [le ws] BR.
  assert (LW : length ws = length (pa_glyphs p)).
  { destruct BR as (ws1 & g1 & w1 & g2 & g3 & c & b & le0 & _ & _ & _ & _ & _ & _ & (TB & _) & _). exact TB. }
  pose proof (@broken_range text tabWidth pixels p ps pe next_char hangs preceding ws area ls le) as RG. specialize (RG BR).
  rewrite (@with_widths_shaped p ws LW).
  pose proof (@with_widths_ok p ps pe OK ws LW) as OK'.
  destruct (@compute_line_of info vertical code (with_widths p ws) ps pe OK' line_runs cur ps d0 dp y ls le high hend) as (high' & hend' & E & HI');
    [lia|lia|lia|apply Runs; lia|exact HI|].
  rewrite E. cbn [obind].
  eapply returns_weaken; [apply (@no_tab_width_with p ws LW)|].
  eapply returns_impl.
  { apply (IH (with_widths p ws) (dp ++ [line_of code info vertical (with_widths p ws) (line_runs ps ls (le - ls))]) le high' hend' OK'); [lia|lia|exact HI']. }
  intros [l2 high2] (bs & hend2 & W & E2 & HI2). cbn [fst snd] in *.
  exists ((le, ws) :: bs), hend2. cbn [wrapped wrapped_lines].
  split.
  - split; [exact RG|]. split; [apply (@broken_same text tabWidth pixels p ps pe next_char hangs preceding ws LW area ls le BR)|].
    split; [apply Good; [exact OK|lia|exact BR]|exact W].
  - rewrite <- !app_assoc in E2, HI2. cbn [app] in E2, HI2. split; [exact E2|exact HI2].
Qed.
End Lines.
