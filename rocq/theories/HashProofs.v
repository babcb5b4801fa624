(** Proofs about hash tables. *)
From Verif Require Import Base BaseFacts AtlasModel MsdfModel HashModel HashSpec.
Set Implicit Arguments.
Open Scope Z_scope.

Section Table.
Variable K V A : Type.
Variable stored : A -> K.
Variable hash : K -> Z.
Variable arg_hash : A -> Z.
Variable same : K -> A -> bool.
Variable alike : A -> A -> bool.
Variable policy : nat -> nat -> nat.
Hypothesis same_iff : forall k a, same k a = true <-> k = stored a.
Hypothesis alike_iff : forall a b, alike a b = true <-> stored a = stored b.
Hypothesis hash_ok : forall a, hash (stored a) = arg_hash a.
Hypothesis policy_pos : forall s n, (0 < policy s n)%nat.

Notation table := (table K V).
Notation find := (@table_find K V A arg_hash same).
Notation put := (@put K V hash).

Definition placed (t : table) : Prop := forall i k v, In (k, v) (nth i t []) -> slot (hash k) (List.length t) = i.
Definition holds (t : table) (past : list (A * V)) : Prop :=
  forall a v, In (stored a, v) (concat t) <-> first_stored alike past a = Some v.
Definition inv (t : table) (past : list (A * V)) : Prop :=
  placed t /\ holds t past /\ (forall k v, In (k, v) (concat t) -> exists a, k = stored a).

Lemma slot_lt h n : (0 < n)%nat -> (slot h n < n)%nat.
Proof. intros P. unfold slot. pose proof (Z.mod_pos_bound h (Z.of_nat n)). lia. Qed.
Lemma in_concat_nth B (t : list (list B)) x : In x (concat t) <-> exists i, In x (nth i t []).
Proof.
  rewrite in_concat. split.
  - intros (b & I & J). destruct (In_nth t b [] I) as (i & _ & E). exists i. now rewrite E.
  - intros (i & I). destruct (nth_in_or_default i t []) as [J|J]; [eauto|]. rewrite J in I. destruct I.
Qed.
Lemma nth_list_set B (l : list B) i j x d : (i < List.length l)%nat -> nth j (list_set l i x) d = if Nat.eqb i j then x else nth j l d.
Proof.
  revert i j. induction l as [|y l IH]; intros [|i] [|j] L; cbn in *; try lia; try reflexivity. apply IH. lia.
Qed.
Lemma put_length t k v : List.length (put t k v) = List.length t.
Proof. apply length_list_set. Qed.
Lemma put_in t k v x : (0 < List.length t)%nat -> In x (concat (put t k v)) <-> x = (k, v) \/ In x (concat t).
Proof.
  intros P. pose proof (slot_lt (hash k) P) as L. unfold HashModel.put. set (s := slot (hash k) (List.length t)) in *. rewrite !in_concat_nth. split.
  - intros (i & I). rewrite nth_list_set in I by exact L. destruct (Nat.eqb_spec s i) as [E|E]; [|right; eauto].
    destruct I as [I|I]; [left; congruence|right; eauto].
  - intros [->|(i & I)].
    + exists s. rewrite nth_list_set, Nat.eqb_refl by exact L. now left.
    + exists i. rewrite nth_list_set by exact L. destruct (Nat.eqb_spec s i) as [E|E]; [right; now rewrite E|exact I].
Qed.
Lemma put_placed t k v : (0 < List.length t)%nat -> placed t -> placed (put t k v).
Proof.
  intros P Pl i k' v' I. rewrite put_length. pose proof (slot_lt (hash k) P) as L. unfold HashModel.put in I. rewrite nth_list_set in I by exact L.
  destruct (Nat.eqb_spec (slot (hash k) (List.length t)) i) as [E|E]; [|exact (Pl i k' v' I)].
  destruct I as [I|I]; [injection I as <- <-; exact E|]. rewrite <- E. apply (Pl _ _ _ I).
Qed.

Lemma rehash_step l : forall t, (0 < List.length t)%nat -> placed t ->
  let t' := fold_left (fun t kv => put t (fst kv) (snd kv)) l t in
  List.length t' = List.length t /\ placed t' /\ forall x, In x (concat t') <-> In x l \/ In x (concat t).
Proof.
  induction l as [|[k v] l IH]; intros t P Pl t'.
  - repeat split; auto. intros [[]|H]; exact H.
  - subst t'. cbn [fold_left fst snd]. destruct (IH (put t k v)) as (L & Pl' & In'); [rewrite put_length; exact P|apply put_placed; assumption|].
    rewrite put_length in L. split; [exact L|]. split; [exact Pl'|]. intros x. rewrite In', (@put_in t k v x P). cbn [In]. split; intros H; intuition.
Qed.
Lemma nth_repeat_nil n i : nth i (repeat (@nil (K * V)) n) [] = [].
Proof. revert i. induction n; intros [|i]; cbn; auto. Qed.
Lemma concat_repeat_nil n : concat (repeat (@nil (K * V)) n) = [].
Proof. induction n; cbn; auto. Qed.
Lemma rehash_ok n t : (0 < n)%nat ->
  List.length (rehash hash n t) = n /\ placed (rehash hash n t) /\ forall x, In x (concat (rehash hash n t)) <-> In x (concat t).
Proof.
  intros P. unfold rehash. destruct (@rehash_step (concat t) (repeat [] n)) as (L & Pl & I).
  - rewrite repeat_length. exact P.
  - intros i k v J. rewrite nth_repeat_nil in J. destruct J.
  - rewrite repeat_length in L. split; [exact L|]. split; [exact Pl|]. intros x. rewrite I, concat_repeat_nil. cbn. tauto.
Qed.

Lemma in_bucket_some (b : list (K * V)) a v : in_bucket same b a = Some v -> In (stored a, v) b.
Proof.
  induction b as [|[k w] b IH]; cbn; [discriminate|]. destruct (same k a) eqn:E; [|intros H; right; exact (IH H)].
  apply same_iff in E. intros [= <-]. left. congruence.
Qed.
Lemma in_bucket_none (b : list (K * V)) a v : in_bucket same b a = None -> ~ In (stored a, v) b.
Proof.
  induction b as [|[k w] b IH]; cbn; [tauto|]. destruct (same k a) eqn:E; [discriminate|]. intros H [J|J]; [|exact (IH H J)].
  injection J as -> _. rewrite (proj2 (same_iff (stored a) a) eq_refl) in E. discriminate.
Qed.
Lemma find_past t past a : inv t past -> find t a = first_stored alike past a.
Proof.
  intros (Pl & H & _). unfold table_find. destruct t as [|b t0] eqn:Et.
  - destruct (first_stored alike past a) eqn:F; [|reflexivity]. apply H in F. destruct F.
  - rewrite <- Et in *. set (i := slot (arg_hash a) (List.length t)). destruct (in_bucket same (nth i t []) a) as [v|] eqn:B.
    + symmetry. apply H, in_concat_nth. exists i. apply in_bucket_some, B.
    + destruct (first_stored alike past a) as [v|] eqn:F; [|reflexivity]. exfalso. apply H, in_concat_nth in F. destruct F as (j & J).
      pose proof (Pl _ _ _ J) as E. rewrite hash_ok in E. fold i in E. subst j. exact (@in_bucket_none _ _ _ B J).
Qed.

Lemma first_app (past : list (A * V)) a' v a : first_stored alike (past ++ [(a', v)]) a =
  match first_stored alike past a with Some w => Some w | None => if alike a' a then Some v else None end.
Proof. induction past as [|[b w] past IH]; cbn; [reflexivity|]. destruct (alike b a); [reflexivity|exact IH]. Qed.
Lemma first_alike (past : list (A * V)) a b : stored a = stored b -> first_stored alike past a = first_stored alike past b.
Proof.
  intros E. induction past as [|[c w] past IH]; cbn; [reflexivity|].
  assert (X : alike c a = alike c b) by (destruct (alike c a) eqn:P, (alike c b) eqn:Q; try reflexivity; [apply alike_iff in P|apply alike_iff in Q];
    [rewrite (proj2 (alike_iff c b)) in Q by congruence|rewrite (proj2 (alike_iff c a)) in P by congruence]; discriminate).
  rewrite X, IH. reflexivity.
Qed.

Lemma emplace_inv t past a v : inv t past -> inv (emplace stored hash arg_hash same policy t a v) (past ++ [(a, v)]).
Proof.
  intros I. unfold emplace. rewrite (@find_past t past a I). destruct I as (Pl & H & Dm). destruct (first_stored alike past a) as [w|] eqn:F.
  - split; [exact Pl|]. split; [|exact Dm]. intros b u. rewrite first_app, (H b u). destruct (first_stored alike past b) eqn:G; [reflexivity|].
    destruct (alike a b) eqn:E; [|reflexivity]. apply alike_iff in E. rewrite (@first_alike past _ _ E), G in F. discriminate.
  - set (n := policy _ _). destruct (@rehash_ok n t (policy_pos _ _)) as (L & Pl' & In').
    assert (P : (0 < List.length (rehash hash n t))%nat) by (rewrite L; apply policy_pos).
    split; [apply put_placed; assumption|]. split.
    + intros b u. rewrite (@put_in _ _ _ _ P), In', (H b u), first_app. split.
      * intros [E|E]; [|now rewrite E]. injection E as E <-. rewrite (@first_alike past _ _ E), F, (proj2 (alike_iff a b)) by congruence. reflexivity.
      * destruct (first_stored alike past b) as [u'|] eqn:G; [now right|]. destruct (alike a b) eqn:E; [|discriminate]. intros [= <-]. left. apply alike_iff in E. congruence.
    + intros k u J. apply (@put_in _ _ _ _ P) in J. destruct J as [[= -> ->]|J]; [eauto|]. apply In' in J. exact (Dm k u J).
Qed.
Lemma run_answers ops : forall t past, inv t past -> table_run stored hash arg_hash same policy t ops = answers alike past ops.
Proof.
  induction ops as [|[a|a v] ops IH]; intros t past I; [reflexivity| |]; cbn [table_run answers].
  - rewrite (@find_past t past a I). f_equal. exact (IH t past I).
  - apply IH, emplace_inv, I.
Qed.
Lemma empty_inv : inv [] [].
Proof. split; [intros i k v I; destruct i; destruct I|]. split; [intros a v; cbn; split; [intros []|discriminate]|intros k v []]. Qed.
End Table.

Lemma atlas_key_iff a b : atlas_key_eqb a b = true <-> a = b.
Proof.
  destruct a, b; cbn; try (split; discriminate); rewrite !andb_true_iff, !Z.eqb_eq; (split; [intros; intuition congruence|intros [= -> -> -> -> ->]; tauto]).
Qed.
Lemma field_key_iff a b : field_key_eqb a b = true <-> a = b.
Proof.
  destruct a, b; cbn; try (split; discriminate); rewrite !andb_true_iff, !Z.eqb_eq; (split; [intros; intuition congruence|]).
  - intros [= -> ->]; tauto.
  - intros [= -> -> -> -> ->]; tauto.
Qed.
Lemma bytes_iff a : forall b, bytes_eqb a b = true <-> a = b.
Proof.
  induction a as [|x a IH]; intros [|y b]; cbn; try (split; discriminate); [tauto|]. rewrite andb_true_iff, Z.eqb_eq, IH. split; [intros [-> ->]; reflexivity|intros [= -> ->]; tauto].
Qed.

(** * No two glyphs of the field atlas have one hash value *)
Lemma lxor_high a f n : 0 <= n -> 0 <= f < 2 ^ n -> Z.shiftr (Z.lxor a f) n = Z.shiftr a n.
Proof.
  intros N F. rewrite Z.shiftr_lxor. replace (Z.shiftr f n) with 0; [apply Z.lxor_0_r|]. symmetry. rewrite Z.shiftr_div_pow2 by exact N. apply Z.div_small. exact F.
Qed.
Lemma lxor_inj a f g : Z.lxor a f = Z.lxor a g -> f = g.
Proof. intros E. rewrite <- (Z.lxor_0_l f), <- (Z.lxor_nilpotent a), Z.lxor_assoc, E, <- Z.lxor_assoc, Z.lxor_nilpotent, Z.lxor_0_l. reflexivity. Qed.
Lemma lxor_near a f n : 0 <= n -> 0 <= f < 2 ^ n -> 0 <= Z.lxor a f - 2 ^ n * Z.shiftr a n < 2 ^ n.
Proof.
  intros N F. rewrite <- (@lxor_high a f n N F), Z.shiftr_div_pow2 by exact N.
  pose proof (Z.div_mod (Z.lxor a f) (2 ^ n)) as D. pose proof (Z.mod_pos_bound (Z.lxor a f) (2 ^ n)) as B. pose proof (Z.pow_pos_nonneg 2 n). lia.
Qed.
Lemma step_apart h g g' f f' : 0 <= g < 2 ^ 32 -> 0 <= g' < 2 ^ 32 -> 0 <= f < 2 ^ 16 -> 0 <= f' < 2 ^ 16 ->
  hash_step (hash_step h g) f = hash_step (hash_step h g') f' -> g = g' /\ f = f'.
Proof.
  intros G G' F F' E. unfold hash_step at 1 3 in E. set (x := hash_step h g) in *. set (x' := hash_step h g') in *.
  assert (X : x = x').
  { set (a := (x * HASH_MULTIPLIER) mod WORD) in *. set (a' := (x' * HASH_MULTIPLIER) mod WORD) in *.
    assert (H : Z.shiftr a 16 = Z.shiftr a' 16) by (rewrite <- (@lxor_high a f 16), <- (@lxor_high a' f' 16), E by lia; reflexivity).
    rewrite !Z.shiftr_div_pow2 in H by lia.
    assert (D : - 2 ^ 32 < x - x' < 2 ^ 32).
    { unfold x, x', hash_step. set (c := (h * HASH_MULTIPLIER) mod WORD). pose proof (@lxor_near c g 32). pose proof (@lxor_near c g' 32). lia. }
    unfold a, a', WORD, HASH_MULTIPLIER in H. pose proof (Z.div_mod (x * 1099511628211) (2 ^ 64)). pose proof (Z.div_mod (x' * 1099511628211) (2 ^ 64)).
    set (q := x * 1099511628211 / 2 ^ 64) in *. set (q' := x' * 1099511628211 / 2 ^ 64) in *.
    set (r := (x * 1099511628211) mod 2 ^ 64) in *. set (r' := (x' * 1099511628211) mod 2 ^ 64) in *.
    assert (RR : - 2 ^ 16 < r - r' < 2 ^ 16) by (pose proof (Z.div_mod r (2 ^ 16)); pose proof (Z.div_mod r' (2 ^ 16)); pose proof (Z.mod_pos_bound r (2 ^ 16)); pose proof (Z.mod_pos_bound r' (2 ^ 16)); lia).
    assert (M : (x - x') * 1099511628211 = 2 ^ 64 * (q - q') + (r - r')) by lia.
    clear - M RR D. apply Z.sub_move_0_r. generalize dependent (x - x'). generalize dependent (r - r'). generalize (q - q'). clear. intros q r R d D E.
    assert (T : exists t, 435 * d - r = 2 ^ 40 * t /\ d + t = 2 ^ 24 * q) by (exists (2 ^ 24 * q - d); lia).
    destruct T as (t & T1 & T2). assert (- 2 < t < 2) by lia. assert (t = -1 \/ t = 0 \/ t = 1) as [->|[->| ->]] by lia; lia. }
  split; [|exact (lxor_inj _ _ _ ltac:(rewrite <- X in E; exact E))]. apply (lxor_inj ((h * HASH_MULTIPLIER) mod WORD)). exact X.
Qed.
