(** Proofs about names of objects. *)
From Verif Require Import Base BaseFacts TreeModel TreeSpec TreeProofs NameModel NameSpec.
Open Scope list_scope.

Inductive rooted (par : nat -> option nat) : nat -> Prop :=
| rooted_top o : par o = None -> rooted par o
| rooted_child o p : par o = Some p -> rooted par p -> rooted par o.
Lemma rooted_ext par par' : (forall x, par' x = par x) -> forall x, rooted par x -> rooted par' x.
Proof. intros E x. induction 1 as [o H|o p H _ IH]; [apply rooted_top; rewrite E; exact H|eapply rooted_child; [rewrite E; exact H|exact IH]]. Qed.
Lemma rooted_away par par' c : (forall x, x <> c -> par' x = par x) -> forall n, rooted par n -> ~ under par c n -> rooted par' n.
Proof.
  intros E n. induction 1 as [o H|o p H _ IH]; intros U.
  - apply rooted_top. rewrite E; [exact H|]. intros ->. apply U. constructor.
  - eapply rooted_child; [rewrite E; [exact H|]; intros ->; apply U; constructor|]. apply IH. intros V. apply U. eapply under_child; eassumption.
Qed.
Lemma rooted_put par par' c : (forall x, x <> c -> par' x = par x) -> (forall n, par' c = Some n -> ~ under par c n) -> (forall x, rooted par x) -> forall x, rooted par' x.
Proof.
  intros E NU R. assert (C : rooted par' c).
  { destruct (par' c) as [n|] eqn:N; [|apply rooted_top; exact N]. eapply rooted_child; [exact N|]. eapply rooted_away; [exact E|apply R|apply NU; reflexivity]. }
  intros x. specialize (R x). induction R as [o H|o p H _ IH]; destruct (Nat.eq_dec o c) as [->|NE]; try exact C.
  - apply rooted_top. rewrite E by exact NE. exact H.
  - eapply rooted_child; [rewrite E by exact NE; exact H|exact IH].
Qed.

Section Proofs.
Variable P : Type.
Variable add : P -> P -> P.
Variable name : nat -> string.

Lemma reachable_rooted (h : heap P) : reachable add h -> forall x, rooted (fun y => ob_parent (h y)) x.
Proof.
  induction 1 as [pos|h fuel o h' R IH AL E]; [intros x; apply rooted_top; reflexivity|].
  destruct (call_same P add fuel h o h' (reachable_good _ _ _ R) AL E) as (_ & _ & _ & PA). destruct o as [c new|c p].
  - destruct AL as [->|[->|[NB _]]].
    + intros x. eapply rooted_ext; [|apply IH]. intros y. rewrite PA. destruct (Nat.eqb_spec y c) as [->|]; [|reflexivity]. destruct (same _ _); reflexivity.
    + intros x. eapply rooted_ext; [|apply IH]. intros y. rewrite PA. destruct (Nat.eqb_spec y c) as [->|]; [|reflexivity]. replace (same (Some c) (Some c)) with true by (symmetry; apply same_eq; reflexivity). reflexivity.
    + apply rooted_put with (par := fun y => ob_parent (h y)) (c := c); [|intros n N|exact IH].
      * intros x NE. rewrite PA. destruct (Nat.eqb_spec x c); [contradiction|reflexivity].
      * rewrite PA, Nat.eqb_refl in N. destruct (same new (Some c)) eqn:S; [apply same_eq in S; subst new; exfalso; apply (NB c eq_refl); constructor|].
        intros U. apply (NB n N). apply below_under. exact U.
  - intros x. eapply rooted_ext; [|apply IH]. exact PA.
Qed.
Lemma rooted_path (h : heap P) x : rooted (fun y => ob_parent (h y)) x -> exists l, path h x l.
Proof. induction 1 as [o H|o p H _ [l IH]]; [exists [o]; constructor; exact H|exists (l ++ [o]); econstructor; eassumption]. Qed.

Lemma find_ok (h : heap P) wanted cur l : along (fun x => ob_next (h x)) cur l -> forall fuel, List.length l <= fuel ->
  find_from name fuel h wanted cur = Ok (find (fun c => (name c =? wanted)%string) l).
Proof.
  induction 1 as [|x l A IH]; intros fuel F; [destruct fuel; reflexivity|]. cbn in F. destruct fuel as [|fuel]; [lia|]. cbn [find_from find].
  rewrite String.eqb_sym. destruct (name x =? wanted)%string; [reflexivity|]. apply IH. lia.
Qed.

Lemma joined_merge m a r : joined "." (m ++ [a; r]) = joined "." (m ++ [(a ++ "." ++ r)%string]).
Proof.
  induction m as [|b m IH]; [reflexivity|]. cbn [app]. destruct m as [|c m]; [reflexivity|]. cbn [app] in *.
  change (joined "." (b :: c :: m ++ [a; r])) with (b ++ "." ++ joined "." (c :: m ++ [a; r]))%string. rewrite IH. reflexivity.
Qed.
Lemma name_ok (h : heap P) p l : path h p l -> forall r fuel, List.length l <= fuel -> name_from name fuel h r (Some p) = Ok (joined "." (map name l ++ [r])).
Proof.
  induction 1 as [o H|o p l H A IH]; intros r fuel F; rewrite ?app_length in F; cbn [List.length] in F; (destruct fuel as [|fuel]; [lia|]); cbn [name_from].
  - rewrite H. destruct fuel; reflexivity.
  - rewrite H, IH by lia. rewrite map_app. cbn [map]. rewrite <- app_assoc. cbn [app]. rewrite joined_merge. reflexivity.
Qed.
Lemma full_ok (h : heap P) o l : path h o l -> forall fuel, List.length l <= fuel -> get_full_name name fuel h o = Ok (joined "." (map name l)).
Proof.
  intros A fuel F. unfold get_full_name. destruct A as [o H|o p l H A]; rewrite H; [destruct fuel; reflexivity|]. rewrite app_length in F. cbn in F.
  rewrite (name_ok _ _ _ A) by lia. rewrite map_app. reflexivity.
Qed.
Lemma path_ends (h : heap P) o l : path h o l -> exists r m, l = r :: m /\ ob_parent (h r) = None.
Proof. induction 1 as [o H|o p l H A (r & m & -> & R)]; [exists o, []; auto|exists r, (m ++ [o]); auto]. Qed.

Lemma descend_app fuel (h : heap P) names names' : forall o, descend name fuel h o (names ++ names') =
  do c <- descend name fuel h o names; match c with Some c => descend name fuel h c names' | None => Ok None end.
Proof.
  induction names as [|s names IH]; intros o; [reflexivity|]. cbn [app descend]. destruct (find_first_child name fuel h o s) as [[c|]| |]; cbn [obind]; [apply IH|reflexivity..].
Qed.
Lemma find_child (h : heap P) c p : tree_ok h -> distinct name h -> ob_parent (h c) = Some p ->
  exists n, forall fuel, n <= fuel -> find_first_child name fuel h p (name c) = Ok (Some c).
Proof.
  intros T D H. destruct (T p) as (l & V & _ & _ & I). exists (List.length l). intros fuel F. unfold find_first_child. rewrite (find_ok _ _ _ _ V) by exact F. f_equal.
  assert (C : In c l) by (apply I; exact H). assert (U : forall x, In x l -> name x = name c -> x = c) by (intros x X E; eapply D; [apply I; exact X|exact H|exact E]).
  clear - C U. induction l as [|x l IH]; [destruct C|]. cbn [find]. destruct (String.eqb_spec (name x) (name c)) as [E|E]; [f_equal; apply U; [left; reflexivity|exact E]|].
  apply IH; [destruct C as [->|C]; [congruence|exact C]|]. intros y Y. apply U. right. exact Y.
Qed.
Lemma descend_ok (h : heap P) o l : tree_ok h -> distinct name h -> path h o l -> exists n, forall fuel, n <= fuel ->
  match l with r :: m => descend name fuel h r (map name m) = Ok (Some o) | [] => False end.
Proof.
  intros T D. induction 1 as [o H|o p l H A (n & IH)]; [exists 0; reflexivity|]. destruct (path_ends _ _ _ A) as (r & m & -> & R).
  destruct (find_child _ _ _ T D H) as (k & K). exists (Nat.max n k). intros fuel F. cbn [app]. rewrite map_app, descend_app, IH by lia. cbn [obind map descend].
  rewrite K by lia. reflexivity.
Qed.
End Proofs.

Lemma split_word sep s : ~ In sep (list_ascii_of_string s) -> split_at sep s = [s].
Proof.
  induction s as [|c s IH]; intros N; [reflexivity|]. cbn in *. destruct (Ascii.eqb_spec c sep) as [->|NE]; [exfalso; apply N; left; reflexivity|].
  rewrite IH by tauto. reflexivity.
Qed.
Lemma split_join_one sep s t : ~ In sep (list_ascii_of_string s) -> split_at sep (s ++ String sep t)%string = s :: split_at sep t.
Proof.
  induction s as [|c s IH]; intros N; cbn in *; [rewrite Ascii.eqb_refl; reflexivity|]. destruct (Ascii.eqb_spec c sep) as [->|NE]; [exfalso; apply N; left; reflexivity|].
  rewrite IH by tauto. reflexivity.
Qed.
Lemma split_joined l : l <> [] -> Forall no_dot l -> split_at "."%char (joined "." l) = l.
Proof.
  induction l as [|s l IH]; intros N F; [congruence|]. inversion F as [|? ? F1 F2]; subst. destruct l as [|b l]; [apply split_word, F1|].
  cbn [joined]. cbn [String.append] in *. change ("" ++ ?x)%string with x. rewrite split_join_one by exact F1. f_equal. apply IH; [discriminate|exact F2].
Qed.
