(** Proofs about owners of OpenGL objects. *)
From Verif Require Import Base BaseFacts GpuModel GpuSpec.
Set Implicit Arguments.
Open Scope nat_scope.
Open Scope list_scope.

Lemma kind_eqb_ok a b : kind_eqb a b = true <-> a = b.
Proof. destruct a, b; cbn; split; congruence. Qed.
Lemma is_it_ok k n x : is_it k n x = true <-> x = (k, n).
Proof. destruct x as [k' n']. unfold is_it. cbn. rewrite andb_true_iff, kind_eqb_ok, Z.eqb_eq. split; [intros [-> ->]; reflexivity|intros E; inversion E; auto]. Qed.
Lemma exist_app tr : forall now tr', exist_after now (tr ++ tr') = exist_after (exist_after now tr) tr'.
Proof. induction tr as [|[k n|k n|k n] tr IH]; intros; cbn; [reflexivity|apply IH..]. Qed.
Lemma existing_snoc tr e x : In x (existing (tr ++ [e])) <->
  match e with Made k n => x = (k, n) \/ In x (existing tr) | Used _ _ => In x (existing tr) | Deleted k n => In x (existing tr) /\ x <> (k, n) end.
Proof.
  unfold existing. rewrite exist_app. destruct e as [k n|k n|k n]; cbn; [intuition|reflexivity|]. rewrite filter_In, negb_true_iff, <- not_true_iff_false, is_it_ok. reflexivity.
Qed.
Definition fine (tr : list told) (e : told) : Prop :=
  match e with Made _ _ => True | Used k n => n = 0%Z \/ In (k, n) (existing tr) | Deleted k n => In (k, n) (existing tr) end.
Lemma proper_snoc tr e : proper tr -> fine tr e -> proper (tr ++ [e]).
Proof.
  intros P F before e' after E. destruct after as [|a after _] using rev_ind.
  - apply app_inj_tail in E. destruct E as [-> ->]. exact F.
  - rewrite app_comm_cons, app_assoc in E. apply app_inj_tail in E. destruct E as [E _]. exact (P _ _ _ E).
Qed.
Lemma proper_nil : proper [].
Proof. intros [|b before] e after E; discriminate. Qed.
Lemma snoc2 (A : Type) (l : list A) a b m : l ++ a :: b :: m = (l ++ [a]) ++ b :: m.
Proof. rewrite <- app_assoc. reflexivity. Qed.

Section Gl.
Variable name : list told -> kind -> Z.
Variable compiles links : list told -> bool.
Hypothesis fresh : names_fresh name.

(** What was told in between changes the existing objects by [adds]. *)
Definition grown (tr tr' : list told) (adds : list (kind * Z)) : Prop :=
  (proper tr -> proper tr') /\ (forall x, In x (existing tr') <-> In x adds \/ In x (existing tr)) /\
  (forall x, In x adds -> ~ In x (existing tr) /\ snd x <> 0%Z).

Lemma grown_refl tr : grown tr tr [].
Proof. split; [auto|]. split; [cbn; tauto|intros x []]. Qed.

Lemma shader_ok tr : let '(tr', s) := try_compile_shader name compiles tr in
  grown tr tr' (if (s =? 0)%Z then [] else [(Shader, s)]).
Proof.
  unfold try_compile_shader. destruct (fresh tr Shader) as [N F]. set (s := name tr Shader) in *. rewrite snoc2. set (tr1 := (tr ++ [Made Shader s]) ++ [Used Shader s]).
  assert (E1 : forall x, In x (existing tr1) <-> x = (Shader, s) \/ In x (existing tr)) by (intros x; unfold tr1; rewrite !existing_snoc; reflexivity).
  assert (P1 : proper tr -> proper tr1).
  { intros P. apply proper_snoc; [apply proper_snoc; [exact P|exact I]|]. right. apply existing_snoc. left. reflexivity. }
  destruct (compiles tr1).
  - destruct (Z.eqb_spec s 0) as [->|_]; [congruence|]. split; [exact P1|]. split; [intros x; rewrite E1; cbn; intuition|]. intros x [<-|[]]. auto.
  - cbn. split; [intros P; apply proper_snoc; [exact (P1 P)|cbn; apply E1; auto]|]. split; [|intros x []]. intros x. rewrite existing_snoc, E1. cbn. split; [tauto|].
    intros [[]|I]. split; [tauto|]. intros ->. contradiction.
Qed.

Lemma program_ok tr v f : let '(tr', p) := try_compile_program name compiles links tr v f in
  grown tr tr' (if (p =? 0)%Z then [] else [(Program, p)]).
Proof.
  unfold try_compile_program. destruct v; [|apply grown_refl]. pose proof (shader_ok tr) as V. destruct (try_compile_shader name compiles tr) as [tr1 vs].
  destruct (Z.eqb_spec vs 0) as [Z0|Nv] in V |- *; [cbn; exact V|]. destruct V as (P1 & E1 & F1).
  assert (Fv := proj1 (F1 _ (or_introl eq_refl))).
  (** the second shader *)
  assert (S2 : exists tr2 fs failed, (if f then let '(tr, fs) := try_compile_shader name compiles tr1 in (tr, fs, (fs =? 0)%Z) else (tr1, 0%Z, false)) = (tr2, fs, failed) /\
    grown tr1 tr2 (if (fs =? 0)%Z then [] else [(Shader, fs)]) /\ (failed = true -> fs = 0%Z)).
  { destruct f; [|exists tr1, 0%Z, false; split; [reflexivity|]; split; [apply grown_refl|discriminate]]. pose proof (shader_ok tr1) as S. destruct (try_compile_shader name compiles tr1) as [tr2 fs].
    exists tr2, fs, (fs =? 0)%Z. split; [reflexivity|]. split; [exact S|apply Z.eqb_eq]. }
  destruct S2 as (tr2 & fs & failed & -> & (P2 & E2 & F2) & Ff). destruct failed.
  { rewrite (Ff eq_refl) in *. cbn in *. split; [intros P; apply proper_snoc; [auto|cbn; apply E2; right; apply E1; auto]|]. split; [|intros x []].
    intros x. rewrite existing_snoc, E2, E1. split; [intros [[[]|[[D|[]]|I]] N]; [congruence|auto]|]. intros [[]|I]. split; [tauto|]. intros ->. apply Fv. exact I. }
  clear Ff. destruct (fresh tr2 Program) as [Np Fp]. set (p := name tr2 Program) in *.
  set (fsl := if (fs =? 0)%Z then [] else [(Shader, fs)]) in *.
  assert (Fs : forall x, In x fsl -> x = (Shader, fs) /\ (fs =? 0)%Z = false) by (unfold fsl; destruct (fs =? 0)%Z; intros x []; [auto|contradiction]).
  set (tr3 := tr2 ++ [Made Program p; Used Shader vs] ++ (if (fs =? 0)%Z then [] else [Used Shader fs]) ++ [Used Program p]).
  assert (G3 : (proper tr2 -> proper tr3) /\ forall x, In x (existing tr3) <-> x = (Program, p) \/ In x (existing tr2)).
  { unfold tr3. destruct (fs =? 0)%Z eqn:Z0; cbn [app]; rewrite !snoc2.
    - split; [|intros x; rewrite !existing_snoc; reflexivity]. intros P. repeat (apply proper_snoc; [|]); try exact P; cbn; try exact I; right; rewrite ?existing_snoc; auto.
      right. apply E2. right. apply E1. left. left. reflexivity.
    - split; [|intros x; rewrite !existing_snoc; reflexivity]. intros P. repeat (apply proper_snoc; [|]); try exact P; cbn; try exact I; right; rewrite ?existing_snoc; auto.
      + right. apply E2. right. apply E1. left. left. reflexivity.
      + right. apply E2. left. unfold fsl; try rewrite Z0. left. reflexivity. }
  destruct G3 as [P3 E3].
  assert (G4 : exists tr4 out, (if links tr3 then (tr3, p) else (tr3 ++ [Deleted Program p], 0%Z)) = (tr4, out) /\ (proper tr3 -> proper tr4) /\
     (forall x, In x (existing tr4) <-> (out <> 0%Z /\ x = (Program, p)) \/ In x (existing tr2)) /\ (out = p \/ out = 0%Z)).
  { destruct (links tr3); eexists; eexists; (split; [reflexivity|]); (split; [|split; [|auto]]).
    - auto.
    - intros x. rewrite E3. tauto.
    - intros P. apply proper_snoc; [exact P|cbn; apply E3; auto].
    - intros x. rewrite existing_snoc, E3. split; [tauto|]. intros [[[] _]|I]; [reflexivity|]. split; [tauto|]. intros ->. contradiction. }
  destruct G4 as (tr4 & out & -> & P4 & E4 & O4). cbv beta iota.
  assert (Vin : In (Shader, vs) (existing tr4)) by (apply E4; right; apply E2; right; apply E1; left; left; reflexivity).
  assert (FF : fs <> 0%Z -> In (Shader, fs) (existing tr2) /\ fs <> vs /\ ~ In (Shader, fs) (existing tr)).
  { intros N. assert (L : In (Shader, fs) fsl) by (unfold fsl; destruct (Z.eqb_spec fs 0); [contradiction|left; reflexivity]). split; [apply E2; auto|]. destruct (F2 _ L) as [H _]. split.
    - intros ->. apply H, E1. left. left. reflexivity.
    - intros I. apply H, E1. right. exact I. }
  assert (T2 : forall x, In x (existing tr2) <-> (fs <> 0%Z /\ x = (Shader, fs)) \/ x = (Shader, vs) \/ In x (existing tr)).
  { intros x. rewrite E2, E1. unfold fsl. destruct (Z.eqb_spec fs 0); cbn; intuition. }
  assert (Pn : ~ In (Program, p) (existing tr)) by (intros I; apply Fp, T2; auto).
  split; [|split].
  - intros P. cbn [app]. destruct (Z.eqb_spec fs 0) as [Z0|Z0]; [apply proper_snoc; auto|]. rewrite snoc2. apply proper_snoc; [apply proper_snoc; auto|]. cbn. apply existing_snoc.
    destruct (FF Z0) as (A & B & _). split; [apply E4; auto|congruence].
  - intros x. transitivity ((out <> 0%Z /\ x = (Program, p)) \/ In x (existing tr)); [|destruct O4 as [-> | ->]; [destruct (Z.eqb_spec p 0); [contradiction|]; split; [intros [[_ ->]|I]; cbn; auto|intros [[<-|[]]|I]; auto]|cbn; split; [intros [[N _]|I]; [contradiction N; reflexivity|auto]|intros [[]|I]; auto]]].
    cbn [app]. destruct (Z.eqb_spec fs 0) as [Z0|Z0].
    + rewrite existing_snoc, E4, T2. split; [tauto|]. intros H. split; [tauto|]. intros ->. destruct H as [[_ H]|H]; [discriminate|apply Fv, H].
    + rewrite snoc2, !existing_snoc, E4, T2. destruct (FF Z0) as (_ & _ & C). split; [tauto|]. intros H. split; [split; [tauto|]|]; intros ->; (destruct H as [[_ H]|H]; [discriminate|]); [apply Fv, H|contradiction].
  - intros x. destruct (Z.eqb_spec out 0) as [Z0|Z0]; [intros []|]. intros [<-|[]]. destruct O4 as [->|]; [auto|contradiction].
Qed.
Lemma pipeline_ok tr v f d : let '(tr', p) := new_pipeline name compiles links tr v f d in
  pi_draws p = Some d /\ pi_vao p <> 0%Z /\ grown tr tr' ((VertexArray, pi_vao p) :: if (pi_program p =? 0)%Z then [] else [(Program, pi_program p)]).
Proof.
  unfold new_pipeline. destruct (fresh tr VertexArray) as [N F]. set (va := name tr VertexArray) in *. pose proof (program_ok (tr ++ [Made VertexArray va]) v f) as G.
  destruct (try_compile_program _ _ _ _ v f) as [tr' p]. cbn [pi_draws pi_vao pi_program]. destruct G as (P & E & A). split; [reflexivity|]. split; [exact N|]. split; [|split].
  - intros Q. apply P. apply proper_snoc; [exact Q|exact I].
  - intros x. rewrite E, existing_snoc. cbn. intuition.
  - intros x [<-|I]; [auto|]. destruct (A x I) as [A1 A2]. split; [|exact A2]. intros J. apply A1. apply existing_snoc. auto.
Qed.

(** * The invariant *)
Record inv (w : world) : Prop := {
  i_proper : proper (w_told w);
  i_owned : forall k n, In (k, n) (existing (w_told w)) <-> exists o, owns w o k n;
  i_one : forall k n o o', owns w o k n -> owns w o' k n -> o = o' }.

Lemma inv_nothing : inv nothing.
Proof.
  split; [apply proper_nil| |].
  - intros k n. split; [intros []|]. intros ([[|i]|[|i]] & H & _); cbn in H; destruct H as (a & H & _); discriminate.
  - intros k n [[|i]|[|i]] o' H; destruct H as [H _]; cbn in H; destruct H as (a & H & _); discriminate.
Qed.

(** Names that only change hands. *)
Lemma inv_transfer w w' (rho : owner -> owner) : inv w ->
  (proper (w_told w) -> proper (w_told w')) -> (forall x, In x (existing (w_told w')) <-> In x (existing (w_told w))) ->
  (forall o k n, owns w' o k n -> owns w (rho o) k n) -> (forall o k n, owns w o k n -> exists o', owns w' o' k n) ->
  (forall o o' k n, owns w' o k n -> owns w' o' k n -> rho o = rho o' -> o = o') -> inv w'.
Proof.
  intros [P E U] P' E' F B I. split; [auto| |].
  - intros k n. rewrite E', E. split; [intros (o & O); apply (B _ _ _ O)|intros (o & O); eexists; apply (F _ _ _ O)].
  - intros k n o o' O O'. apply (I _ _ _ _ O O'). eapply U; apply F; eassumption.
Qed.
(** A new owner of new names. *)
Lemma inv_grow w w' o adds : inv w -> grown (w_told w) (w_told w') adds ->
  (forall o' k n, owns w' o' k n <-> owns w o' k n \/ (o' = o /\ In (k, n) adds)) -> inv w'.
Proof.
  intros [P E U] (P' & E' & A) O. split; [auto| |].
  - intros k n. rewrite E', E. split.
    + intros [I|(o' & O')]; [exists o; apply O; auto|exists o'; apply O; auto].
    + intros (o' & O'). apply O in O'. destruct O' as [O'|[_ I]]; [right; exists o'; exact O'|auto].
  - intros k n o1 o2 H1 H2. apply O in H1, H2. destruct H1 as [H1|[-> I1]], H2 as [H2|[-> I2]].
    + eapply U; eassumption.
    + exfalso. apply (proj1 (A _ I2)). apply E. exists o1. exact H1.
    + exfalso. apply (proj1 (A _ I1)). apply E. exists o2. exact H2.
    + reflexivity.
Qed.
(** An owner that goes with its names. *)
Lemma inv_shrink w w' o : inv w -> (proper (w_told w) -> proper (w_told w')) ->
  (forall k n, In (k, n) (existing (w_told w')) <-> In (k, n) (existing (w_told w)) /\ ~ owns w o k n) ->
  (forall o' k n, owns w' o' k n <-> owns w o' k n /\ o' <> o) -> inv w'.
Proof.
  intros [P E U] P' E' O. split; [auto| |].
  - intros k n. rewrite E', E. split.
    + intros [(o' & O') N]. exists o'. apply O. split; [exact O'|]. intros ->. contradiction.
    + intros (o' & O'). apply O in O'. destruct O' as [O' N]. split; [exists o'; exact O'|]. intros Oo. apply N. eapply U; eassumption.
  - intros k n o1 o2 H1 H2. apply O in H1, H2. eapply U; [apply H1|apply H2].
Qed.

Lemma at_place_ok A (l : list (option A)) i a : at_place l i = Ok a -> nth_error l i = Some (Some a).
Proof. unfold at_place. destruct (nth_error l i) as [[b|]|]; congruence. Qed.
Lemma nth_set A (l : list A) i a k : i < length l -> nth_error (list_set l i a) k = if k =? i then Some a else nth_error l k.
Proof.
  revert i k. induction l as [|b l IH]; intros i k H; cbn in H; [lia|]. destruct i as [|i], k as [|k]; cbn; try reflexivity. rewrite IH by lia. reflexivity.
Qed.
Lemma set_length A (l : list A) i a : length (list_set l i a) = length l.
Proof. revert i. induction l as [|b l IH]; intros [|i]; cbn; auto. Qed.
Lemma nth_snoc A (l : list A) a k : nth_error (l ++ [a]) k = if k =? length l then Some a else nth_error l k.
Proof.
  destruct (Nat.eqb_spec k (length l)) as [->|N]; [rewrite nth_error_app2, Nat.sub_diag by lia; reflexivity|].
  destruct (Nat.lt_ge_cases k (length l)); [apply nth_error_app1; assumption|]. rewrite nth_error_app2 by lia.
  transitivity (@None A); [apply nth_error_None; cbn; lia|symmetry; apply nth_error_None; lia].
Qed.

Lemma bind_ok A B (m : outcome A) (f : A -> outcome B) b : obind m f = Ok b -> exists a, m = Ok a /\ f a = Ok b.
Proof. destruct m; cbn; intros H; [eexists; eauto|discriminate..]. Qed.

(** Names held at a place. *)
Definition holds_i (a : option image) (k : kind) (n : Z) : Prop := match a with Some a => k = Texture /\ im_handle a = n | None => False end.
Definition holds_p (a : option pipeline) (k : kind) (n : Z) : Prop :=
  match a with Some a => (k = VertexArray /\ pi_vao a = n) \/ (k = Program /\ pi_program a = n) | None => False end.
Definition held {A} (f : option A -> kind -> Z -> Prop) (l : list (option A)) (i : nat) (k : kind) (n : Z) : Prop :=
  match nth_error l i with Some a => f a k n | None => False end.
Lemma owns_held w o k n : owns w o k n <-> match o with OfImage i => held holds_i (w_images w) i k n | OfPipeline i => held holds_p (w_pipelines w) i k n end /\ n <> 0%Z.
Proof.
  unfold owns, held. destruct o as [i|i].
  - destruct (nth_error (w_images w) i) as [[a|]|]; cbn; split; intros [H N]; (split; [|exact N]).
    + destruct H as (b & E & H). injection E as <-. exact H.
    + exists a. auto.
    + destruct H as (b & E & H). discriminate.
    + destruct H.
    + destruct H as (b & E & H). discriminate.
    + destruct H.
  - destruct (nth_error (w_pipelines w) i) as [[a|]|]; cbn; split; intros [H N]; (split; [|exact N]).
    + destruct H as (b & E & H). injection E as <-. exact H.
    + exists a. auto.
    + destruct H as (b & E & H). discriminate.
    + destruct H.
    + destruct H as (b & E & H). discriminate.
    + destruct H.
Qed.
Lemma held_snoc A (f : option A -> kind -> Z -> Prop) l a i k n : held f (l ++ [a]) i k n <-> (if i =? length l then f a k n else held f l i k n).
Proof. unfold held. rewrite nth_snoc. destruct (i =? length l); reflexivity. Qed.
Lemma held_set A (f : option A -> kind -> Z -> Prop) l j a i k n : j < length l -> held f (list_set l j a) i k n <-> (if i =? j then f a k n else held f l i k n).
Proof. intros H. unfold held. rewrite nth_set by exact H. destruct (i =? j); reflexivity. Qed.
Lemma held_length A (f : option A -> kind -> Z -> Prop) l k n : ~ held f l (length l) k n.
Proof. unfold held. rewrite (proj2 (nth_error_None l (length l))) by lia. auto. Qed.
Lemma held_at A (f : option A -> kind -> Z -> Prop) l i a k n : nth_error l i = Some a -> held f l i k n <-> f a k n.
Proof. unfold held. intros ->. reflexivity. Qed.

Definition to_image (f : nat -> nat) (o : owner) : owner := match o with OfImage i => OfImage (f i) | OfPipeline i => OfPipeline i end.
Definition to_pipe (f : nat -> nat) (o : owner) : owner := match o with OfImage i => OfImage i | OfPipeline i => OfPipeline (f i) end.

Lemma step_inv w o w' : inv w -> step name compiles links w o = Ok w' -> inv w'.
Proof.
  intros I E. destruct o as [fm| | |i|i j|i|i|v f d| | |i|i j|i|i]; cbn [step] in E.
  - (** a new image *)
    unfold new_image in E. injection E as <-. destruct (fresh (w_told w) Texture) as [N F]. set (n := name (w_told w) Texture) in *.
    apply inv_grow with (w := w) (o := OfImage (length (w_images w))) (adds := [(Texture, n)]); [exact I| |].
    + cbn. rewrite snoc2. split; [|split].
      * intros P. apply proper_snoc; [apply proper_snoc; [exact P|exact Logic.I]|]. right. apply existing_snoc. left. reflexivity.
      * intros x. rewrite !existing_snoc. cbn. intuition.
      * intros x [<-|[]]. auto.
    + intros o k m. rewrite !owns_held. destruct o as [i|i]; cbn [w_images w_pipelines set_images tell].
      * rewrite held_snoc. destruct (Nat.eqb_spec i (length (w_images w))) as [->|Ne].
        -- cbn. split; [intros [[-> <-] Z]; right; auto|]. intros [[H _]|[_ [H|[]]]]; [exfalso; eapply held_length, H|]. injection H as <- <-. auto.
        -- split; [tauto|]. intros [H|[H _]]; [exact H|congruence].
      * split; [tauto|]. intros [H|[H _]]; [exact H|discriminate].
  - injection E as <-. apply inv_transfer with (w := w) (rho := fun o => o); [exact I|auto|reflexivity| |intros o k n O; exists o|congruence].
    + intros o k n. rewrite !owns_held. destruct o as [i|i]; cbn [w_images w_pipelines set_images]; [|auto]. rewrite held_snoc. destruct (Nat.eqb_spec i (length (w_images w))); [|auto]. intros [[_ H] N]. cbn in H. congruence.
    + revert O. rewrite !owns_held. destruct o as [i|i]; cbn [w_images w_pipelines set_images]; [|auto]. rewrite held_snoc. destruct (Nat.eqb_spec i (length (w_images w))) as [->|]; [|auto]. intros [H _]. exfalso. eapply held_length, H.
  - injection E as <-. apply inv_transfer with (w := w) (rho := fun o => o); [exact I|auto|reflexivity| |intros o k n O; exists o|congruence].
    + intros o k n. rewrite !owns_held. destruct o as [i|i]; cbn [w_images w_pipelines set_images]; [|auto]. rewrite held_snoc. destruct (Nat.eqb_spec i (length (w_images w))); [|auto]. intros [[_ H] N]. cbn in H. congruence.
    + revert O. rewrite !owns_held. destruct o as [i|i]; cbn [w_images w_pipelines set_images]; [|auto]. rewrite held_snoc. destruct (Nat.eqb_spec i (length (w_images w))) as [->|]; [|auto]. intros [H _]. exfalso. eapply held_length, H.
  - (** moving an image *)
    apply bind_ok in E as (a & Ea & E). apply bind_ok in E as ([n b] & Eb & E). injection E as <-. apply at_place_ok in Ea. unfold move_image in Eb. destruct (im_format a) as [fa|]; [|discriminate]. injection Eb as <- <-.
    assert (L : i < length (w_images w)) by (apply nth_error_Some; congruence).
    assert (H' : forall p k n, held holds_i (list_set (w_images w) i (Some {| im_handle := 0; im_format := Some fa |}) ++ [Some {| im_handle := im_handle a; im_format := Some fa |}]) p k n /\ n <> 0%Z <->
      (if p =? length (w_images w) then held holds_i (w_images w) i k n else if p =? i then False else held holds_i (w_images w) p k n) /\ n <> 0%Z).
    { intros p k n. rewrite held_snoc, set_length. destruct (Nat.eqb_spec p (length (w_images w))); [rewrite (held_at holds_i _ _ _ _ Ea); reflexivity|]. rewrite held_set by exact L. destruct (Nat.eqb_spec p i); [|reflexivity].
      cbn. split; [intros [[_ Z] N]; congruence|tauto]. }
    apply inv_transfer with (w := w) (rho := to_image (fun p => if p =? length (w_images w) then i else p)); [exact I|auto|reflexivity| | |].
    + intros o k n. rewrite !owns_held. destruct o as [p|p]; cbn [w_images w_pipelines set_images to_image]; [|auto]. rewrite H'. destruct (p =? length (w_images w)); [auto|]. destruct (p =? i); [tauto|auto].
    + intros o k n. rewrite owns_held. destruct o as [p|p]; [|intros O; exists (OfPipeline p); rewrite owns_held; exact O]. intros [O N]. destruct (Nat.eq_dec p i) as [->|Np].
      * exists (OfImage (length (w_images w))). rewrite owns_held. cbn [w_images set_images]. apply H'. rewrite Nat.eqb_refl. auto.
      * exists (OfImage p). rewrite owns_held. cbn [w_images set_images]. apply H'. destruct (Nat.eqb_spec p (length (w_images w))) as [->|_]; [exfalso; eapply held_length, O|]. apply Nat.eqb_neq in Np. rewrite Np. auto.
    + intros [p|p] [q|q] k n Op Oq E; cbn [to_image] in E; try congruence. rewrite owns_held in Op, Oq. cbn [w_images set_images] in Op, Oq. apply H' in Op, Oq. f_equal. injection E as E.
      destruct (Nat.eqb_spec p (length (w_images w))), (Nat.eqb_spec q (length (w_images w))); subst; try congruence.
      * rewrite Nat.eqb_refl in Oq. tauto.
      * rewrite Nat.eqb_refl in Op. tauto.
  - (** assigning an image *)
    apply bind_ok in E as (a & Ea & E). apply bind_ok in E as (b & Eb & E). apply bind_ok in E as ([c e] & Ec & E). injection E as <-. apply at_place_ok in Ea, Eb. unfold assign_image in Ec. destruct (im_format b) as [fb|]; [|discriminate]. injection Ec as <- <-.
    assert (Li : i < length (w_images w)) by (apply nth_error_Some; congruence). assert (Lj : j < length (w_images w)) by (apply nth_error_Some; congruence).
    destruct (Nat.eqb_spec i j) as [->|Nij]; [destruct w; exact I|].
    assert (H' : forall p k n, held holds_i (list_set (list_set (w_images w) i (Some {| im_handle := im_handle b; im_format := Some fb |})) j (Some {| im_handle := im_handle a; im_format := Some fb |})) p k n <->
      held holds_i (w_images w) (if p =? i then j else if p =? j then i else p) k n).
    { intros p k n. rewrite held_set by (rewrite set_length; exact Lj). destruct (Nat.eqb_spec p j) as [->|Npj].
      - apply not_eq_sym, Nat.eqb_neq in Nij. rewrite Nij. rewrite (held_at holds_i _ _ _ _ Ea). reflexivity.
      - rewrite held_set by exact Li. destruct (Nat.eqb_spec p i) as [->|]; [rewrite (held_at holds_i _ _ _ _ Eb); reflexivity|reflexivity]. }
    apply inv_transfer with (w := w) (rho := to_image (fun p => if p =? i then j else if p =? j then i else p)); [exact I|auto|reflexivity| | |].
    + intros o k n. rewrite !owns_held. destruct o as [p|p]; cbn [w_images w_pipelines set_images to_image]; [|auto]. rewrite H'. auto.
    + intros o k n. rewrite owns_held. destruct o as [p|p]; [|intros O; exists (OfPipeline p); rewrite owns_held; exact O]. intros O.
      exists (OfImage (if p =? i then j else if p =? j then i else p)). rewrite owns_held. cbn [w_images set_images]. rewrite H'.
      destruct (Nat.eqb_spec p i) as [->|]; [|destruct (Nat.eqb_spec p j) as [->|]]; rewrite ?Nat.eqb_refl.
      * apply Nat.eqb_neq in Nij. try (rewrite Nat.eqb_sym, Nij); try exact O.
      * exact O.
      * destruct (Nat.eqb_spec p i), (Nat.eqb_spec p j); first [congruence | exact O].
    + intros [p|p] [q|q] k n _ _ E; cbn [to_image] in E; try congruence. f_equal. injection E as E.
      destruct (Nat.eqb_spec p i), (Nat.eqb_spec q i), (Nat.eqb_spec p j), (Nat.eqb_spec q j); congruence.
  - (** using an image *)
    apply bind_ok in E as (a & Ea & E). injection E as <-. apply at_place_ok in Ea.
    apply inv_transfer with (w := w) (rho := fun o => o); [exact I| |intros x; cbn [w_told tell]; rewrite existing_snoc; reflexivity|auto|intros o k n O; exists o; exact O|congruence].
    intros P. apply proper_snoc; [exact P|]. cbn. destruct (Z.eq_dec (im_handle a) 0) as [Z|N]; [auto|]. right. apply (i_owned I). exists (OfImage i). split; [exists a; auto|exact N].
  - (** an image ends *)
    apply bind_ok in E as (a & Ea & E). injection E as <-. apply at_place_ok in Ea. assert (L : i < length (w_images w)) by (apply nth_error_Some; congruence).
    apply inv_shrink with (w := w) (o := OfImage i); [exact I| | |].
    + cbn. unfold end_image. destruct (Z.eqb_spec (im_handle a) 0) as [Z|N]; [auto|]. intros P. apply proper_snoc; [exact P|]. apply (i_owned I). exists (OfImage i). split; [exists a; auto|exact N].
    + intros k n. cbn [w_told set_images tell]. rewrite owns_held, (held_at holds_i _ _ _ _ Ea). unfold end_image. cbn [holds_i]. destruct (Z.eqb_spec (im_handle a) 0) as [Z|N].
      * split; [intros H; split; [exact H|intros [[_ <-] N]; contradiction]|tauto].
      * rewrite existing_snoc. split; intros [H1 H2]; (split; [exact H1|]); [intros [[-> <-] _]; congruence|]. intros [= -> ->]. auto.
    + intros o k n. rewrite !owns_held. destruct o as [p|p]; cbn [w_images w_pipelines set_images tell]; [|split; [intros H; split; [exact H|discriminate]|tauto]].
      rewrite held_set by exact L. destruct (Nat.eqb_spec p i) as [->|N]; cbn; [split; [tauto|intros [_ H]; congruence]|]. split; [intros H; split; [exact H|congruence]|tauto].
  - (** a new pipeline *)
    pose proof (pipeline_ok (w_told w) v f d) as G. destruct (new_pipeline name compiles links (w_told w) v f d) as [tr p]. injection E as <-. destruct G as (_ & Nv & G).
    apply inv_grow with (w := w) (o := OfPipeline (length (w_pipelines w))) (adds := (VertexArray, pi_vao p) :: if (pi_program p =? 0)%Z then [] else [(Program, pi_program p)]); [exact I|exact G|].
    intros o k m. rewrite !owns_held. destruct o as [i|i]; cbn [w_images w_pipelines set_pipes tell]; [split; [tauto|]; intros [H|[H _]]; [exact H|discriminate]|].
    rewrite held_snoc. destruct (Nat.eqb_spec i (length (w_pipelines w))) as [->|Ne]; [|split; [tauto|]; intros [H|[H _]]; [exact H|congruence]]. cbn [holds_p]. split.
    + intros [[[-> <-]|[-> <-]] N]; right; (split; [reflexivity|]); [left; reflexivity|]. right. destruct (Z.eqb_spec (pi_program p) 0); [contradiction|left; reflexivity].
    + intros [[H _]|[_ [H|H]]]; [exfalso; eapply held_length, H|injection H as <- <-; auto|]. destruct (Z.eqb_spec (pi_program p) 0); [destruct H|]. destruct H as [H|[]]. injection H as <- <-. auto.
  - injection E as <-. apply inv_transfer with (w := w) (rho := fun o => o); [exact I|auto|reflexivity| |intros o k n O; exists o|congruence].
    + intros o k n. rewrite !owns_held. destruct o as [i|i]; cbn [w_images w_pipelines set_pipes]; [auto|]. rewrite held_snoc. destruct (Nat.eqb_spec i (length (w_pipelines w))); [|auto]. intros [[[_ H]|[_ H]] N]; cbn in H; congruence.
    + revert O. rewrite !owns_held. destruct o as [i|i]; cbn [w_images w_pipelines set_pipes]; [auto|]. rewrite held_snoc. destruct (Nat.eqb_spec i (length (w_pipelines w))) as [->|]; [|auto]. intros [H _]. exfalso. eapply held_length, H.
  - injection E as <-. apply inv_transfer with (w := w) (rho := fun o => o); [exact I|auto|reflexivity| |intros o k n O; exists o|congruence].
    + intros o k n. rewrite !owns_held. destruct o as [i|i]; cbn [w_images w_pipelines set_pipes]; [auto|]. rewrite held_snoc. destruct (Nat.eqb_spec i (length (w_pipelines w))); [|auto]. intros [[[_ H]|[_ H]] N]; cbn in H; congruence.
    + revert O. rewrite !owns_held. destruct o as [i|i]; cbn [w_images w_pipelines set_pipes]; [auto|]. rewrite held_snoc. destruct (Nat.eqb_spec i (length (w_pipelines w))) as [->|]; [|auto]. intros [H _]. exfalso. eapply held_length, H.
  - (** moving a pipeline *)
    apply bind_ok in E as (a & Ea & E). apply bind_ok in E as ([n b] & Eb & E). injection E as <-. apply at_place_ok in Ea. unfold move_pipeline in Eb. destruct (pi_draws a) as [fa|]; [|discriminate]. injection Eb as <- <-.
    assert (L : i < length (w_pipelines w)) by (apply nth_error_Some; congruence).
    assert (H' : forall p k n, held holds_p (list_set (w_pipelines w) i (Some {| pi_vao := 0; pi_program := 0; pi_draws := Some fa |}) ++ [Some {| pi_vao := pi_vao a; pi_program := pi_program a; pi_draws := Some fa |}]) p k n /\ n <> 0%Z <->
      (if p =? length (w_pipelines w) then held holds_p (w_pipelines w) i k n else if p =? i then False else held holds_p (w_pipelines w) p k n) /\ n <> 0%Z).
    { intros p k n. rewrite held_snoc, set_length. destruct (Nat.eqb_spec p (length (w_pipelines w))); [rewrite (held_at holds_p _ _ _ _ Ea); reflexivity|]. rewrite held_set by exact L. destruct (Nat.eqb_spec p i); [|reflexivity].
      cbn. split; [intros [[[_ Z]|[_ Z]] N]; congruence|tauto]. }
    apply inv_transfer with (w := w) (rho := to_pipe (fun p => if p =? length (w_pipelines w) then i else p)); [exact I|auto|reflexivity| | |].
    + intros o k n. rewrite !owns_held. destruct o as [p|p]; cbn [w_images w_pipelines set_pipes to_pipe]; [auto|]. rewrite H'. destruct (p =? length (w_pipelines w)); [auto|]. destruct (p =? i); [tauto|auto].
    + intros o k n. rewrite owns_held. destruct o as [p|p]; [intros O; exists (OfImage p); rewrite owns_held; exact O|]. intros [O N]. destruct (Nat.eq_dec p i) as [->|Np].
      * exists (OfPipeline (length (w_pipelines w))). rewrite owns_held. cbn [w_pipelines set_pipes]. apply H'. rewrite Nat.eqb_refl. auto.
      * exists (OfPipeline p). rewrite owns_held. cbn [w_pipelines set_pipes]. apply H'. destruct (Nat.eqb_spec p (length (w_pipelines w))) as [->|_]; [exfalso; eapply held_length, O|]. apply Nat.eqb_neq in Np. rewrite Np. auto.
    + intros [p|p] [q|q] k n Op Oq E; cbn [to_pipe] in E; try congruence. rewrite owns_held in Op, Oq. cbn [w_pipelines set_pipes] in Op, Oq. apply H' in Op, Oq. f_equal. injection E as E.
      destruct (Nat.eqb_spec p (length (w_pipelines w))), (Nat.eqb_spec q (length (w_pipelines w))); subst; try congruence.
      * rewrite Nat.eqb_refl in Oq. tauto.
      * rewrite Nat.eqb_refl in Op. tauto.
  - (** assigning a pipeline *)
    apply bind_ok in E as (a & Ea & E). apply bind_ok in E as (b & Eb & E). apply bind_ok in E as ([c e] & Ec & E). injection E as <-. apply at_place_ok in Ea, Eb. unfold assign_pipeline in Ec. destruct (pi_draws b) as [fb|]; [|discriminate]. injection Ec as <- <-.
    assert (Li : i < length (w_pipelines w)) by (apply nth_error_Some; congruence). assert (Lj : j < length (w_pipelines w)) by (apply nth_error_Some; congruence).
    destruct (Nat.eqb_spec i j) as [->|Nij]; [destruct w; exact I|].
    assert (H' : forall p k n, held holds_p (list_set (list_set (w_pipelines w) i (Some {| pi_vao := pi_vao b; pi_program := pi_program b; pi_draws := Some fb |})) j (Some {| pi_vao := pi_vao a; pi_program := pi_program a; pi_draws := Some fb |})) p k n <->
      held holds_p (w_pipelines w) (if p =? i then j else if p =? j then i else p) k n).
    { intros p k n. rewrite held_set by (rewrite set_length; exact Lj). destruct (Nat.eqb_spec p j) as [->|Npj].
      - apply not_eq_sym, Nat.eqb_neq in Nij. rewrite Nij. rewrite (held_at holds_p _ _ _ _ Ea). reflexivity.
      - rewrite held_set by exact Li. destruct (Nat.eqb_spec p i) as [->|]; [rewrite (held_at holds_p _ _ _ _ Eb); reflexivity|reflexivity]. }
    apply inv_transfer with (w := w) (rho := to_pipe (fun p => if p =? i then j else if p =? j then i else p)); [exact I|auto|reflexivity| | |].
    + intros o k n. rewrite !owns_held. destruct o as [p|p]; cbn [w_images w_pipelines set_pipes to_pipe]; [auto|]. rewrite H'. auto.
    + intros o k n. rewrite owns_held. destruct o as [p|p]; [intros O; exists (OfImage p); rewrite owns_held; exact O|]. intros O.
      exists (OfPipeline (if p =? i then j else if p =? j then i else p)). rewrite owns_held. cbn [w_pipelines set_pipes]. rewrite H'.
      destruct (Nat.eqb_spec p i) as [->|]; [|destruct (Nat.eqb_spec p j) as [->|]]; rewrite ?Nat.eqb_refl.
      * apply Nat.eqb_neq in Nij. try (rewrite Nat.eqb_sym, Nij); try exact O.
      * exact O.
      * destruct (Nat.eqb_spec p i), (Nat.eqb_spec p j); first [congruence | exact O].
    + intros [p|p] [q|q] k n _ _ E; cbn [to_pipe] in E; try congruence. f_equal. injection E as E.
      destruct (Nat.eqb_spec p i), (Nat.eqb_spec q i), (Nat.eqb_spec p j), (Nat.eqb_spec q j); congruence.
  - (** using a pipeline *)
    apply bind_ok in E as (a & Ea & E). injection E as <-. apply at_place_ok in Ea.
    apply inv_transfer with (w := w) (rho := fun o => o); [exact I| |intros x; cbn [w_told tell]; rewrite snoc2, !existing_snoc; reflexivity|auto|intros o k n O; exists o; exact O|congruence].
    intros P. cbn [w_told tell]. rewrite snoc2. apply proper_snoc; [apply proper_snoc; [exact P|]|]; cbn.
    + destruct (Z.eq_dec (pi_vao a) 0) as [Z|N]; [auto|]. right. apply (i_owned I). exists (OfPipeline i). split; [exists a; auto|exact N].
    + destruct (Z.eq_dec (pi_program a) 0) as [Z|N]; [auto|]. right. apply existing_snoc. apply (i_owned I). exists (OfPipeline i). split; [exists a; auto|exact N].
  - (** a pipeline ends *)
    apply bind_ok in E as (a & Ea & E). injection E as <-. apply at_place_ok in Ea. assert (L : i < length (w_pipelines w)) by (apply nth_error_Some; congruence).
    assert (Ov : pi_vao a <> 0%Z -> In (VertexArray, pi_vao a) (existing (w_told w))) by (intros N; apply (i_owned I); exists (OfPipeline i); split; [exists a; auto|exact N]).
    assert (Op : pi_program a <> 0%Z -> In (Program, pi_program a) (existing (w_told w))) by (intros N; apply (i_owned I); exists (OfPipeline i); split; [exists a; auto|exact N]).
    assert (G : (proper (w_told w) -> proper (end_pipeline (w_told w) a)) /\ forall k n, In (k, n) (existing (end_pipeline (w_told w) a)) <->
      In (k, n) (existing (w_told w)) /\ ~ (k = VertexArray /\ n = pi_vao a /\ n <> 0%Z) /\ ~ (k = Program /\ n = pi_program a /\ n <> 0%Z)).
    { unfold end_pipeline. destruct (Z.eqb_spec (pi_vao a) 0) as [Zv|Nv], (Z.eqb_spec (pi_program a) 0) as [Zp|Np].
      - split; [auto|]. intros k n. split; [intros H; repeat split; [exact H|intros (_ & -> & N); congruence..]|tauto].
      - split; [intros P; apply proper_snoc; [exact P|apply Op, Np]|]. intros k n. rewrite existing_snoc. split.
        + intros [H N]. repeat split; [exact H|intros (_ & -> & M); congruence|intros (-> & -> & M); congruence].
        + intros (H & _ & N). split; [exact H|]. intros [= -> ->]. auto.
      - split; [intros P; apply proper_snoc; [exact P|apply Ov, Nv]|]. intros k n. rewrite existing_snoc. split.
        + intros [H N]. repeat split; [exact H|intros (-> & -> & M); congruence|intros (_ & -> & M); congruence].
        + intros (H & N & _). split; [exact H|]. intros [= -> ->]. auto.
      - split; [intros P; apply proper_snoc; [apply proper_snoc; [exact P|apply Ov, Nv]|]; apply existing_snoc; split; [apply Op, Np|discriminate]|]. intros k n. rewrite !existing_snoc. split.
        + intros [[H N] M]. repeat split; [exact H|intros (-> & -> & _); congruence|intros (-> & -> & _); congruence].
        + intros (H & N & M). repeat split; [exact H|intros [= -> ->]; auto|intros [= -> ->]; auto]. }
    destruct G as [GP GE]. apply inv_shrink with (w := w) (o := OfPipeline i); [exact I|exact GP| |].
    + intros k n. cbn [w_told set_pipes tell]. rewrite GE, owns_held, (held_at holds_p _ _ _ _ Ea). cbn [holds_p]. split; intros [H N]; (split; [exact H|]).
      * intros [[[K E]|[K E]] Z]; destruct N as [N1 N2]; [apply N1|apply N2]; auto.
      * split; intros (K & E & Z); apply N; auto.
    + intros o k n. rewrite !owns_held. destruct o as [p|p]; cbn [w_images w_pipelines set_pipes tell]; [split; [intros H; split; [exact H|discriminate]|tauto]|].
      rewrite held_set by exact L. destruct (Nat.eqb_spec p i) as [->|N]; cbn; [split; [tauto|intros [_ H]; congruence]|]. split; [intros H; split; [exact H|congruence]|tauto].
Qed.

Lemma run_inv os : forall w w', inv w -> run name compiles links w os = Ok w' -> inv w'.
Proof.
  induction os as [|o os IH]; intros w w' I E; cbn [run] in E; [injection E as <-; exact I|]. apply bind_ok in E as (w1 & E1 & E). eapply IH; [eapply step_inv; eassumption|exact E].
Qed.
Lemma gone_none w : inv w -> all_gone w -> existing (w_told w) = [].
Proof.
  intros I [G1 G2]. destruct (existing (w_told w)) as [|[k n] l] eqn:E; [reflexivity|]. exfalso. assert (H : In (k, n) (existing (w_told w))) by (rewrite E; left; reflexivity).
  apply (i_owned I) in H. destruct H as ([i|i] & (a & Ha & _) & _); apply nth_error_In in Ha; [rewrite Forall_forall in G1; specialize (G1 _ Ha)|rewrite Forall_forall in G2; specialize (G2 _ Ha)]; discriminate.
Qed.
End Gl.

(** When nothing goes wrong. *)
Definition written (w : world) : Prop :=
  (forall i a, nth_error (w_images w) i = Some (Some a) -> im_format a <> None) /\
  (forall i a, nth_error (w_pipelines w) i = Some (Some a) -> pi_draws a <> None).
Lemma held_place A (l : list (option A)) i : occupied l i -> exists a, at_place l i = Ok a /\ nth_error l i = Some (Some a).
Proof. intros [a H]. exists a. unfold at_place. rewrite H. auto. Qed.
Lemma written_images w l : written w -> (forall i a, nth_error l i = Some (Some a) -> im_format a <> None) -> written (set_images w l).
Proof. intros [H1 H2] H. split; [exact H|exact H2]. Qed.
Lemma written_pipes w l : written w -> (forall i a, nth_error l i = Some (Some a) -> pi_draws a <> None) -> written (set_pipes w l).
Proof. intros [H1 H2] H. split; [exact H1|exact H]. Qed.
Lemma step_defined name compiles links w o : written w -> names_place w o -> writes o = true -> exists w', step name compiles links w o = Ok w' /\ written w'.
Proof.
  intros W N B. destruct o as [fm| | |i|i j|i|i|v f d| | |i|i j|i|i]; cbn [step names_place writes] in *; try discriminate.
  - eexists. split; [reflexivity|]. apply written_images; [exact W|]. intros i a. rewrite nth_snoc. destruct (i =? length (w_images w)); [intros [= <-]; discriminate|apply W].
  - eexists. split; [reflexivity|]. apply written_images; [exact W|]. intros i a. rewrite nth_snoc. destruct (i =? length (w_images w)); [intros [= <-]; discriminate|apply W].
  - destruct (held_place N) as (a & Ea & Na). rewrite Ea. cbn [obind]. unfold move_image. pose proof (proj1 W _ _ Na) as F. destruct (im_format a) as [fa|]; [|congruence]. cbn [obind]. eexists. split; [reflexivity|]. apply written_images; [exact W|].
    intros p b. rewrite nth_snoc. destruct (p =? _); [intros [= <-]; discriminate|]. rewrite nth_set by (apply nth_error_Some; congruence). destruct (p =? i); [intros [= <-]; discriminate|apply W].
  - destruct N as [Ni Nj]. destruct (held_place Ni) as (a & Ea & Na). destruct (held_place Nj) as (b & Eb & Nb). rewrite Ea. cbn [obind]. rewrite Eb. cbn [obind]. unfold assign_image. pose proof (proj1 W _ _ Nb) as F. destruct (im_format b) as [fa|]; [|congruence]. cbn [obind]. eexists. split; [reflexivity|]. apply written_images; [exact W|].
    destruct (i =? j); [apply W|]. intros p c. rewrite nth_set by (rewrite set_length; apply nth_error_Some; congruence). destruct (p =? j); [intros [= <-]; discriminate|]. rewrite nth_set by (apply nth_error_Some; congruence). destruct (p =? i); [intros [= <-]; discriminate|apply W].
  - destruct (held_place N) as (a & Ea & Na). rewrite Ea. eexists. split; [reflexivity|]. exact W.
  - destruct (held_place N) as (a & Ea & Na). rewrite Ea. eexists. split; [reflexivity|]. apply written_images; [exact W|]. intros p b. rewrite nth_set by (apply nth_error_Some; congruence). destruct (p =? i); [discriminate|apply W].
  - unfold new_pipeline. destruct (try_compile_program name compiles links _ v f) as [tr p]. eexists. split; [reflexivity|]. apply written_pipes; [exact W|]. intros i a. rewrite nth_snoc. destruct (i =? length (w_pipelines w)); [intros [= <-]; discriminate|apply W].
  - eexists. split; [reflexivity|]. apply written_pipes; [exact W|]. intros i a. rewrite nth_snoc. destruct (i =? length (w_pipelines w)); [intros [= <-]; discriminate|apply W].
  - destruct (held_place N) as (a & Ea & Na). rewrite Ea. cbn [obind]. unfold move_pipeline. pose proof (proj2 W _ _ Na) as F. destruct (pi_draws a) as [fa|]; [|congruence]. cbn [obind]. eexists. split; [reflexivity|]. apply written_pipes; [exact W|].
    intros p b. rewrite nth_snoc. destruct (p =? _); [intros [= <-]; discriminate|]. rewrite nth_set by (apply nth_error_Some; congruence). destruct (p =? i); [intros [= <-]; discriminate|apply W].
  - destruct N as [Ni Nj]. destruct (held_place Ni) as (a & Ea & Na). destruct (held_place Nj) as (b & Eb & Nb). rewrite Ea. cbn [obind]. rewrite Eb. cbn [obind]. unfold assign_pipeline. pose proof (proj2 W _ _ Nb) as F. destruct (pi_draws b) as [fa|]; [|congruence]. cbn [obind]. eexists. split; [reflexivity|]. apply written_pipes; [exact W|].
    destruct (i =? j); [apply W|]. intros p c. rewrite nth_set by (rewrite set_length; apply nth_error_Some; congruence). destruct (p =? j); [intros [= <-]; discriminate|]. rewrite nth_set by (apply nth_error_Some; congruence). destruct (p =? i); [intros [= <-]; discriminate|apply W].
  - destruct (held_place N) as (a & Ea & Na). rewrite Ea. eexists. split; [reflexivity|]. exact W.
  - destruct (held_place N) as (a & Ea & Na). rewrite Ea. eexists. split; [reflexivity|]. apply written_pipes; [exact W|]. intros p b. rewrite nth_set by (apply nth_error_Some; congruence). destruct (p =? i); [discriminate|apply W].
Qed.
Lemma run_written name compiles links os : forall w w', written w -> forallb writes os = true -> run name compiles links w os = Ok w' -> written w'.
Proof.
  induction os as [|o os IH]; intros w w' W B E; cbn [run forallb] in *; [injection E as <-; exact W|]. apply andb_prop in B as [B1 B2]. apply bind_ok in E as (w1 & E1 & E). eapply IH; [|exact B2|exact E]. clear IH E B2.
  assert (N : names_place w o).
  { destruct o; cbn [step names_place] in *; try exact I; repeat (let H := fresh in apply bind_ok in E1 as (? & H & E1); try apply at_place_ok in H); try (eexists; eassumption); try (split; eexists; eassumption). }
  destruct (@step_defined name compiles links w o W N B1) as (w2 & E2 & W2). congruence.
Qed.

(** Handing objects on. *)
Lemma told_kept name compiles links w w' o : step name compiles links w o = Ok w' ->
  match o with ImageMove _ | PipeMove _ | ImageAssign _ _ | PipeAssign _ _ => True | _ => False end -> w_told w' = w_told w.
Proof.
  intros E K. destruct o; destruct K; cbn [step] in E; repeat (let H := fresh in apply bind_ok in E as (? & H & E)); repeat match goal with x : _ * _ |- _ => destruct x end; injection E as <-; reflexivity.
Qed.
Lemma move_image_owns name compiles links w w' i o k n : step name compiles links w (ImageMove i) = Ok w' ->
  owns w' o k n <-> owns w (if owner_eqb o (OfImage (length (w_images w))) then OfImage i else o) k n /\ o <> OfImage i.
Proof.
  intros E. cbn [step] in E. apply bind_ok in E as (a & Ea & E). apply bind_ok in E as ([x b] & Eb & E). injection E as <-. apply at_place_ok in Ea. unfold move_image in Eb. destruct (im_format a) as [fa|]; [|discriminate]. injection Eb as <- <-.
  assert (L : i < length (w_images w)) by (apply nth_error_Some; congruence). rewrite !owns_held. destruct o as [p|p]; cbn [owner_eqb w_images w_pipelines set_images].
  - rewrite held_snoc, set_length. destruct (Nat.eqb_spec p (length (w_images w))) as [->|Np].
    + rewrite (held_at holds_i _ _ _ _ Ea). split; [intros H; split; [exact H|]|intros [H _]; exact H]. intros [= X]. lia.
    + rewrite held_set by exact L. destruct (Nat.eqb_spec p i) as [->|Ni]; [cbn; split; [intros [[_ Z] N]; congruence|intros [_ N]; congruence]|]. split; [intros H; split; [exact H|congruence]|intros [H _]; exact H].
  - split; [intros H; split; [exact H|discriminate]|intros [H _]; exact H].
Qed.
Lemma move_pipe_owns name compiles links w w' i o k n : step name compiles links w (PipeMove i) = Ok w' ->
  owns w' o k n <-> owns w (if owner_eqb o (OfPipeline (length (w_pipelines w))) then OfPipeline i else o) k n /\ o <> OfPipeline i.
Proof.
  intros E. cbn [step] in E. apply bind_ok in E as (a & Ea & E). apply bind_ok in E as ([x b] & Eb & E). injection E as <-. apply at_place_ok in Ea. unfold move_pipeline in Eb. destruct (pi_draws a) as [fa|]; [|discriminate]. injection Eb as <- <-.
  assert (L : i < length (w_pipelines w)) by (apply nth_error_Some; congruence). rewrite !owns_held. destruct o as [p|p]; cbn [owner_eqb w_images w_pipelines set_pipes].
  - split; [intros H; split; [exact H|discriminate]|intros [H _]; exact H].
  - rewrite held_snoc, set_length. destruct (Nat.eqb_spec p (length (w_pipelines w))) as [->|Np].
    + rewrite (held_at holds_p _ _ _ _ Ea). split; [intros H; split; [exact H|]|intros [H _]; exact H]. intros [= X]. lia.
    + rewrite held_set by exact L. destruct (Nat.eqb_spec p i) as [->|Ni]; [cbn; split; [intros [[[_ Z]|[_ Z]] N]; congruence|intros [_ N]; congruence]|]. split; [intros H; split; [exact H|congruence]|intros [H _]; exact H].
Qed.
Lemma assign_image_owns name compiles links w w' i j o k n : step name compiles links w (ImageAssign i j) = Ok w' ->
  owns w' o k n <-> owns w (swapped (OfImage i) (OfImage j) o) k n.
Proof.
  intros E. cbn [step] in E. apply bind_ok in E as (a & Ea & E). apply bind_ok in E as (b & Eb & E). apply bind_ok in E as ([c e] & Ec & E). injection E as <-. apply at_place_ok in Ea, Eb. unfold assign_image in Ec. destruct (im_format b) as [fb|]; [|discriminate]. injection Ec as <- <-.
  assert (Li : i < length (w_images w)) by (apply nth_error_Some; congruence). assert (Lj : j < length (w_images w)) by (apply nth_error_Some; congruence).
  unfold swapped. destruct o as [p|p]; cbn [owner_eqb]; rewrite !owns_held; cbn [w_images w_pipelines set_images]; [|reflexivity].
  destruct (Nat.eqb_spec i j) as [->|Nij].
  - destruct (Nat.eqb_spec p j) as [->|N]; reflexivity.
  - rewrite held_set by (rewrite set_length; exact Lj). destruct (Nat.eqb_spec p j) as [->|Npj].
    + apply not_eq_sym, Nat.eqb_neq in Nij. rewrite Nij, (held_at holds_i _ _ _ _ Ea). reflexivity.
    + rewrite held_set by exact Li. destruct (Nat.eqb_spec p i) as [->|Ni]; [rewrite (held_at holds_i _ _ _ _ Eb); reflexivity|reflexivity].
Qed.
Lemma assign_pipe_owns name compiles links w w' i j o k n : step name compiles links w (PipeAssign i j) = Ok w' ->
  owns w' o k n <-> owns w (swapped (OfPipeline i) (OfPipeline j) o) k n.
Proof.
  intros E. cbn [step] in E. apply bind_ok in E as (a & Ea & E). apply bind_ok in E as (b & Eb & E). apply bind_ok in E as ([c e] & Ec & E). injection E as <-. apply at_place_ok in Ea, Eb. unfold assign_pipeline in Ec. destruct (pi_draws b) as [fb|]; [|discriminate]. injection Ec as <- <-.
  assert (Li : i < length (w_pipelines w)) by (apply nth_error_Some; congruence). assert (Lj : j < length (w_pipelines w)) by (apply nth_error_Some; congruence).
  unfold swapped. destruct o as [p|p]; cbn [owner_eqb]; rewrite !owns_held; cbn [w_images w_pipelines set_pipes]; [reflexivity|].
  destruct (Nat.eqb_spec i j) as [->|Nij].
  - destruct (Nat.eqb_spec p j) as [->|N]; reflexivity.
  - rewrite held_set by (rewrite set_length; exact Lj). destruct (Nat.eqb_spec p j) as [->|Npj].
    + apply not_eq_sym, Nat.eqb_neq in Nij. rewrite Nij, (held_at holds_p _ _ _ _ Ea). reflexivity.
    + rewrite held_set by exact Li. destruct (Nat.eqb_spec p i) as [->|Ni]; [rewrite (held_at holds_p _ _ _ _ Eb); reflexivity|reflexivity].
Qed.

Lemma new_draws name compiles links tr v f d : exists tr' a b, new_pipeline name compiles links tr v f d = (tr', {| pi_vao := a; pi_program := b; pi_draws := Some d |}).
Proof. unfold new_pipeline. destruct (try_compile_program name compiles links _ v f) as [tr' p]. eauto. Qed.
Lemma start_to_end name compiles links : exists w, run name compiles links nothing (at_start ++ init_pipelines 3 ++ deinit_pipelines 6) = Ok w /\
  w_images w = [] /\ Forall (fun a => match a with Some p => pi_vao p = 0%Z /\ pi_program p = 0%Z | None => True end) (w_pipelines w).
Proof.
  unfold at_start, init_pipelines, deinit_pipelines. cbn [app Nat.add]. do 3 (cbn [run step obind]).
  repeat match goal with |- context [new_pipeline name compiles links ?t ?v ?f ?d] =>
    let E := fresh in destruct (new_draws name compiles links t v f d) as (? & ? & ? & E); rewrite E; clear E; cbn -[new_pipeline end_pipeline] end.
  eexists. split; [reflexivity|]. cbn. split; [reflexivity|]. repeat (apply Forall_cons || apply Forall_nil); auto.
Qed.
