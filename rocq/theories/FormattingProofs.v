From Verif Require Import Base BaseFacts ValueRunsModel ValueRunsSpec ValueRunsProofs RunBuilderModel RunBuilderProofs
  FloatModel ColorModel FormattingModel FormattingSpec FormattingLexProofs FormattingAttrProofs.
Open Scope Z_scope.

(** ** Builder states *)

(** The value stacks of the eight builders, innermost first. *)
Record stacks := { st_f : list font; st_c : list color; st_k : list stroke; st_b : flag -> list bool }.

(** The characters emitted so far have styles [cs]. *)
Definition Inv (p : parser) (S : stacks) (cs : list style) : Prop :=
  List.length (p_out p) = List.length cs /\
  rb_inv (p_fonts p) (st_f S) (map s_font cs) /\
  rb_inv (p_colors p) (st_c S) (map s_color cs) /\
  rb_inv (p_strokes p) (st_k S) (map s_stroke cs) /\
  (forall k, rb_inv (get_bb k (p_bools p)) (st_b S k) (map (fun s => s_flag s k) cs)).

(** [s] is the current style. *)
Definition top (S : stacks) (s : style) : Prop :=
  (exists r, st_f S = s_font s :: r) /\ (exists r, st_c S = s_color s :: r) /\
  (exists r, st_k S = s_stroke s :: r) /\ (forall k, exists r, st_b S k = s_flag s k :: r).

Definition set_f (S : stacks) x := {| st_f := x; st_c := st_c S; st_k := st_k S; st_b := st_b S |}.
Definition set_c (S : stacks) x := {| st_f := st_f S; st_c := x; st_k := st_k S; st_b := st_b S |}.
Definition set_k (S : stacks) x := {| st_f := st_f S; st_c := st_c S; st_k := x; st_b := st_b S |}.
Definition set_b (k : flag) (S : stacks) x :=
  {| st_f := st_f S; st_c := st_c S; st_k := st_k S;
     st_b := fun k' => if flag_eqb k k' then x else st_b S k' |}.

Lemma flag_eqb_eq a b : flag_eqb a b = true <-> a = b.
Proof. destruct a, b; cbn; split; congruence. Qed.
Lemma flag_eqb_refl a : flag_eqb a a = true.
Proof. now apply flag_eqb_eq. Qed.
Lemma get_set_bb k k' x b : get_bb k' (set_bb k x b) = if flag_eqb k k' then x else get_bb k' b.
Proof. destruct k, k'; reflexivity. Qed.

Lemma Inv_lx p l S cs : Inv p S cs <-> Inv (with_lx p l) S cs.
Proof. split; intros H; exact H. Qed.

Lemma Inv_put p S cs s c : Inv p S cs -> top S s -> Inv (put p c) S (cs ++ [s]).
Proof.
  intros (A & F & C & K & B) ((rf & Tf) & (rc & Tc) & (rk & Tk) & Tb).
  unfold Inv, put. cbn [p_out p_fonts p_colors p_strokes p_bools].
  rewrite !app_length, !map_app. cbn [map List.length].
  rewrite Tf, Tc, Tk in *.
  split; [lia|]. split; [apply (rb_inv_chars 1 F)|]. split; [apply (rb_inv_chars 1 C)|].
  split; [apply (rb_inv_chars 1 K)|].
  intros k. destruct (Tb k) as (r & E). specialize (B k). rewrite E in *. rewrite map_app.
  apply (rb_inv_chars 1 B).
Qed.

Lemma size_f p S cs (T : Type) (f : style -> T) : Inv p S cs -> out_size p = Z.of_nat (List.length (map f cs)).
Proof. intros (A & _). unfold out_size. now rewrite map_length, A. Qed.

(** Pushing and popping. *)
Lemma push_font_ok p S cs s f : Inv p S cs -> top S s ->
  exists p', push_font p f = Ok p' /\ Inv p' (set_f S (f :: st_f S)) cs /\ p_lx p' = p_lx p /\ p_out p' = p_out p.
Proof.
  intros I T. pose proof I as (A & F & C & K & B). destruct T as ((r & E) & _).
  rewrite E in F. destruct (rb_inv_push f F) as (b' & Hb & Hi).
  unfold push_font. rewrite (size_f _ _ _ _ s_font I), Hb. cbn [omap obind].
  eexists. split; [reflexivity|]. split; [|auto].
  unfold Inv; cbn. rewrite E. auto.
Qed.
Lemma pop_font_ok p S cs f st : Inv p (set_f S (f :: st)) cs ->
  exists p', pop_font p = Ok p' /\ Inv p' (set_f S st) cs /\ p_lx p' = p_lx p /\ p_out p' = p_out p.
Proof.
  intros I. pose proof I as (A & F & C & K & B). cbn [set_f st_f] in F.
  destruct (rb_inv_pop F) as (b' & t & Hb & Hi & _).
  unfold pop_font. rewrite (size_f _ _ _ _ s_font I), Hb. cbn [omap obind].
  eexists. split; [reflexivity|]. split; [|auto]. unfold Inv; cbn. auto.
Qed.
Lemma push_color_ok p S cs s f : Inv p S cs -> top S s ->
  exists p', push_color p f = Ok p' /\ Inv p' (set_c S (f :: st_c S)) cs /\ p_lx p' = p_lx p /\ p_out p' = p_out p.
Proof.
  intros I T. pose proof I as (A & F & C & K & B). destruct T as (_ & (r & E) & _).
  rewrite E in C. destruct (rb_inv_push f C) as (b' & Hb & Hi).
  unfold push_color. rewrite (size_f _ _ _ _ s_color I), Hb. cbn [omap obind].
  eexists. split; [reflexivity|]. split; [|auto].
  unfold Inv; cbn. rewrite E. auto.
Qed.
Lemma pop_color_ok p S cs f st : Inv p (set_c S (f :: st)) cs ->
  exists p', pop_color p = Ok p' /\ Inv p' (set_c S st) cs /\ p_lx p' = p_lx p /\ p_out p' = p_out p.
Proof.
  intros I. pose proof I as (A & F & C & K & B). cbn [set_c st_c] in C.
  destruct (rb_inv_pop C) as (b' & t & Hb & Hi & _).
  unfold pop_color. rewrite (size_f _ _ _ _ s_color I), Hb. cbn [omap obind].
  eexists. split; [reflexivity|]. split; [|auto]. unfold Inv; cbn. auto.
Qed.
Lemma push_stroke_ok p S cs s f : Inv p S cs -> top S s ->
  exists p', push_stroke p f = Ok p' /\ Inv p' (set_k S (f :: st_k S)) cs /\ p_lx p' = p_lx p /\ p_out p' = p_out p.
Proof.
  intros I T. pose proof I as (A & F & C & K & B). destruct T as (_ & _ & (r & E) & _).
  rewrite E in K. destruct (rb_inv_push f K) as (b' & Hb & Hi).
  unfold push_stroke. rewrite (size_f _ _ _ _ s_stroke I), Hb. cbn [omap obind].
  eexists. split; [reflexivity|]. split; [|auto].
  unfold Inv; cbn. rewrite E. auto.
Qed.
Lemma pop_stroke_ok p S cs f st : Inv p (set_k S (f :: st)) cs ->
  exists p', pop_stroke p = Ok p' /\ Inv p' (set_k S st) cs /\ p_lx p' = p_lx p /\ p_out p' = p_out p.
Proof.
  intros I. pose proof I as (A & F & C & K & B). cbn [set_k st_k] in K.
  destruct (rb_inv_pop K) as (b' & t & Hb & Hi & _).
  unfold pop_stroke. rewrite (size_f _ _ _ _ s_stroke I), Hb. cbn [omap obind].
  eexists. split; [reflexivity|]. split; [|auto]. unfold Inv; cbn. auto.
Qed.
Lemma push_bool_ok k p S cs s : Inv p S cs -> top S s ->
  exists p', push_bool k p = Ok p' /\ Inv p' (set_b k S (true :: st_b S k)) cs /\ p_lx p' = p_lx p /\ p_out p' = p_out p.
Proof.
  intros I T. pose proof I as (A & F & C & K & B). destruct T as (_ & _ & _ & Tb). destruct (Tb k) as (r & E).
  specialize (B k) as Bk. rewrite E in Bk. destruct (rb_inv_push true Bk) as (b' & Hb & Hi).
  unfold push_bool. rewrite (size_f _ _ _ _ (fun s => s_flag s k) I), Hb. cbn [omap obind].
  eexists. split; [reflexivity|]. split; [|auto].
  unfold Inv. cbn [with_bool p_out p_fonts p_colors p_strokes p_bools set_b st_f st_c st_k st_b].
  split; [auto|]. split; [auto|]. split; [auto|]. split; [auto|].
  intros k'. rewrite get_set_bb. destruct (flag_eqb k k') eqn:Ek; auto.
  apply flag_eqb_eq in Ek. subst k'. rewrite E. auto.
Qed.
Lemma pop_bool_ok k p S cs v st : Inv p (set_b k S (v :: st)) cs ->
  exists p', pop_bool k p = Ok p' /\ Inv p' (set_b k S st) cs /\ p_lx p' = p_lx p /\ p_out p' = p_out p.
Proof.
  intros I. pose proof I as (A & F & C & K & B). specialize (B k) as Bk. cbn [set_b st_b] in Bk.
  rewrite flag_eqb_refl in Bk. destruct (rb_inv_pop Bk) as (b' & t & Hb & Hi & _).
  unfold pop_bool. rewrite (size_f _ _ _ _ (fun s => s_flag s k) I), Hb. cbn [omap obind].
  eexists. split; [reflexivity|]. split; [|auto].
  unfold Inv. cbn [with_bool p_out p_fonts p_colors p_strokes p_bools set_b st_f st_c st_k st_b].
  split; [auto|]. split; [auto|]. split; [auto|]. split; [auto|].
  intros k'. rewrite get_set_bb. specialize (B k'). cbn [set_b st_b] in B.
  destruct (flag_eqb k k') eqn:Ek; auto. apply flag_eqb_eq in Ek. now subst k'.
Qed.

Lemma Inv_ext p S S' cs : st_f S = st_f S' -> st_c S = st_c S' -> st_k S = st_k S' ->
  (forall k, st_b S k = st_b S' k) -> Inv p S cs -> Inv p S' cs.
Proof.
  intros E1 E2 E3 E4 (A & F & C & K & B). unfold Inv. rewrite <- E1, <- E2, <- E3. splits; auto.
  intros k. rewrite <- E4. auto.
Qed.
Lemma Inv_set_b_id k p S cs : Inv p (set_b k S (st_b S k)) cs -> Inv p S cs.
Proof.
  apply Inv_ext; auto. intros k'. cbn. destruct (flag_eqb k k') eqn:E; auto.
  apply flag_eqb_eq in E. now subst.
Qed.

Lemma top_set_f S s f st : top S s -> top (set_f S (f :: st))
  {| s_font := f; s_color := s_color s; s_stroke := s_stroke s; s_flag := s_flag s |}.
Proof. intros (A & B & C & D). unfold top; cbn. splits; eauto. Qed.
Lemma top_set_c S s f st : top S s -> top (set_c S (f :: st))
  {| s_font := s_font s; s_color := f; s_stroke := s_stroke s; s_flag := s_flag s |}.
Proof. intros (A & B & C & D). unfold top; cbn. splits; eauto. Qed.
Lemma top_set_k S s f st : top S s -> top (set_k S (f :: st))
  {| s_font := s_font s; s_color := s_color s; s_stroke := f; s_flag := s_flag s |}.
Proof. intros (A & B & C & D). unfold top; cbn. splits; eauto. Qed.
Lemma top_set_b k S s st : top S s -> top (set_b k S (true :: st)) (set_flag k s).
Proof.
  intros (A & B & C & D). unfold top; cbn. splits; auto.
  intros k'. destruct (flag_eqb k k'); eauto.
Qed.

(** The two pushes and pops of a font tag. *)
Definition font_stacks (change cc : bool) (S : stacks) (f : font) (c : color) : stacks :=
  let S1 := if change then set_f S (f :: st_f S) else S in
  if cc then set_c S1 (c :: st_c S1) else S1.

Lemma font_push_ok (change cc : bool) p S cs s f c : Inv p S cs -> top S s ->
  exists p1 p2, (if change then push_font p f else Ok p) = Ok p1 /\
    (if cc then push_color p1 c else Ok p1) = Ok p2 /\ Inv p2 (font_stacks change cc S f c) cs /\
    top (font_stacks change cc S f c)
      {| s_font := if change then f else s_font s; s_color := if cc then c else s_color s;
         s_stroke := s_stroke s; s_flag := s_flag s |} /\
    p_lx p2 = p_lx p /\ p_out p2 = p_out p.
Proof.
  intros I T. unfold font_stacks.
  assert (H : exists p1 s1, (if change then push_font p f else Ok p) = Ok p1 /\
     Inv p1 (if change then set_f S (f :: st_f S) else S) cs /\
     top (if change then set_f S (f :: st_f S) else S) s1 /\
     s1 = {| s_font := if change then f else s_font s; s_color := s_color s;
             s_stroke := s_stroke s; s_flag := s_flag s |} /\
     p_lx p1 = p_lx p /\ p_out p1 = p_out p).
  { destruct change.
    - destruct (push_font_ok p S cs s f I T) as (p1 & -> & I1 & X1 & O1).
      eexists p1, _. split; [reflexivity|]. split; [exact I1|]. split; [apply top_set_f; exact T|]. auto.
    - exists p, s. destruct s. splits; auto. }
  destruct H as (p1 & s1 & -> & I1 & T1 & -> & X1 & O1). exists p1. destruct cc.
  - destruct (push_color_ok p1 _ cs _ c I1 T1) as (p2 & -> & I2 & X2 & O2).
    exists p2. split; [reflexivity|]. split; [reflexivity|]. split; [exact I2|].
    split; [apply (top_set_c _ _ c _ T1)|]. split; congruence.
  - exists p1. splits; auto.
Qed.

Lemma font_pop_ok (change cc : bool) p S cs f c : Inv p (font_stacks change cc S f c) cs ->
  exists p1 p2, (if change then pop_font p else Ok p) = Ok p1 /\
    (if cc then pop_color p1 else Ok p1) = Ok p2 /\ Inv p2 S cs /\ p_lx p2 = p_lx p /\ p_out p2 = p_out p.
Proof.
  intros I. unfold font_stacks in I. destruct change, cc.
  - destruct (pop_font_ok p (set_c S (c :: st_c S)) cs f (st_f S) I) as (p1 & -> & I1 & X1 & O1).
    exists p1. destruct (pop_color_ok p1 S cs c (st_c S) I1) as (p2 & -> & I2 & X2 & O2).
    exists p2. splits; auto; congruence.
  - destruct (pop_font_ok p S cs f (st_f S) I) as (p1 & -> & I1 & X1 & O1).
    exists p1, p1. splits; auto; congruence.
  - exists p. destruct (pop_color_ok p S cs c (st_c S) I) as (p2 & -> & I2 & X2 & O2).
    exists p2. splits; auto; congruence.
  - exists p, p. splits; auto.
Qed.

(** ** Concatenation of documents *)
Fixpoint doc_app (d e : doc) : doc :=
  match d with
  | DEnd => e
  | DChar c r => DChar c (doc_app r e)
  | DComment b r => DComment b (doc_app r e)
  | DCase l r => DCase l (doc_app r e)
  | DTag t b r => DTag t b (doc_app r e)
  end.
Lemma text_of_app d e : text_of (doc_app d e) = text_of d ++ text_of e.
Proof.
  induction d; cbn [doc_app text_of]; auto; rewrite ?IHd, ?IHd2, <- ?app_assoc; auto.
Qed.

Section P.
Variable get_family : bytes -> Z.
Variable ff : bytes -> option f32.

Notation doc_wf := (doc_wf get_family ff).
Notation tag_wf := (tag_wf get_family ff).

Lemma doc_wf_app d e : doc_wf d -> doc_wf e -> doc_wf (doc_app d e).
Proof. induction d; cbn [doc_app FormattingSpec.doc_wf]; intros; intuition auto. Qed.

(** ** Soundness: what is accepted is the text of a document *)

Definition len (p : parser) : nat := List.length (p_rest p).

(** Property of the recursive call, for inputs shorter than [n]. *)
Definition pc_spec (n : nat) (pc : bytes -> parser -> outcome parser) : Prop :=
  forall close p S s cs, close <> [] -> plain_word close -> Inv p S cs -> top S s -> (len p < n)%nat ->
  (pc close p = UB /\ bad (p_rest p)) \/
  exists p' cs', pc close p = Ok p' /\ fwd (p_lx p) (p_lx p') /\ Inv p' S (cs ++ cs') /\
    (p_err p' = false -> exists d, doc_wf d /\ p_rest p = text_of d ++ bs "</" ++ close ++ p_rest p').

(** Property of the functions that handle one item after reading [pre]. *)
Definition item_spec (n : nat) (pre : bytes) (f : parser -> outcome parser) : Prop :=
  forall p S s cs, Inv p S cs -> top S s -> (len p < n)%nat ->
  (f p = UB /\ bad (p_rest p)) \/
  exists p' cs', f p = Ok p' /\ fwd (p_lx p) (p_lx p') /\ Inv p' S (cs ++ cs') /\
    (p_err p' = false -> exists d, doc_wf d /\ pre ++ p_rest p = text_of d ++ p_rest p').

Lemma err_back p p' : fwd (p_lx p) (p_lx p') -> p_err p' = false -> p_err p = false.
Proof. intros [_ H] E. unfold p_err in *. destruct (snd (p_lx p)); auto. rewrite H in E; auto. Qed.

Lemma fwd_len p p' : fwd (p_lx p) (p_lx p') -> (len p' <= len p)%nat.
Proof. intros [H _]. apply suffix_length in H. exact H. Qed.

Lemma bool_tag_sound n pc pre t k nm : pc_spec n pc ->
  tag_wf t -> tag_attrs t = [] -> tag_name t = nm -> plain_word nm ->
  pre = bs "<" ++ nm ++ bs ">" -> item_spec n pre (parse_bool_tag pc k (nm ++ bs ">")).
Proof.
  intros Hpc Wt Ha Hn Hp -> p S s cs I T L. unfold parse_bool_tag.
  destruct (push_bool_ok k p S cs s I T) as (p1 & -> & I1 & X1 & O1). cbn [obind].
  assert (L1 : (len p1 < n)%nat) by (unfold len, p_rest in *; now rewrite X1).
  destruct (Hpc (nm ++ bs ">") p1 _ (set_flag k s) cs ltac:(destruct nm; discriminate)
    ltac:(apply Forall_app; split; [auto|plain]) I1 (top_set_b _ _ _ _ T) L1)
    as [[-> Hb]|(p2 & cs' & -> & F2 & I2 & H2)]; cbn [obind].
  { left. split; auto. unfold p_rest in *. now rewrite X1 in Hb. }
  right. destruct (pop_bool_ok k p2 S (cs ++ cs') true (st_b S k) I2) as (p3 & -> & I3 & X3 & O3).
  exists p3, cs'. split; [reflexivity|]. unfold p_rest, p_err in *. rewrite X3. rewrite X1 in *.
  split; [exact F2|]. split; [now apply Inv_set_b_id in I3|].
  intros Hf. destruct (H2 Hf) as (d & Wd & R). exists (DTag t d DEnd).
  split; [cbn; auto|]. rewrite R. cbn [text_of]. unfold open_tag, close_tag.
  rewrite Hn, Ha. cbn [app]. rewrite <- !app_assoc. reflexivity.
Qed.

Lemma item_err (n : nat) pre f :
  (forall p, exists l, f p = Ok (with_lx p l) /\ fwd (p_lx p) l /\ snd l = true) -> item_spec n pre f.
Proof.
  intros H p S s cs I T L. right. destruct (H p) as (l & -> & F & E).
  exists (with_lx p l), []. split; [reflexivity|]. split; [exact F|]. rewrite app_nil_r.
  split; [exact I|]. unfold p_err; cbn. congruence.
Qed.

(** Reading a fixed word first. *)
Lemma item_word n pre w f : plain_word w -> item_spec n (pre ++ w) f ->
  item_spec n pre (fun p => let '(ok, l) := consume_word w (p_lx p) in
                            let p := with_lx p l in if ok then f p else Ok p).
Proof.
  intros Pw Hf p S s cs I T L. destruct (consume_word w (p_lx p)) as [ok l] eqn:E.
  destruct (consume_word_sound _ Pw _ _ _ E) as [F1 H1]. destruct ok.
  - assert (L1 : (len (with_lx p l) < n)%nat).
    { eapply Nat.le_lt_trans; [|exact L]. apply fwd_len. exact F1. }
    cbn zeta; cbv iota.
    destruct (Hf (with_lx p l) S s cs I T L1) as [[-> B]|(p' & cs' & -> & F2 & I2 & H2)].
    + left. split; auto. eapply bad_suffix; [apply F1|exact B].
    + right. exists p', cs'. split; auto. split; [eapply fwd_trans; [exact F1|exact F2]|]. split; auto.
      intros He. destruct (H2 He) as (d & Wd & R). exists d. split; auto. rewrite <- R.
      destruct H1 as [A _]. unfold p_rest at 1. rewrite A. rewrite <- app_assoc. reflexivity.
  - right. exists (with_lx p l), []. split; auto. split; [exact F1|]. rewrite app_nil_r. split; auto.
    unfold p_err; cbn. congruence.
Qed.

Lemma item_char n pre c f : c <> SENTINEL -> item_spec n (pre ++ [c]) f ->
  item_spec n pre (fun p => let '(ok, l) := consume_char c (p_lx p) in
                            let p := with_lx p l in if ok then f p else Ok p).
Proof.
  intros Hc Hf p S s cs I T L.
  pose proof (item_word n pre [c] f ltac:(repeat constructor; auto) Hf p S s cs I T L) as H.
  cbn [consume_word] in H. destruct (consume_char c (p_lx p)) as [ok l] eqn:E.
  destruct ok; exact H.
Qed.

(** Reading one character first. *)
Lemma next_fwd (p : parser) c r : next_char (p_rest p) = (c, r) -> fwd (p_lx p) (r, p_err p).
Proof. intros E. split; auto. eapply next_char_suffix; exact E. Qed.

Lemma item_next n pre c f p S s cs r : item_spec n (pre ++ [c]) f -> c <> SENTINEL ->
  next_char (p_rest p) = (c, r) -> Inv p S cs -> top S s -> (len p < Datatypes.S n)%nat ->
  (f (with_lx p (r, p_err p)) = UB /\ bad (p_rest p)) \/
  exists p' cs', f (with_lx p (r, p_err p)) = Ok p' /\ fwd (p_lx p) (p_lx p') /\ Inv p' S (cs ++ cs') /\
    (p_err p' = false -> exists d, doc_wf d /\ pre ++ p_rest p = text_of d ++ p_rest p').
Proof.
  intros Hf Hc E I T L. pose proof (next_char_cons _ _ _ E Hc) as R. pose proof (next_fwd _ _ _ E) as F.
  assert (L1 : (len (with_lx p (r, p_err p)) < n)%nat).
  { unfold len in *. cbn. rewrite R in L. cbn in L. lia. }
  destruct (Hf (with_lx p (r, p_err p)) S s cs I T L1) as [[-> B]|(p' & cs' & -> & F2 & I2 & H2)].
  - left. split; auto. eapply bad_suffix; [apply F|exact B].
  - right. exists p', cs'. split; auto. split; [eapply fwd_trans; [exact F|exact F2]|]. split; auto.
    intros He. destruct (H2 He) as (d & Wd & R2). exists d. split; auto. rewrite <- R2.
    rewrite R. rewrite <- app_assoc. reflexivity.
Qed.

Lemma raise_item p c r S cs pre : next_char (p_rest p) = (c, r) -> Inv p S cs ->
  (Ok (raise_error (with_lx p (r, p_err p))) = UB /\ bad (p_rest p)) \/
  exists p' cs', Ok (raise_error (with_lx p (r, p_err p))) = Ok p' /\ fwd (p_lx p) (p_lx p') /\ Inv p' S (cs ++ cs') /\
    (p_err p' = false -> exists d, doc_wf d /\ pre ++ p_rest p = text_of d ++ p_rest p').
Proof.
  intros E I. right. eexists _, []. split; [reflexivity|]. rewrite app_nil_r.
  pose proof (next_fwd _ _ _ E) as F. splits; auto.
  - apply fwd_raise. exact F.
  - discriminate.
Qed.

Lemma su_tag_sound n pc : pc_spec n pc -> item_spec (Datatypes.S n) (bs "<su") (parse_su_tag pc).
Proof.
  intros Hpc p S s cs I T L. unfold parse_su_tag.
  destruct (next_char (p_rest p)) as [c r] eqn:E.
  destruct (c =c "b"%char) eqn:E1.
  { apply eqc_true in E1. subst c.
    refine (item_next n (bs "<su") "b"%char
      (fun p => let '(ok, l) := consume_char c_gt (p_lx p) in let p := with_lx p l in if ok then parse_bool_tag pc Sub (bs "sub>") p else Ok p) p S s cs r _ _ E I T L); [|discriminate].
    apply (item_char n (bs "<su" ++ ["b"%char]) c_gt); [discriminate|].
    apply (bool_tag_sound n pc _ TSub Sub (bs "sub")); auto; try exact Logic.I. plain. }
  destruct (c =c "p"%char) eqn:E2.
  { apply eqc_true in E2. subst c.
    refine (item_next n (bs "<su") "p"%char
      (fun p => let '(ok, l) := consume_word (bs "er>") (p_lx p) in let p := with_lx p l in if ok then parse_bool_tag pc Super (bs "super>") p else Ok p) p S s cs r _ _ E I T L); [|discriminate].
    apply (item_word n (bs "<su" ++ ["p"%char]) (bs "er>")); [plain|].
    apply (bool_tag_sound n pc _ TSuper Super (bs "super")); auto; try exact Logic.I. plain. }
  eapply raise_item; eauto.
Qed.

Lemma stroke_sound n pc : pc_spec n pc -> item_spec n (bs "<st") (parse_stroke ff pc).
Proof.
  intros Hpc p S s cs I T L. unfold parse_stroke.
  destruct (consume_word (bs "roke") (p_lx p)) as [ok l] eqn:E.
  destruct (consume_word_sound (bs "roke") ltac:(plain) _ _ _ E) as [F1 H1]. destruct ok.
  2:{ right. eexists _, []. split; [reflexivity|]. rewrite app_nil_r. splits; auto.
      - apply fwd_raise. exact F1.
      - discriminate. }
  destruct H1 as [R1 E1].
  destruct (stroke_attributes_sound get_family ff (Datatypes.S (List.length (p_rest (with_lx p l)))) stroke_init
              (p_lx (with_lx p l)) ltac:(unfold p_rest; cbn; lia))
    as [[-> B]|(k & l2 & -> & F2 & H2)]; cbn [obind].
  { left. split; auto. eapply bad_suffix; [apply F1|exact B]. }
  assert (F12 : fwd (p_lx p) l2) by (eapply fwd_trans; [exact F1|exact F2]).
  destruct (push_stroke_ok (with_lx (with_lx p l) l2) S cs s k I T) as (p1 & -> & I1 & X1 & O1). cbn [obind].
  cbn [with_lx p_lx] in X1.
  assert (L1 : (len p1 < n)%nat).
  { eapply Nat.le_lt_trans; [|exact L]. apply fwd_len. now rewrite X1. }
  destruct (Hpc (bs "stroke>") p1 _ _ cs ltac:(discriminate) ltac:(plain) I1 (top_set_k _ _ k _ T) L1)
    as [[-> Hb]|(p2 & cs' & -> & F3 & I3 & H3)]; cbn [obind].
  { left. split; auto. unfold p_rest in Hb. rewrite X1 in Hb. eapply bad_suffix; [apply F12|exact Hb]. }
  right. destruct (pop_stroke_ok p2 S (cs ++ cs') k (st_k S) I3) as (p3 & -> & I4 & X4 & O4).
  exists p3, cs'. split; [reflexivity|].
  assert (F13 : fwd (p_lx p) (p_lx p3)) by (rewrite X4; rewrite X1 in F3; eapply fwd_trans; eauto).
  split; auto. split; [exact I4|]. intros Hf.
  unfold p_err, p_rest in *. rewrite X4 in *. destruct (H3 Hf) as (d & Wd & R3).
  assert (Hf2 : snd l2 = false).
  { destruct (snd l2) eqn:Es; auto. rewrite X1 in F3. rewrite (proj2 F3 Es) in Hf. discriminate. }
  destruct (H2 Hf2) as (ats & Wa & Ek & R2). cbn [with_lx p_lx fst] in *.
  exists (DTag (TStroke ats) d DEnd). split; [cbn; auto|].
  rewrite R1, R2. rewrite X1 in R3. rewrite R3. cbn [text_of]. unfold open_tag, close_tag.
  cbn [tag_name tag_attrs]. rewrite <- !app_assoc. reflexivity.
Qed.

Lemma s_tag_sound n pc : pc_spec n pc -> item_spec (Datatypes.S n) (bs "<s") (parse_s_tag ff pc).
Proof.
  intros Hpc p S s cs I T L. unfold parse_s_tag.
  destruct (next_char (p_rest p)) as [c r] eqn:E.
  destruct (c =c c_gt) eqn:E1.
  { apply eqc_true in E1. subst c.
    refine (item_next n (bs "<s") c_gt (parse_bool_tag pc Strike (bs "s>")) p S s cs r _ _ E I T L); [|discriminate].
    apply (bool_tag_sound n pc _ TStrike Strike (bs "s")); auto; try exact Logic.I. plain. }
  destruct (c =c "c"%char) eqn:E2.
  { apply eqc_true in E2. subst c.
    refine (item_next n (bs "<s") "c"%char (parse_smallcaps pc (bs "sc>")) p S s cs r _ _ E I T L); [|discriminate].
    apply (item_word n (bs "<s" ++ ["c"%char]) (bs ">")); [plain|].
    apply (bool_tag_sound n pc _ (TSmall false) Small (bs "sc")); auto; try exact Logic.I. plain. }
  destruct (c =c "m"%char) eqn:E3.
  { apply eqc_true in E3. subst c.
    refine (item_next n (bs "<s") "m"%char (parse_smallcaps pc (bs "smallcaps>")) p S s cs r _ _ E I T L); [|discriminate].
    apply (item_word n (bs "<s" ++ ["m"%char]) (bs "allcaps>")); [plain|].
    apply (bool_tag_sound n pc _ (TSmall true) Small (bs "smallcaps")); auto; try exact Logic.I. plain. }
  destruct (c =c "t"%char) eqn:E4.
  { apply eqc_true in E4. subst c.
    refine (item_next n (bs "<s") "t"%char (parse_stroke ff pc) p S s cs r _ _ E I T L); [|discriminate].
    apply stroke_sound; auto. }
  destruct (c =c "u"%char) eqn:E5.
  { apply eqc_true in E5. subst c.
    refine (item_next n (bs "<s") "u"%char (parse_su_tag pc) p S s cs r _ _ E I T L); [|discriminate].
    intros q S' s' cs' I' T' L'. apply (su_tag_sound n pc Hpc q S' s' cs' I' T'). lia. }
  eapply raise_item; eauto.
Qed.

Lemma skip_sound n pre long : pre = (if long : bool then bs "<uppercase>" else bs "<uc>") ->
  item_spec n pre (fun p => Ok p).
Proof.
  intros -> p S s cs I T L. right. exists p, []. rewrite app_nil_r. splits; auto.
  - apply fwd_refl.
  - intros _. exists (DCase long DEnd). split; [cbn; auto|]. cbn [text_of]. rewrite app_nil_r. auto.
Qed.

Lemma u_tag_sound n pc : pc_spec n pc -> item_spec (Datatypes.S n) (bs "<u") (parse_u_tag pc).
Proof.
  intros Hpc p S s cs I T L. unfold parse_u_tag.
  destruct (next_char (p_rest p)) as [c r] eqn:E.
  destruct (c =c c_gt) eqn:E1.
  { apply eqc_true in E1. subst c.
    refine (item_next n (bs "<u") c_gt _ p S s cs r _ _ E I T L); [|discriminate].
    apply (bool_tag_sound n pc _ TUnder Under (bs "u")); auto; try exact Logic.I. plain. }
  destruct (c =c "c"%char) eqn:E2.
  { apply eqc_true in E2. subst c.
    destruct (item_next n (bs "<u") "c"%char _ p S s cs r
      (item_char n (bs "<u" ++ ["c"%char]) c_gt _ ltac:(discriminate) (skip_sound n _ false eq_refl))
      ltac:(discriminate) E I T L) as [[H B]|(p' & cs' & H & F & I2 & H2)].
    - left. split; auto. destruct (consume_char c_gt _) as [[] l]; discriminate.
    - right. destruct (consume_char c_gt (p_lx (with_lx p (r, p_err p)))) as [[] l] eqn:Ec; injection H as <-.
      + eexists _, cs'. split; [reflexivity|]. auto.
      + eexists _, cs'. split; [reflexivity|]. split; [apply fwd_raise; exact F|]. split; [exact I2|]. discriminate. }
  destruct (c =c "p"%char) eqn:E3.
  { apply eqc_true in E3. subst c.
    destruct (item_next n (bs "<u") "p"%char _ p S s cs r
      (item_word n (bs "<u" ++ ["p"%char]) (bs "percase>") _ ltac:(plain) (skip_sound n _ true eq_refl))
      ltac:(discriminate) E I T L) as [[H B]|(p' & cs' & H & F & I2 & H2)].
    - left. split; auto. destruct (consume_word (bs "percase>") _) as [[] l]; discriminate.
    - right. destruct (consume_word (bs "percase>") (p_lx (with_lx p (r, p_err p)))) as [[] l] eqn:Ec; injection H as <-.
      + eexists _, cs'. split; [reflexivity|]. auto.
      + eexists _, cs'. split; [reflexivity|]. split; [apply fwd_raise; exact F|]. split; [exact I2|]. discriminate. }
  eapply raise_item; eauto.
Qed.

Lemma current_font p S s cs : Inv p S cs -> top S s -> rb_get_current_value (p_fonts p) = Ok (s_font s).
Proof.
  intros (_ & F & _) ((r & E) & _). unfold rb_get_current_value, rb_top.
  destruct F as (t & _ & Hst & _). rewrite Hst, E. reflexivity.
Qed.

Lemma italic_sound n pc : pc_spec n pc -> item_spec n (bs "<i") (parse_italic pc).
Proof.
  intros Hpc. unfold parse_italic.
  apply (item_char n (bs "<i") c_gt (fun p => do cur <- rb_get_current_value (p_fonts p);
    let change := negb (f_style cur =? ITALIC) in
    do p <- (if change
             then push_font p {| f_family := f_family cur; f_weight := f_weight cur;
                                 f_style := ITALIC; f_size := f_size cur |}
             else Ok p);
    do p <- pc (bs "i>") p;
    if change then pop_font p else Ok p)); [discriminate|].
  intros p S s cs I T L. rewrite (current_font _ _ _ _ I T). cbn [obind].
  destruct (negb (f_style (s_font s) =? ITALIC)).
  - set (nf := {| f_family := _; f_weight := _; f_style := _; f_size := _ |}).
    destruct (push_font_ok p S cs s nf I T) as (p1 & -> & I1 & X1 & O1). cbn [obind].
    assert (L1 : (len p1 < n)%nat) by (unfold len, p_rest in *; now rewrite X1).
    destruct (Hpc (bs "i>") p1 _ _ cs ltac:(discriminate) ltac:(plain) I1 (top_set_f _ _ _ _ T) L1)
      as [[-> Hb]|(p2 & cs' & -> & F2 & I2 & H2)]; cbn [obind].
    { left. split; auto. unfold p_rest in *. now rewrite X1 in Hb. }
    right. destruct (pop_font_ok p2 S (cs ++ cs') _ (st_f S) I2) as (p3 & -> & I3 & X3 & O3).
    exists p3, cs'. split; [reflexivity|]. unfold p_rest, p_err in *. rewrite X3. rewrite X1 in *.
    split; [exact F2|]. split; [exact I3|].
    intros Hf. destruct (H2 Hf) as (d & Wd & R). exists (DTag TItalic d DEnd).
    split; [cbn; auto|]. rewrite R. cbn [text_of]. rewrite <- !app_assoc. reflexivity.
  - cbn [obind].
    destruct (Hpc (bs "i>") p S s cs ltac:(discriminate) ltac:(plain) I T L)
      as [[-> Hb]|(p2 & cs' & -> & F2 & I2 & H2)]; cbn [obind]; [left; auto|].
    right. exists p2, cs'. splits; auto. intros Hf. destruct (H2 Hf) as (d & Wd & R).
    exists (DTag TItalic d DEnd). split; [cbn; auto|]. rewrite R. cbn [text_of]. rewrite <- !app_assoc. reflexivity.
Qed.

Lemma font_sound n pc : pc_spec n pc -> item_spec n (bs "<f") (parse_font get_family pc).
Proof.
  intros Hpc p S s cs I T L. unfold parse_font.
  destruct (consume_word (bs "ont") (p_lx p)) as [ok l] eqn:E.
  destruct (consume_word_sound (bs "ont") ltac:(plain) _ _ _ E) as [F1 H1]. destruct ok.
  2:{ right. eexists _, []. split; [reflexivity|]. rewrite app_nil_r. splits; auto.
      unfold p_err; cbn. congruence. }
  destruct H1 as [R1 E1].
  destruct (font_attributes_sound get_family ff (Datatypes.S (List.length (p_rest (with_lx p l)))) fa_empty
              (p_lx (with_lx p l)) ltac:(unfold p_rest; cbn; lia))
    as [[-> B]|(a & l2 & -> & F2 & H2)]; cbn [obind].
  { left. split; auto. eapply bad_suffix; [apply F1|exact B]. }
  assert (F12 : fwd (p_lx p) l2) by (eapply fwd_trans; [exact F1|exact F2]).
  rewrite (current_font (with_lx (with_lx p l) l2) S s cs I T). cbn [obind].
  set (change := _ || _). set (nf := {| f_family := _; f_weight := _; f_style := _; f_size := _ |}).
  destruct (font_push_ok change (fa_color_change a) (with_lx (with_lx p l) l2) S cs s nf (fa_color a) I T)
    as (q1 & q2 & -> & Hq2 & I2 & T2 & X2 & O2). cbn [obind]. rewrite Hq2. cbn [obind].
  cbn [with_lx p_lx] in X2.
  assert (L1 : (len q2 < n)%nat).
  { eapply Nat.le_lt_trans; [|exact L]. apply fwd_len. now rewrite X2. }
  destruct (Hpc (bs "font>") q2 _ _ cs ltac:(discriminate) ltac:(plain) I2 T2 L1)
    as [[-> Hb]|(p2 & cs' & -> & F3 & I3 & H3)]; cbn [obind].
  { left. split; auto. unfold p_rest in Hb. rewrite X2 in Hb. eapply bad_suffix; [apply F12|exact Hb]. }
  right. destruct (font_pop_ok _ _ p2 S (cs ++ cs') _ _ I3) as (p3 & p4 & -> & H4 & I4 & X4 & O4).
  cbn [obind]. exists p4, cs'. split; [exact H4|].
  assert (F13 : fwd (p_lx p) (p_lx p4)) by (rewrite X4; rewrite X2 in F3; eapply fwd_trans; eauto).
  split; auto. split; [exact I4|]. intros Hf.
  unfold p_err, p_rest in *. rewrite X4 in *. destruct (H3 Hf) as (d & Wd & R3).
  assert (Hf2 : snd l2 = false).
  { destruct (snd l2) eqn:Es; auto. rewrite X2 in F3. rewrite (proj2 F3 Es) in Hf. discriminate. }
  destruct (H2 Hf2) as (ats & Wa & Ek & R2). cbn [with_lx p_lx fst] in *.
  exists (DTag (TFont ats) d DEnd). split; [cbn; auto|].
  rewrite R1, R2. rewrite X2 in R3. rewrite R3. cbn [text_of]. unfold open_tag, close_tag.
  cbn [tag_name tag_attrs]. rewrite <- !app_assoc. reflexivity.
Qed.

(** The whole loop. *)
Definition content_post (close : bytes) (p p' : parser) : Prop :=
  exists d, doc_wf d /\
    match close with
    | [] => p_rest p = text_of d \/ exists junk, p_rest p = text_of d ++ ch 255 :: junk
    | _ => p_rest p = text_of d ++ bs "</" ++ close ++ p_rest p'
    end.

Lemma finalize_ok p S s cs : Inv p S cs -> top S s ->
  exists p', finalize_runs p = Ok p' /\ p_lx p' = p_lx p /\ p_out p' = p_out p /\
    table_gives (rb_get (p_fonts p')) (map s_font cs) /\
    table_gives (rb_get (p_colors p')) (map s_color cs) /\
    table_gives (rb_get (p_strokes p')) (map s_stroke cs) /\
    forall k, table_gives (rb_get (get_bb k (p_bools p'))) (map (fun s => s_flag s k) cs).
Proof.
  intros (A & F & C & K & B) ((rf & Tf) & (rc & Tc) & (rk & Tk) & Tb).
  assert (G : forall T (b : run_builder T) v st vals, rb_inv b (v :: st) vals ->
     List.length vals = List.length (p_out p) ->
     exists b', rb_pop b (out_size p) = Ok b' /\ table_gives (rb_get b') vals).
  { intros U b v st vals H Hl. destruct (rb_inv_pop H) as (b' & t & H1 & _ & H2 & H3 & H4 & H5 & H6 & H7).
    exists b'. unfold out_size. rewrite <- Hl. split; [exact H1|].
    exists t. unfold rb_get. splits; auto. intros i x Hx.
    rewrite H2. rewrite (@get_value_represents _ _ t _ (view_build t) H4).
    assert (i < List.length vals)%nat by (apply nth_error_Some; congruence).
    rewrite H7 by lia. rewrite Nat2Z.id, Hx. reflexivity. }
  rewrite Tf in F. rewrite Tc in C. rewrite Tk in K.
  destruct (G _ _ _ _ _ F ltac:(rewrite map_length; auto)) as (bf & Hf & Gf).
  destruct (G _ _ _ _ _ C ltac:(rewrite map_length; auto)) as (bc & Hc & Gc).
  destruct (G _ _ _ _ _ K ltac:(rewrite map_length; auto)) as (bk & Hk & Gk).
  assert (HB : forall k, exists b', rb_pop (get_bb k (p_bools p)) (out_size p) = Ok b' /\
     table_gives (rb_get b') (map (fun s => s_flag s k) cs)).
  { intros k. specialize (B k). destruct (Tb k) as (r & E). rewrite E in B.
    apply (G _ _ _ _ _ B). rewrite map_length; auto. }
  destruct (HB Strike) as (b1 & H1 & G1). destruct (HB Under) as (b2 & H2 & G2).
  destruct (HB Small) as (b3 & H3 & G3). destruct (HB Sub) as (b4 & H4 & G4).
  destruct (HB Super) as (b5 & H5 & G5). cbn [get_bb] in H1, H2, H3, H4, H5.
  unfold finalize_runs, pop_font, pop_color, pop_stroke, pop_bool, out_size in *.
  Ltac fin H := cbn [p_out p_fonts p_colors p_strokes p_bools with_fonts with_colors with_strokes with_bool
    get_bb set_bb b_strike b_under b_small b_sub b_super]; rewrite H; cbn [omap obind].
  fin Hf. fin Hc. fin Hk. fin H1. fin H2. fin H3. fin H4. fin H5.
  eexists. split; [reflexivity|]. cbn. splits; auto. intros []; auto.
Qed.

Lemma open_bracket_sound n pc close p S s cs : pc_spec n pc -> plain_word close ->
  Inv p S cs -> top S s -> (len p <= n)%nat ->
  (parse_open_bracket get_family ff pc close p = UB /\ bad (p_rest p)) \/
  exists stop p' cs', parse_open_bracket get_family ff pc close p = Ok (stop, p') /\
    fwd (p_lx p) (p_lx p') /\ Inv p' S (cs ++ cs') /\
    (p_err p' = false ->
       if stop : bool then close <> [] /\ p_rest p = bs "/" ++ close ++ p_rest p'
       else exists d, doc_wf d /\ bs "<" ++ p_rest p = text_of d ++ p_rest p').
Proof.
  intros Hpc Pc I T L. unfold parse_open_bracket.
  destruct (next_char (p_rest p)) as [c r] eqn:E. pose proof (next_fwd _ _ _ E) as F.
  assert (Item : forall f, item_spec n (bs "<" ++ [c]) f -> c <> SENTINEL ->
    (omap (pair false) (f (with_lx p (r, p_err p))) = UB /\ bad (p_rest p)) \/
    exists stop p' cs', omap (pair false) (f (with_lx p (r, p_err p))) = Ok (stop, p') /\
    fwd (p_lx p) (p_lx p') /\ Inv p' S (cs ++ cs') /\
    (p_err p' = false ->
       if stop : bool then close <> [] /\ p_rest p = bs "/" ++ close ++ p_rest p'
       else exists d, doc_wf d /\ bs "<" ++ p_rest p = text_of d ++ p_rest p')).
  { intros f Hf Hc. destruct (item_next n (bs "<") c f p S s cs r Hf Hc E I T ltac:(lia))
      as [[-> B]|(p' & cs' & -> & F2 & I2 & H2)]; [left; auto|].
    right. exists false, p', cs'. splits; auto. }
  destruct (c =c "!"%char) eqn:E1.
  { apply eqc_true in E1. subst c. right.
    pose proof (next_char_cons _ _ _ E ltac:(discriminate)) as R.
    destruct (parse_comment (r, p_err p)) as [r' e'] eqn:Ec.
    destruct (parse_comment_sound _ _ Ec) as [F2 H2].
    exists false, (with_lx p (r', e')), []. cbn [with_lx p_lx]. rewrite Ec. rewrite app_nil_r.
    splits; auto.
    - eapply fwd_trans; eauto.
    - intros Hf. destruct (H2 Hf) as (body & Fb & Rb). cbn [fst] in Rb.
      exists (DComment body DEnd). split; [cbn; auto|]. rewrite R, Rb. cbn [text_of].
      rewrite <- !app_assoc. reflexivity. }
  destruct (c =c "/"%char) eqn:E2.
  { apply eqc_true in E2. subst c. right.
    pose proof (next_char_cons _ _ _ E ltac:(discriminate)) as R.
    destruct close as [|c0 close].
    - eexists true, _, []. split; [reflexivity|]. rewrite app_nil_r. splits; auto.
      + apply fwd_raise. exact F.
      + discriminate.
    - cbn [with_lx p_lx]. destruct (consume_word (c0 :: close) (r, p_err p)) as [ok l] eqn:Ew.
      destruct (consume_word_sound _ Pc _ _ _ Ew) as [F2 H2]. cbn [snd].
      eexists true, _, []. split; [reflexivity|]. rewrite app_nil_r. splits; auto.
      + eapply fwd_trans; eauto.
      + cbn. intros Hf. unfold p_err in Hf. cbn in Hf. destruct ok; [|congruence].
        split; [discriminate|]. rewrite R. destruct H2 as [A _]. cbn [fst] in A. rewrite A. reflexivity. }
  destruct (c =c "f"%char) eqn:E3.
  { apply eqc_true in E3. subst c. apply Item; [apply font_sound; auto|discriminate]. }
  destruct (c =c "i"%char) eqn:E4.
  { apply eqc_true in E4. subst c. apply Item; [apply italic_sound; auto|discriminate]. }
  destruct (c =c "s"%char) eqn:E5.
  { apply eqc_true in E5. subst c. apply Item; [|discriminate].
    intros q S' s' cs' I' T' L'. apply (s_tag_sound n pc Hpc q S' s' cs' I' T'). lia. }
  destruct (c =c "u"%char) eqn:E6.
  { apply eqc_true in E6. subst c. apply Item; [|discriminate].
    intros q S' s' cs' I' T' L'. apply (u_tag_sound n pc Hpc q S' s' cs' I' T'). lia. }
  right. eexists true, _, []. split; [reflexivity|]. rewrite app_nil_r. splits; auto.
  - apply fwd_raise. exact F.
  - discriminate.
Qed.

Lemma content_sound : forall n close p S s cs, plain_word close -> Inv p S cs -> top S s -> (len p < n)%nat ->
  (parse_content get_family ff n close p = UB /\ bad (p_rest p)) \/
  exists p', parse_content get_family ff n close p = Ok p' /\ fwd (p_lx p) (p_lx p') /\
    ((close = [] /\ p_err p' = p_err p /\ p_err p' = false) \/ (exists cs', Inv p' S (cs ++ cs')) \/ (close = [] /\ p_err p = true)) /\
    (p_err p' = false -> content_post close p p').
Proof.
  induction n as [|n IH]; intros close p S s cs Pc I T L; [lia|].
  assert (Hpc : pc_spec n (parse_content get_family ff n)).
  { intros cl q S' s' cs' Hc Pcl I' T' L'.
    destruct (IH cl q S' s' cs' Pcl I' T' L') as [H|(q' & H & F & D & P)]; [left; auto|].
    right. destruct D as [[C _]|[(cs2 & I2)|[C _]]]; try congruence.
    exists q', cs2. splits; auto. intros Hf. destruct (P Hf) as (d & Wd & R).
    exists d. destruct cl; [congruence|]. auto. }
  cbn [parse_content]. destruct (next_char (p_rest p)) as [c r] eqn:E. pose proof (next_fwd _ _ _ E) as F.
  destruct (c =c SENTINEL) eqn:Es.
  { apply eqc_true in Es. subst c. right. destruct close as [|c0 close].
    - destruct (finalize_ok (with_lx p (r, p_err p)) S s cs I T) as (p' & -> & X & O & _).
      exists p'. split; [reflexivity|]. cbn in X. unfold p_err, p_rest in *. rewrite X. cbn [fst snd].
      split; [exact F|]. split; [destruct (snd (p_lx p)); auto|].
      intros _. exists DEnd. split; [cbn; auto|]. cbn [text_of]. unfold p_rest.
      destruct (fst (p_lx p)) as [|x xs]; auto.
      cbn [next_char] in E. inversion E; subst. right. exists r. reflexivity.
    - eexists. split; [reflexivity|]. split; [apply fwd_raise; exact F|].
      split; [right; left; exists []; rewrite app_nil_r; exact I|discriminate]. }
  apply eqc_false in Es. pose proof (next_char_cons _ _ _ E Es) as R.
  assert (L1 : (List.length r < n)%nat) by (unfold len in L; rewrite R in L; cbn in L; lia).
  (* the rest of the loop, after an item [d0] *)
  assert (Step : forall p1 cs1 d0, fwd (r, p_err p) (p_lx p1) -> Inv p1 S (cs ++ cs1) ->
     (p_err p1 = false -> doc_wf d0 /\ p_rest p = text_of d0 ++ p_rest p1) ->
     let m := if p_err p1 then Ok p1 else parse_content get_family ff n close p1 in
     (m = UB /\ bad (p_rest p)) \/
     exists p', m = Ok p' /\ fwd (p_lx p) (p_lx p') /\
      ((close = [] /\ p_err p' = p_err p /\ p_err p' = false) \/ (exists cs', Inv p' S (cs ++ cs')) \/ (close = [] /\ p_err p = true)) /\
      (p_err p' = false -> content_post close p p')).
  { intros p1 cs1 d0 F1 I1 H1. cbn zeta.
    assert (F01 : fwd (p_lx p) (p_lx p1)) by (eapply fwd_trans; eauto).
    destruct (p_err p1) eqn:Ep1.
    - right. exists p1. splits; auto; [|congruence]. right. left. eauto.
    - destruct (H1 eq_refl) as (W0 & R0).
      assert (Lp1 : (len p1 < n)%nat).
      { destruct F1 as [Sx _]. apply suffix_length in Sx. unfold len, p_rest. cbn in Sx. lia. }
      destruct (IH close p1 S s (cs ++ cs1) Pc I1 T Lp1) as [[-> B]|(p' & -> & F2 & D & P)].
      + left. split; auto. eapply bad_suffix; [apply F01|exact B].
      + right. exists p'. split; auto. split; [eapply fwd_trans; eauto|]. split.
        * pose proof (err_back _ _ F01 Ep1) as Ep.
          destruct D as [(C & E1 & E2)|[(cs2 & I2)|[C E1]]].
          -- left. splits; auto; congruence.
          -- right. left. exists (cs1 ++ cs2). now rewrite app_assoc.
          -- congruence.
        * intros Hf. destruct (P Hf) as (d & Wd & Rd). exists (doc_app d0 d).
          split; [now apply doc_wf_app|]. rewrite text_of_app, R0. destruct close.
          -- destruct Rd as [->|(j & ->)]; [left; reflexivity|right; exists j; now rewrite app_assoc].
          -- rewrite Rd. now rewrite <- !app_assoc. }
  destruct (c =c c_lt) eqn:El.
  - apply eqc_true in El. subst c.
    destruct (open_bracket_sound n (parse_content get_family ff n) close (with_lx p (r, p_err p)) S s cs
                Hpc Pc I T ltac:(unfold len; cbn; lia))
      as [[-> B]|(stop & p1 & cs1 & -> & F1 & I1 & H1)]; cbn [obind].
    + left. split; auto. eapply bad_suffix; [apply F|exact B].
    + destruct stop.
      * right. exists p1. split; auto. split; [eapply fwd_trans; [exact F|exact F1]|].
        split; [right; left; eauto|]. intros Hf. destruct (H1 Hf) as (Hc & R1). exists DEnd.
        split; [cbn; auto|]. destruct close; [congruence|]. rewrite R. cbn in R1. rewrite R1. reflexivity.
      * destruct (p_err p1) eqn:Ep1.
        -- pose proof (Step p1 cs1 DEnd F1 I1) as St. rewrite Ep1 in St. apply St. congruence.
        -- destruct (H1 eq_refl) as (d0 & W0 & R0).
           pose proof (Step p1 cs1 d0 F1 I1) as St. rewrite Ep1 in St. apply St.
           intros _. split; auto. rewrite R. exact R0.
  - apply eqc_false in El.
    apply (Step (put (with_lx p (r, p_err p)) c) [s] (DChar c DEnd)).
    + apply fwd_refl.
    + apply Inv_put; auto.
    + intros _. split; [|exact R]. cbn. splits; auto. intros C. apply Es, sentinel_code, C.
Qed.

(** ** Completeness: the text of a document is accepted and gives its styles *)

Lemma close_complete n close p r : (0 < n)%nat -> close <> [] -> p_lx p = (bs "</" ++ close ++ r, false) ->
  parse_content get_family ff n close p = Ok (with_lx p (r, false)).
Proof.
  intros Hn Hc X. destruct n as [|n]; [lia|]. cbn [parse_content]. unfold p_rest, p_err. rewrite X.
  cbn [bs list_ascii_of_string app fst snd next_char].
  change ("<"%char =c SENTINEL) with false. change ("<"%char =c c_lt) with true. cbn [obind]. cbv iota.
  unfold parse_open_bracket. cbn [with_lx p_rest p_lx fst snd next_char p_err].
  change ("/"%char =c "!"%char) with false. change ("/"%char =c "/"%char) with true. cbv iota.
  destruct close as [|c0 close]; [congruence|].
  rewrite consume_word_complete. reflexivity.
Qed.

Definition content_complete_for (d : doc) : Prop :=
  forall n close p S s cs tail, doc_wf d -> Inv p S cs -> top S s ->
  p_lx p = (text_of d ++ tail, false) -> (len p < n)%nat ->
  exists n' p', parse_content get_family ff n close p = parse_content get_family ff n' close p' /\
    (List.length tail < n')%nat /\ p_lx p' = (tail, false) /\
    p_out p' = p_out p ++ map fst (styled get_family s d) /\
    Inv p' S (cs ++ map snd (styled get_family s d)).

(** The body of a tag, up to and including the closing tag. *)
Lemma body_complete d n nm p S s cs r : content_complete_for d -> doc_wf d -> Inv p S cs -> top S s ->
  p_lx p = (text_of d ++ bs "</" ++ nm ++ bs ">" ++ r, false) -> (len p < n)%nat ->
  exists p', parse_content get_family ff n (nm ++ bs ">") p = Ok p' /\ p_lx p' = (r, false) /\
    p_out p' = p_out p ++ map fst (styled get_family s d) /\
    Inv p' S (cs ++ map snd (styled get_family s d)).
Proof.
  intros H W I T X L. destruct (H n (nm ++ bs ">") p S s cs _ W I T X L) as (n' & p' & -> & L' & X' & O' & I').
  rewrite (close_complete n' (nm ++ bs ">") p' r).
  - eexists. split; [reflexivity|]. splits; auto.
  - lia.
  - destruct nm; discriminate.
  - rewrite X'. now rewrite <- !app_assoc.
Qed.

Lemma bool_tag_complete d n k nm p S s cs r : content_complete_for d -> doc_wf d -> Inv p S cs -> top S s ->
  p_lx p = (text_of d ++ bs "</" ++ nm ++ bs ">" ++ r, false) -> (len p < n)%nat ->
  exists p', parse_bool_tag (parse_content get_family ff n) k (nm ++ bs ">") p = Ok p' /\ p_lx p' = (r, false) /\
    p_out p' = p_out p ++ map fst (styled get_family (set_flag k s) d) /\
    Inv p' S (cs ++ map snd (styled get_family (set_flag k s) d)).
Proof.
  intros H W I T X L. unfold parse_bool_tag.
  destruct (push_bool_ok k p S cs s I T) as (p1 & -> & I1 & X1 & O1). cbn [obind].
  destruct (body_complete d n nm p1 _ (set_flag k s) cs r H W I1 (top_set_b _ _ _ _ T)) as (p2 & -> & X2 & O2 & I2).
  { congruence. } { unfold len, p_rest in *. now rewrite X1. }
  cbn [obind]. destruct (pop_bool_ok k p2 S _ true (st_b S k) I2) as (p3 & -> & I3 & X3 & O3).
  exists p3. split; auto. split; [congruence|]. split; [congruence|]. now apply Inv_set_b_id in I3.
Qed.

(** One tag, after its '<' has been read. *)
Definition tag_complete_for (t : tag) (d : doc) : Prop :=
  forall n close p S s cs r, tag_wf t -> doc_wf d -> Inv p S cs -> top S s ->
  p_lx p = (tag_name t ++ tag_attrs t ++ bs ">" ++ text_of d ++ close_tag t ++ r, false) -> (len p <= n)%nat ->
  exists p', parse_open_bracket get_family ff (parse_content get_family ff n) close p = Ok (false, p') /\
    p_lx p' = (r, false) /\ p_out p' = p_out p ++ map fst (styled get_family (apply_tag get_family t s) d) /\
    Inv p' S (cs ++ map snd (styled get_family (apply_tag get_family t s) d)).

Ltac word_step :=
  match goal with
  | |- context [consume_word ?w (?w' ++ ?r, ?e)] => rewrite (consume_word_complete w r e)
  | |- context [consume_char ?c (?c' :: ?r, ?e)] => rewrite (consume_char_complete c r e)
  end.

Lemma tag_complete t d : content_complete_for d -> tag_complete_for t d.
Proof.
  intros H n close p S s cs r Wt W I T X L.
  assert (Bool : forall q k nm, q = with_lx p (text_of d ++ bs "</" ++ nm ++ bs ">" ++ r, false) ->
    (List.length (text_of d ++ bs "</" ++ nm ++ bs ">" ++ r) < n)%nat ->
    exists p', omap (pair false) (parse_bool_tag (parse_content get_family ff n) k (nm ++ bs ">") q) = Ok (false, p') /\
      p_lx p' = (r, false) /\ p_out p' = p_out p ++ map fst (styled get_family (set_flag k s) d) /\
      Inv p' S (cs ++ map snd (styled get_family (set_flag k s) d))).
  { intros q k nm -> Lq.
    destruct (bool_tag_complete d n k nm (with_lx p (text_of d ++ bs "</" ++ nm ++ bs ">" ++ r, false)) S s cs r
                H W I T eq_refl Lq) as (p' & -> & A & B & C).
    exists p'. auto. }
  unfold len, p_rest in L. rewrite X in L. cbn [fst] in L.
  unfold parse_open_bracket, p_rest, p_err. rewrite X.
  destruct t as [| |long| | | |ats|ats]; cbn [apply_tag].
  - (* s *)
    apply (Bool _ Strike (bs "s") eq_refl). cbn in L |- *. repeat (rewrite !app_length in *; cbn in * ). lia.
  - apply (Bool _ Under (bs "u") eq_refl). cbn in L |- *. repeat (rewrite !app_length in *; cbn in * ). lia.
  - destruct long.
    + apply (Bool _ Small (bs "smallcaps") eq_refl). cbn in L |- *. repeat (rewrite !app_length in *; cbn in * ). lia.
    + apply (Bool _ Small (bs "sc") eq_refl). cbn in L |- *. repeat (rewrite !app_length in *; cbn in * ). lia.
  - apply (Bool _ Sub (bs "sub") eq_refl). cbn in L |- *. repeat (rewrite !app_length in *; cbn in * ). lia.
  - apply (Bool _ Super (bs "super") eq_refl). cbn in L |- *. repeat (rewrite !app_length in *; cbn in * ). lia.
  - (* italic *)
    set (q := with_lx p (text_of d ++ bs "</" ++ bs "i" ++ bs ">" ++ r, false)).
    assert (Lq : (len q < n)%nat) by (unfold len; cbn in L |- *; rewrite !app_length in *; cbn in *; lia).
    assert (Iq : Inv q S cs) by exact I.
    change (exists p', omap (pair false)
      (do cur <- rb_get_current_value (p_fonts q);
       let change := negb (f_style cur =? ITALIC) in
       do p <- (if change
             then push_font q {| f_family := f_family cur; f_weight := f_weight cur;
                                 f_style := ITALIC; f_size := f_size cur |}
             else Ok q);
       do p <- parse_content get_family ff n (bs "i" ++ bs ">") p;
       if change then pop_font p else Ok p) = Ok (false, p') /\
      p_lx p' = (r, false) /\ p_out p' = p_out p ++ map fst (styled get_family (apply_tag get_family TItalic s) d) /\
      Inv p' S (cs ++ map snd (styled get_family (apply_tag get_family TItalic s) d))).
    rewrite (current_font q S s cs Iq T). cbn [obind].
    destruct (f_style (s_font s) =? ITALIC) eqn:Ei; cbn [negb obind].
    + destruct (body_complete d n (bs "i") q S (apply_tag get_family TItalic s) cs r H W Iq) as (p2 & -> & X2 & O2 & I2); auto.
      { replace (apply_tag get_family TItalic s) with s; auto. destruct s as [[fa w sty sz] col st fl].
        cbn in *. unfold ITALIC in Ei. apply Z.eqb_eq in Ei. now subst sty. }
      exists p2. split; auto.
    + destruct (push_font_ok q S cs s {| f_family := f_family (s_font s); f_weight := f_weight (s_font s);
                                 f_style := ITALIC; f_size := f_size (s_font s) |} Iq T) as (p1 & -> & I1 & X1 & O1).
      cbn [obind].
      destruct (body_complete d n (bs "i") p1 _ (apply_tag get_family TItalic s) cs r H W I1) as (p2 & -> & X2 & O2 & I2); auto.
      { exact (top_set_f _ _ _ _ T). }
      { unfold len, p_rest in *. now rewrite X1. }
      cbn [obind]. destruct (pop_font_ok p2 S _ _ _ I2) as (p3 & -> & I3 & X3 & O3).
      exists p3. split; [reflexivity|]. split; [congruence|]. split; [|exact I3].
      rewrite O3, O2, O1. reflexivity.
  - (* font *)
    set (q0 := with_lx p (flat_map font_attr_text ats ++ c_gt :: text_of d ++ close_tag (TFont ats) ++ r, false)).
    change (exists p', omap (pair false)
      (do (a, l) <- parse_font_attributes get_family (Datatypes.S (List.length (p_rest q0))) fa_empty (p_lx q0);
    let p := with_lx q0 l in
    do cur <- rb_get_current_value (p_fonts p);
    let change := (family_ok (fa_family a) && negb (fa_family a =? f_family cur))
                  || (fa_size_change a && negb (fa_size a =? f_size cur))
                  || (fa_weight_change a && negb (fa_weight a =? f_weight cur)) in
    do p <- (if change
             then push_font p
                    {| f_family := if family_ok (fa_family a) then fa_family a else f_family cur;
                       f_weight := if fa_weight_change a then fa_weight a else f_weight cur;
                       f_style := f_style cur;
                       f_size := if fa_size_change a then fa_size a else f_size cur |}
             else Ok p);
    do p <- (if fa_color_change a then push_color p (fa_color a) else Ok p);
    do p <- parse_content get_family ff n (bs "font" ++ bs ">") p;
    do p <- (if change then pop_font p else Ok p);
    if fa_color_change a then pop_color p else Ok p) = Ok (false, p') /\
      p_lx p' = (r, false) /\ p_out p' = p_out p ++ map fst (styled get_family (apply_tag get_family (TFont ats) s) d) /\
      Inv p' S (cs ++ map snd (styled get_family (apply_tag get_family (TFont ats) s) d))).
    change (p_lx q0) with (flat_map font_attr_text ats ++ c_gt :: text_of d ++ close_tag (TFont ats) ++ r, false).
    rewrite (font_attributes_complete get_family ff); [|exact Wt|unfold p_rest; cbn; lia].
    cbn [obind]. set (q := with_lx q0 _). assert (Iq : Inv q S cs) by exact I. cbn zeta.
    rewrite (current_font q S s cs Iq T). cbn [obind].
    pose proof (font_attrs_meaning get_family ff ats (s_font s) (s_color s) Wt) as M. cbn zeta in M.
    set (a := fold_left _ ats fa_empty) in *.
    set (change := _ || _). set (nf := {| f_family := _; f_weight := _; f_style := _; f_size := _ |}).
    destruct (font_push_ok change (fa_color_change a) q S cs s nf (fa_color a) Iq T)
      as (q1 & q2 & -> & Hq2 & I2 & T2 & X2 & O2). cbn [obind]. rewrite Hq2. cbn [obind].
    assert (Hs : {| s_font := if change then nf else s_font s;
                    s_color := if fa_color_change a then fa_color a else s_color s;
                    s_stroke := s_stroke s; s_flag := s_flag s |} = apply_tag get_family (TFont ats) s).
    { cbn [apply_tag]. destruct M as (M1 & M2 & M3 & M4 & M5). rewrite M5. f_equal.
      assert (En : fold_left (font_attr_font get_family) ats (s_font s) = nf).
      { destruct (fold_left (font_attr_font get_family) ats (s_font s)); cbn in M1, M2, M3, M4.
        unfold nf. congruence. }
      rewrite En. destruct change eqn:Ech; auto. unfold nf.
      destruct (s_font s) as [fam w sty sz]. cbn in *. unfold change in Ech.
      apply orb_false_iff in Ech. destruct Ech as [Ech E3]. apply orb_false_iff in Ech. destruct Ech as [E1 E2].
      f_equal.
      - destruct (family_ok (fa_family a)); auto. cbn in E1. lia.
      - destruct (fa_weight_change a); auto. cbn in E3. lia.
      - destruct (fa_size_change a); auto. cbn in E2. lia. }
    rewrite Hs in T2.
    destruct (body_complete d n (bs "font") q2 _ _ cs r H W I2 T2) as (p2 & -> & X3 & O3 & I3).
    { rewrite X2. unfold q. cbn [with_lx p_lx]. unfold close_tag. cbn [tag_name]. now rewrite <- !app_assoc. }
    { unfold len, p_rest. rewrite X2. unfold q. cbn [with_lx p_lx fst].
      cbn [tag_name tag_attrs close_tag] in *. cbn in L |- *. repeat (rewrite !app_length in *; cbn in * ). lia. }
    cbn [obind]. destruct (font_pop_ok _ _ p2 S _ _ _ I3) as (p3 & p4 & -> & H4 & I4 & X4 & O4).
    cbn [obind]. rewrite H4. exists p4. split; [reflexivity|]. split; [congruence|]. split; [|exact I4].
    rewrite O4, O3, O2. reflexivity.
  - (* stroke *)
    set (q0 := with_lx p (flat_map stroke_attr_text ats ++ c_gt :: text_of d ++ close_tag (TStroke ats) ++ r, false)).
    change (exists p', omap (pair false)
      (do (k, l) <- parse_stroke_attributes ff (Datatypes.S (List.length (p_rest q0))) stroke_init (p_lx q0);
       let p := with_lx q0 l in
       do p <- push_stroke p k;
       do p <- parse_content get_family ff n (bs "stroke" ++ bs ">") p;
       pop_stroke p) = Ok (false, p') /\
      p_lx p' = (r, false) /\ p_out p' = p_out p ++ map fst (styled get_family (apply_tag get_family (TStroke ats) s) d) /\
      Inv p' S (cs ++ map snd (styled get_family (apply_tag get_family (TStroke ats) s) d))).
    change (p_lx q0) with (flat_map stroke_attr_text ats ++ c_gt :: text_of d ++ close_tag (TStroke ats) ++ r, false).
    rewrite (stroke_attributes_complete get_family ff); [|exact Wt|unfold p_rest; cbn; lia].
    cbn [obind]. set (q := with_lx q0 _). assert (Iq : Inv q S cs) by exact I. cbn zeta.
    set (k := fold_left _ ats stroke_init).
    destruct (push_stroke_ok q S cs s k Iq T) as (p1 & -> & I1 & X1 & O1). cbn [obind].
    destruct (body_complete d n (bs "stroke") p1 _ (apply_tag get_family (TStroke ats) s) cs r H W I1) as (p2 & -> & X2 & O2 & I2).
    { exact (top_set_k _ _ _ _ T). }
    { rewrite X1. unfold q. cbn [with_lx p_lx]. unfold close_tag. cbn [tag_name]. now rewrite <- !app_assoc. }
    { unfold len, p_rest. rewrite X1. unfold q. cbn [with_lx p_lx fst].
      cbn [tag_name tag_attrs close_tag] in *. cbn in L |- *. repeat (rewrite !app_length in *; cbn in * ). lia. }
    cbn [obind]. destruct (pop_stroke_ok p2 S _ _ _ I2) as (p3 & -> & I3 & X3 & O3).
    exists p3. split; [reflexivity|]. split; [congruence|]. split; [|exact I3].
    rewrite O3, O2, O1. reflexivity.
Qed.

Lemma content_complete d : content_complete_for d.
Proof.
  induction d as [|c d IH|b d IH|long d IH|t b IHb d IH]; intros n close p S s cs tail W I T X L.
  - exists n, p. cbn in *. rewrite !app_nil_r. splits; auto. unfold len, p_rest in L. now rewrite X in L.
  - cbn [text_of app] in X. destruct W as (W1 & W2 & W3).
    unfold len, p_rest in L. rewrite X in L. cbn [fst List.length] in L.
    destruct n as [|n]; [lia|]. cbn [parse_content]. unfold p_rest, p_err. rewrite X. cbn [fst snd next_char].
    replace (c =c SENTINEL) with false by (symmetry; apply eqc_false; intros C; apply W2, sentinel_code, C).
    replace (c =c c_lt) with false by (symmetry; apply eqc_false; exact W1).
    cbn [put with_lx p_lx snd]. set (q := put (with_lx p (text_of d ++ tail, false)) c).
    destruct (IH n close q S s (cs ++ [s]) tail W3) as (n' & p' & E & L' & X' & O' & I').
    { apply Inv_put; auto. } { auto. } { reflexivity. } { unfold len; cbn; lia. }
    exists n', p'. split; [exact E|]. splits; auto.
    + rewrite O'. cbn. now rewrite <- app_assoc.
    + cbn [styled map snd]. now rewrite <- app_assoc in I'.
  - cbn [text_of] in X. destruct W as (Wb & W).
    unfold len, p_rest in L. rewrite X in L. cbn [fst] in L.
    destruct n as [|n]; [lia|]. cbn [parse_content]. unfold p_rest, p_err. rewrite X.
    rewrite <- !app_assoc. rewrite <- !app_assoc in L.
    cbn [bs list_ascii_of_string app fst snd next_char].
    change ("<"%char =c SENTINEL) with false. change ("<"%char =c c_lt) with true. cbv iota.
    unfold parse_open_bracket. cbn [with_lx p_rest p_lx fst snd next_char p_err].
    change ("!"%char =c "!"%char) with true. cbv iota. cbn [with_lx p_lx].
    change ("-"%char :: "-"%char :: b ++ "-"%char :: "-"%char :: ">"%char :: text_of d ++ tail)
      with (bs "--" ++ b ++ bs "-->" ++ (text_of d ++ tail)).
    unfold p_rest, p_err. cbn [fst snd p_lx with_lx next_char].
    change ("!"%char =c "!"%char) with true. cbv iota.
    change (match b ++ bs "-->" ++ (text_of d ++ tail) with _ => ?x end) with x.
    rewrite (parse_comment_complete b (text_of d ++ tail) false Wb). cbn [obind with_lx p_lx snd].
    set (q := with_lx _ _).
    destruct (IH n close q S s cs tail W I T eq_refl) as (n' & p' & E & L' & X' & O' & I').
    { unfold len, q. cbn. cbn in L. repeat (rewrite !app_length in *; cbn in L). lia. }
    exists n', p'. split; [exact E|]. splits; auto.
  - cbn [text_of] in X. cbn in W.
    unfold len, p_rest in L. rewrite X in L. cbn [fst] in L.
    destruct n as [|n]; [lia|]. cbn [parse_content]. unfold p_rest, p_err. rewrite X.
    destruct (IH n close (with_lx p (text_of d ++ tail, false)) S s cs tail W I T eq_refl) as (n' & p' & E & L' & X' & O' & I').
    { unfold len. cbn. destruct long; cbn in L; lia. }
    exists n', p'. split; [|splits; auto]. rewrite <- E. destruct long; reflexivity.
  - cbn [text_of] in X. destruct W as (Wt & Wb & W).
    unfold len, p_rest in L. rewrite X in L. cbn [fst] in L.
    destruct n as [|n]; [lia|]. cbn [parse_content]. unfold p_rest, p_err. rewrite X.
    unfold open_tag. rewrite <- !app_assoc.
    unfold open_tag in L. rewrite <- !app_assoc in L.
    cbn [bs list_ascii_of_string app fst snd next_char].
    change ("<"%char =c SENTINEL) with false. change ("<"%char =c c_lt) with true. cbv iota.
    destruct (tag_complete t b IHb n close
      (with_lx p (tag_name t ++ tag_attrs t ++ bs ">" ++ text_of b ++ close_tag t ++ text_of d ++ tail, false))
      S s cs (text_of d ++ tail) Wt Wb I T eq_refl) as (p1 & E1 & X1 & O1 & I1).
    { unfold len. cbn in L |- *. lia. }
    cbn [bs list_ascii_of_string app] in E1. rewrite E1. cbn [obind]. unfold p_err. rewrite X1. cbn [snd].
    destruct (IH n close p1 S s _ tail W I1 T X1) as (n' & p' & E & L' & X' & O' & I').
    { unfold len, p_rest. rewrite X1. cbn [fst]. cbn in L. repeat (rewrite !app_length in *; cbn in L). lia. }
    exists n', p'. split; [exact E|]. splits; auto.
    + rewrite O', O1. cbn [with_lx p_out styled]. now rewrite map_app, app_assoc.
    + cbn [styled]. now rewrite map_app, app_assoc.
Qed.

(** ** The whole function *)

Section Top.
Variables (f : font) (c : color) (k : stroke).
Let S0 : stacks := {| st_f := [f]; st_c := [c]; st_k := [k]; st_b := fun _ => [false] |}.
Let s0 := base_style f c k.

Lemma init_inv text : Inv (parser_init text f c k) S0 [].
Proof. unfold Inv, parser_init; cbn. splits; try apply rb_inv_make. auto. intros []; apply rb_inv_make. Qed.
Lemma init_top : top S0 s0.
Proof. unfold top; cbn. splits; eauto. Qed.

Lemma end_complete n p : (0 < n)%nat ->
  (p_lx p = ([], false) \/ exists junk, p_lx p = (ch 255 :: junk, false)) ->
  exists l, snd l = false /\ parse_content get_family ff n [] p = finalize_runs (with_lx p l).
Proof.
  intros Hn X. destruct n as [|n]; [lia|]. cbn [parse_content]. unfold p_rest, p_err.
  destruct X as [X|(j & X)]; rewrite X; cbn [fst snd next_char].
  - exists ([], false). auto.
  - change (ch 255 =c SENTINEL) with true. exists (j, false). auto.
Qed.

Lemma markup_content text d : is_markup_of get_family ff text d ->
  exists p, parse_content get_family ff (Datatypes.S (List.length text)) [] (parser_init text f c k) = Ok p /\
    p_err p = false /\ p_out p = map fst (styled get_family s0 d) /\
    (let ss := map snd (styled get_family s0 d) in
     table_gives (rb_get (p_fonts p)) (map s_font ss) /\
     table_gives (rb_get (p_colors p)) (map s_color ss) /\
     table_gives (rb_get (p_strokes p)) (map s_stroke ss) /\
     forall b, table_gives (rb_get (get_bb b (p_bools p))) (map (fun s => s_flag s b) ss)).
Proof.
  intros (W & Ht).
  assert (Hx : exists tail, text = text_of d ++ tail /\ (tail = [] \/ exists junk, tail = ch 255 :: junk)).
  { destruct Ht as [->|(j & ->)]; [exists []|exists (ch 255 :: j)]; rewrite ?app_nil_r; eauto. }
  destruct Hx as (tail & Et & Hx).
  destruct (content_complete d (Datatypes.S (List.length text)) [] (parser_init text f c k) S0 s0 [] tail W
              (init_inv text) init_top) as (n' & p1 & -> & L1 & X1 & O1 & I1).
  { cbn. now rewrite Et. } { unfold len; cbn; lia. }
  destruct (end_complete n' p1 ltac:(lia)) as (l & El & ->).
  { rewrite X1. destruct Hx as [->|(j & ->)]; eauto. }
  destruct (finalize_ok (with_lx p1 l) S0 s0 _ I1 init_top) as (p & -> & X & O & G1 & G2 & G3 & G4).
  exists p. split; [reflexivity|]. unfold p_err. rewrite X, O. cbn [with_lx p_lx p_out]. splits; auto.
Qed.

Lemma parse_markup text d : is_markup_of get_family ff text d ->
  exists runs, parse_inline_formatting get_family ff text f c k = Ok (map fst (styled get_family s0 d), runs) /\
    runs_give runs (map snd (styled get_family s0 d)).
Proof.
  intros M. destruct (markup_content text d M) as (p & E & Ep & O & G1 & G2 & G3 & G4).
  unfold parse_inline_formatting. rewrite E. cbn [obind]. unfold get_result. rewrite Ep, O.
  eexists. split; [reflexivity|]. unfold runs_give; cbn. splits; auto.
Qed.

Lemma base_of {T} (b : run_builder T) v cs : rb_inv b [v] cs -> rb_base b = Ok v.
Proof. intros (t & _ & Hst & _). unfold rb_base. now rewrite Hst. Qed.

Lemma parse_cases text :
  (parse_inline_formatting get_family ff text f c k = UB /\ bad text) \/
  (exists d, is_markup_of get_family ff text d) \/
  (parse_inline_formatting get_family ff text f c k = Ok (make_default_formatting_runs text f c k) /\
   ~ exists d, is_markup_of get_family ff text d).
Proof.
  destruct (content_sound (Datatypes.S (List.length text)) [] (parser_init text f c k) S0 s0 []
    ltac:(constructor) (init_inv text) init_top ltac:(unfold len; cbn; lia))
    as [[E B]|(p & E & F & D & P)].
  - left. unfold parse_inline_formatting. rewrite E. auto.
  - right. destruct (p_err p) eqn:Ep.
    + right. assert (I : exists cs, Inv p S0 cs).
      { destruct D as [(_ & _ & D)|[(cs & D)|(_ & D)]]; [congruence|eauto|discriminate]. }
      destruct I as (cs & _ & I1 & I2 & I3 & _). split.
      * unfold parse_inline_formatting. rewrite E. cbn [obind]. unfold get_result. rewrite Ep.
        rewrite (base_of _ _ _ I1), (base_of _ _ _ I2), (base_of _ _ _ I3). reflexivity.
      * intros (d & M). destruct (markup_content text d M) as (p' & E' & Ep' & _). congruence.
    + left. destruct (P eq_refl) as (d & Wd & R). exists d. split; auto.
Qed.
End Top.

(** Innermost setter. *)
Lemma first_gen {A} (g : tag -> option A) (get : style -> A) :
  (forall t s, get (apply_tag get_family t s) = match g t with Some a => a | None => get s end) ->
  forall d path s0 s, get s = innermost g path (get s0) ->
  map (fun q => (fst q, get (snd q))) (styled get_family s d)
  = map (fun q => (fst q, innermost g (snd q) (get s0))) (paths path d).
Proof.
  intros Hg d. induction d as [|x d IH|b d IH|long d IH|t b IHb d IH]; intros path s0 s Hs; cbn [styled paths map]; auto.
  - cbn [fst snd]. rewrite Hs. f_equal. now apply IH.
  - rewrite !map_app. rewrite (IHb (t :: path) s0), (IH path s0 s); auto. cbn [innermost]. rewrite Hg.
    destruct (g t); auto.
Qed.

Lemma fold_last {A B C} (upd : A -> B -> A) (get : A -> C) (g : B -> option C) :
  (forall a b, get (upd a b) = match g b with Some c => c | None => get a end) ->
  forall l a, get (fold_left upd l a) = match last_some g l with Some c => c | None => get a end.
Proof.
  intros H l. induction l as [|b l IH]; intros a; cbn [fold_left last_some]; auto.
  rewrite IH. destruct (last_some g l); auto.
Qed.

Section Inner.
Variable s0 : style.
Lemma inner_style d : let q := styled get_family s0 d in let ps := paths [] d in
  map fst q = map fst ps /\
  forall i x path, nth_error ps i = Some (x, path) -> exists s, nth_error q i = Some (x, s) /\
    f_family (s_font s) = innermost (sets_family get_family) path (f_family (s_font s0)) /\
    f_size (s_font s) = innermost sets_size path (f_size (s_font s0)) /\
    f_weight (s_font s) = innermost sets_weight path (f_weight (s_font s0)) /\
    f_style (s_font s) = innermost sets_slant path (f_style (s_font s0)) /\
    s_color s = innermost sets_color path (s_color s0) /\
    s_stroke s = innermost sets_stroke path (s_stroke s0) /\
    forall k, s_flag s k = innermost (sets_flag k) path (s_flag s0 k).
Proof.
  cbn zeta.
  assert (G : forall A (g : tag -> option A) (get : style -> A),
    (forall t s, get (apply_tag get_family t s) = match g t with Some a => a | None => get s end) ->
    map (fun q => (fst q, get (snd q))) (styled get_family s0 d)
    = map (fun q => (fst q, innermost g (snd q) (get s0))) (paths [] d)).
  { intros. apply first_gen; auto. }
  assert (G1 := G _ (sets_family get_family) (fun s => f_family (s_font s))).
  assert (G2 := G _ sets_size (fun s => f_size (s_font s))).
  assert (G3 := G _ sets_weight (fun s => f_weight (s_font s))).
  assert (G4 := G _ sets_slant (fun s => f_style (s_font s))).
  assert (G5 := G _ sets_color s_color).
  assert (G6 := G _ sets_stroke s_stroke).
  assert (G7 := fun k => G _ (sets_flag k) (fun s => s_flag s k)). clear G.
  cbn beta in *.
  assert (Hf : map fst (styled get_family s0 d) = map fst (paths [] d)).
  { assert (E := f_equal (map fst) (G6 ltac:(intros [| | | | | | |] s; reflexivity))).
    rewrite !map_map in E. exact E. }
  split; auto. intros i x path Hn.
  assert (Hl : (i < List.length (styled get_family s0 d))%nat).
  { rewrite <- (map_length fst), Hf, map_length. apply nth_error_Some. congruence. }
  destruct (nth_error (styled get_family s0 d) i) as [[x' s]|] eqn:Es; [|apply nth_error_None in Es; lia].
  assert (x' = x).
  { assert (E := f_equal (fun l => nth_error l i) Hf). cbn beta in E. rewrite !nth_error_map, Es, Hn in E. now injection E. }
  subst x'. exists s. split; auto.
  Ltac inner H Es Hn := let E := fresh in pose proof (f_equal (fun l => nth_error l _) H) as E; cbn beta in E;
    rewrite !nth_error_map, Es, Hn in E; injection E as E; exact E.
  assert (Fin : forall A (g : tag -> option A) (get : style -> A),
    map (fun q => (fst q, get (snd q))) (styled get_family s0 d)
    = map (fun q => (fst q, innermost g (snd q) (get s0))) (paths [] d) ->
    get s = innermost g path (get s0)).
  { intros A g get H. assert (E := f_equal (fun l => nth_error l i) H). cbn beta in E.
    rewrite !nth_error_map, Es, Hn in E. cbn in E. now injection E. }
  splits.
  - apply (Fin _ _ (fun s => f_family (s_font s))), G1. intros [| | | | | |l|l] s'; try reflexivity. cbn.
    apply (fold_last (font_attr_font get_family) f_family). intros ? []; reflexivity.
  - apply (Fin _ _ (fun s => f_size (s_font s))), G2. intros [| | | | | |l|l] s'; try reflexivity. cbn.
    apply (fold_last (font_attr_font get_family) f_size). intros ? []; reflexivity.
  - apply (Fin _ _ (fun s => f_weight (s_font s))), G3. intros [| | | | | |l|l] s'; try reflexivity. cbn.
    apply (fold_last (font_attr_font get_family) f_weight). intros ? []; reflexivity.
  - apply (Fin _ _ (fun s => f_style (s_font s))), G4. intros [| | | | | |l|l] s'; try reflexivity. cbn.
    rewrite (fold_last (font_attr_font get_family) f_style (fun _ => None)).
    + assert (N : last_some (fun _ : font_attr => @None Z) l = None) by (induction l as [|? ? IHl]; cbn; [|rewrite IHl]; auto).
      now rewrite N.
    + intros ? []; reflexivity.
  - apply (Fin _ _ s_color), G5. intros [| | | | | |l|l] s'; try reflexivity. cbn.
    apply (fold_last font_attr_color (fun c => c)). intros ? []; reflexivity.
  - apply (Fin _ _ s_stroke), G6. intros [| | | | | |l|l] s'; reflexivity.
  - intros k. apply (Fin _ _ (fun s => s_flag s k)), G7. intros [| | | | | |l|l] s'; destruct k; reflexivity.
Qed.
End Inner.

(** The displayed text. *)
Lemma styled_no_lt d : doc_wf d -> forall s, ~ In "<"%char (map fst (styled get_family s d)).
Proof.
  induction d as [|x d IH|b d IH|long d IH|t b IHb d IH]; intros W s; cbn [styled map] in *; auto.
  - destruct W as (A & B & W). intros [E|E]; [cbn in E; congruence|]. eapply IH; eauto.
  - destruct W as (A & W). apply IH; auto.
  - destruct W as (A & B & W). rewrite map_app, in_app_iff. intros [E|E]; [eapply IHb|eapply IH]; eauto.
Qed.

Fixpoint plain_doc (text : bytes) : doc :=
  match text with [] => DEnd | x :: r => DChar x (plain_doc r) end.
Lemma plain_text_of text : text_of (plain_doc text) = text.
Proof. induction text; cbn; congruence. Qed.
Lemma plain_wf text : ~ In "<"%char text -> ~ In (ch 255) text -> doc_wf (plain_doc text).
Proof.
  induction text as [|x text IH]; cbn; auto. intros H1 H2. splits.
  - intros ->. auto.
  - intros E. apply H2. left. apply (sentinel_code x) in E. now subst.
  - apply IH; auto.
Qed.
Lemma plain_styled s text : styled get_family s (plain_doc text) = map (fun x => (x, s)) text.
Proof. induction text as [|x t IH]; cbn; [|rewrite IH]; auto. Qed.

End P.

(** Subsequences. *)
Lemma subseq_refl l : subseq l l.
Proof. induction l; constructor; auto. Qed.
Lemma subseq_skip a b l : subseq a b -> subseq a (l ++ b).
Proof. intros. induction l; cbn; auto. now constructor. Qed.
Lemma subseq_app a b a' b' : subseq a b -> subseq a' b' -> subseq (a ++ a') (b ++ b').
Proof. intros H H'. induction H; cbn; auto; now constructor. Qed.
Lemma styled_subseq g s d : subseq (map fst (styled g s d)) (text_of d).
Proof.
  revert s. induction d as [|x d IH|b d IH|long d IH|t b IHb d IH]; intros s; cbn [styled map text_of].
  - constructor.
  - constructor. apply IH.
  - repeat apply subseq_skip. apply IH.
  - apply subseq_skip, IH.
  - rewrite map_app. apply subseq_skip. apply subseq_app; auto. apply subseq_skip. auto.
Qed.
Lemma subseq_app_r a b l : subseq a b -> subseq a (b ++ l).
Proof. intros H. rewrite <- (app_nil_r a). apply subseq_app; auto. induction l; constructor; auto. Qed.
