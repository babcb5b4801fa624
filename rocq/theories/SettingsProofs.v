(** Proofs about the settings of a text box. *)
From Verif Require Import Base BaseFacts PackingModel LayoutModel LayoutSpec CursorModel CursorSpec TextBoxModel TextBoxSpec TextBoxProofs SettingsModel BlinkSpec SettingsSpec.
Open Scope Z_scope.

Section Proofs.
Variable builder : Z -> Q -> Q -> xalign -> yalign -> bool -> list Z -> layout.
Variable strip : list Z -> list Z.
Variable tall : Z -> Q.
Variables (B : list Z -> Z -> Prop) (following preceding : list Z -> Z -> Z) (decode : list Z -> Z -> Z) (white : Z -> bool).
Hypothesis GS : good_stops B following preceding.
Hypothesis GL : forall f w h x y, good_layouts (builder f w h x y false) B.
Notation occurs := (occurs builder strip tall following preceding decode white).
Notation occur := (occur builder strip tall following preceding decode white).
Notation happens := (happens builder B following decode white).
Notation happen := (happen builder B following decode white).

Lemma laid_build s f : se_font s = Some f -> laid_under builder s = box_build builder s false.
Proof. destruct s. cbn. intros ->. reflexivity. Qed.
(** The invariant: without a font nothing is laid out. *)
Definition kept (b : box) (s : settings) : Prop := tb_rich b = false /\ fits b /\
  match se_font s with
  | None => tb_font b = false
  | Some f => ready (se_width s) (se_x s) (box_build builder s) (tall f) b
  end.
Lemma kept_up b s : kept b s -> up_to_date builder tall b s.
Proof.
  intros (_ & _ & K) f E. rewrite (laid_build s f E). rewrite E in K. destruct K as (_ & _ & (_ & L & L0)). split; [intros NE; apply L; exact NE|].
  unfold caret_of. destruct (tb_text b) eqn:T; [rewrite L0 by reflexivity; repeat split; reflexivity|]. apply L. discriminate.
Qed.
Lemma redo_kept b s : tb_rich b = false -> fits b -> tb_font b = (match se_font s with Some _ => true | None => false end) ->
  exists b', redo builder strip tall s b = Ok (b', s) /\ kept b' s /\ view_of b' = view_of b.
Proof.
  intros R F FO. unfold redo. destruct (se_font s) as [f|] eqn:E.
  - destruct (recalc_ready (se_width s) (se_x s) (box_build builder s) strip (tall f) B (GL _ _ _ _ _) b (conj R FO) F) as (b' & EQ & RD & V).
    unfold font_of. rewrite E. exists b'. rewrite EQ. split; [reflexivity|]. split; [|exact V]. split; [apply RD|]. split; [apply RD|]. rewrite E. exact RD.
  - unfold recalc. rewrite R, FO. cbn [negb]. eexists. split; [reflexivity|]. split; [|reflexivity]. split; [exact R|]. split; [exact F|]. rewrite E. exact FO.
Qed.
Lemma kept_font b s : kept b s -> tb_font b = match se_font s with Some _ => true | None => false end.
Proof. intros (_ & _ & K). destruct (se_font s); [|exact K]. apply K. Qed.
Definition clip_ok (clip : option (list Z)) : Prop := match clip with Some s => valid_utf8 s | None => True end.

Lemma occurs_ok b s clip e : kept b s -> clip_ok clip -> may_happen (view_of b) s clip e ->
  exists b' s' clip', occurs (b, s, clip) e = Ok (b', s', clip') /\ kept b' s' /\ clip_ok clip' /\ happens (view_of b) s clip e (view_of b') s' clip'.
Proof.
  intros K CO M. pose proof K as (R & F & KF). pose proof (kept_font _ _ K) as FO.
  assert (SET : forall b1 s1, tb_rich b1 = false -> view_of b1 = view_of b -> tb_font b1 = (match se_font s1 with Some _ => true | None => false end) -> set_to e s s1 ->
    match e with EDo _ => False | _ => True end ->
    exists b' s' clip', (do st <- redo builder strip tall s1 b1; Ok (st, clip)) = Ok (b', s', clip') /\ kept b' s' /\ clip_ok clip' /\ happens (view_of b) s clip e (view_of b') s' clip').
  { intros b1 s1 R1 V1 F1 ST NE. assert (FF : fits b1) by (unfold fits; rewrite V1; exact F). destruct (redo_kept b1 s1 R1 FF F1) as (b' & E & K' & V').
    rewrite E. cbn [obind]. exists b', s1, clip. split; [reflexivity|]. split; [exact K'|]. split; [exact CO|]. split; [exact ST|]. rewrite V', V1. destruct e; try contradiction; auto. }
  destruct e as [c|f|a|a|x|x h]; cbn [SettingsModel.occurs].
  2-6: apply SET; try exact R; try reflexivity; try exact FO; try exact I; repeat split.
  destruct M as (AL & MF). destruct (se_font s) as [f|] eqn:EF.
  - destruct (step_ok (se_width s) (se_x s) (box_build builder s) strip (tall f) B following preceding decode white GS (GL _ _ _ _ _) b clip c KF CO AL) as (b' & clip' & E & RD & CO' & D).
    unfold font_of. rewrite EF, E. cbn [obind]. exists b', s, clip'. split; [reflexivity|]. split; [split; [apply RD|split; [apply RD|rewrite EF; exact RD]]|]. split; [exact CO'|].
    split; [repeat split|]. rewrite (laid_build s f EF). exact D.
  - assert (KEEP : forall b', tb_rich b' = false -> fits b' -> tb_font b' = false -> kept b' s) by (intros b' A1 A2 A3; split; [exact A1|split; [exact A2|rewrite EF; exact A3]]).
    assert (SAME : set_to (EDo c) s s) by (repeat split).
    destruct c; try congruence; cbn [step obind].
    + destruct AL as (V & SZ & C & A). unfold set_text, recalc. cbn [tb_font with_text]. rewrite FO. cbn [negb obind]. eexists _, s, clip. split; [reflexivity|].
      split; [apply KEEP; [exact R|split; [exact V|split; [exact SZ|split; [exact C|exact A]]]|exact FO]|]. split; [exact CO|]. split; [exact SAME|]. repeat split.
    + eexists b, s, _. split; [reflexivity|]. split; [exact K|]. split; [exact AL|]. split; [exact SAME|]. split; reflexivity.
    + exists (update b dt), s, clip. split; [reflexivity|]. unfold update. destruct (flash_loop _ _ _) as (t & n). split; [apply KEEP; [exact R|exact F|exact FO]|]. split; [exact CO|]. split; [exact SAME|]. split; reflexivity.
    + eexists _, s, clip. split; [reflexivity|]. split; [apply KEEP; [exact R|exact F|exact FO]|]. split; [exact CO|]. split; [exact SAME|]. repeat split.
    + cbn in AL. subst x. unfold recalc. cbn [tb_font with_modes tb_rich]. rewrite FO. cbn [negb obind]. eexists _, s, clip. split; [reflexivity|].
      split; [apply KEEP; [reflexivity|exact F|exact FO]|]. split; [exact CO|]. split; [exact SAME|]. split; reflexivity.
    + eexists _, s, clip. split; [reflexivity|]. split; [apply KEEP; [exact R|exact F|exact FO]|]. split; [exact CO|]. split; [exact SAME|]. repeat split.
    + eexists _, s, clip. split; [reflexivity|]. split; [apply KEEP; [exact R|exact F|exact FO]|]. split; [exact CO|]. split; [exact SAME|]. split; reflexivity.
Qed.
Lemma occur_ok es : forall b s clip, kept b s -> clip_ok clip -> may_all_happen builder B following decode white (view_of b) s clip es ->
  exists b' s' clip', occur (b, s, clip) es = Ok (b', s', clip') /\ kept b' s' /\ happen (view_of b) s clip es (view_of b') s' clip'.
Proof.
  induction es as [|e es IH]; intros b s clip K CO M.
  - exists b, s, clip. split; [reflexivity|]. split; [exact K|]. repeat split.
  - destruct M as (M1 & M2). destruct (occurs_ok b s clip e K CO M1) as (b1 & s1 & clip1 & E & K1 & C1 & H). cbn [SettingsModel.occur]. rewrite E. cbn [obind].
    pose proof K1 as (_ & F1 & _). destruct (IH b1 s1 clip1 K1 C1 (M2 _ _ _ H F1)) as (b' & s' & clip' & E' & K' & H'). exists b', s', clip'. split; [exact E'|]. split; [exact K'|].
    exists (view_of b1), s1, clip1. auto.
Qed.
End Proofs.
