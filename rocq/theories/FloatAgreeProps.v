(** C109: clicks on the grid of 128ths. *)
From Coq Require Import ZArith QArith Lia.
From Verif Require Import Base BaseFacts FloatModel PackingModel LayoutModel LayoutSpec LayoutProofs LayoutProps FloatLayoutModel FloatLayoutSpec FloatLayoutProofs FloatLayoutProps
  FloatHitModel FloatHitProps FloatSelectSpec FloatSelectProps FloatAgreeSpec FloatAgreeProofs.
Open Scope Z_scope.

(** With numbers in 26.6 fixed point up to 32768, clicks on halves of 64ths and one glyph
    to a caret stop, floats lose nothing: every click gives the very cursor that exact
    arithmetic gives, its affinity included. *)
Theorem C109_agrees : forall following d y lay ps ws ascents hs w W al x X q Q, doc_ok d -> stored d y lay ->
  Forall run_ok (doc_runs d) -> Forall (one_stop following) (doc_runs d) -> fitting 15 d ws ascents hs ->
  Forall2 (on_grid 64 15) ps (lo_pos lay) -> on_grid 64 15 W w -> on_grid 128 15 X x -> on_grid 128 15 Q q ->
  closest_f following lay ps ws (descents None hs) W al X Q = closest_to_position following lay w al x q.
Proof.
  intros following d y lay ps ws ascents hs w W al x X q Q OKD ST RO OS FIT PS GW GX GQ. pose proof (stored_eq OKD ST); subst lay.
  unfold closest_f, closest_to_position. rewrite (line_same 15 d y ws ascents hs Q q ltac:(lia) FIT GQ).
  destruct (closest_in (descents None hs) Q) as (k0 & E & K). rewrite (line_same 15 d y ws ascents hs Q q ltac:(lia) FIT GQ) in E. rewrite E. cbn [obind].
  pose proof (Forall2_len _ _ _ (fit_heights _ _ _ _ _ FIT)) as LH. rewrite descents_length, LH in K. rewrite lines_length.
  destruct (Nat.eq_dec (length d) 0) as [Z|Z]; [destruct d; [reflexivity|discriminate]|].
  set (k := if (k0 =? length d)%nat then (length d - 1)%nat else k0).
  assert (KL : (k < length d)%nat) by (unfold k; destruct (Nat.eqb_spec k0 (length d)); lia).
  destruct (nth_error d k) as [s|] eqn:NS; [|apply nth_error_None in NS; lia].
  destruct (Forall2_get _ _ _ _ _ (fit_widths _ _ _ _ _ FIT) NS) as (lw & NW & GL).
  eapply hit_same; [exact NS| |exact (line_in _ _ _ _ NS RO)|exact (line_in _ _ _ _ NS OS)|exact NW|exact GL|exact GW|exact GX|exact PS].
  unfold doc_ok in OKD. rewrite Forall_forall in OKD. exact (OKD s (nth_error_In _ _ NS)).
Qed.
Print Assumptions C109_agrees.

Lemma on_grid_wider n j k f q : 0 <= j <= k -> on_grid n j f q -> on_grid n k f q.
Proof.
  intros K (X & z & E & B). split; [exact X|]. exists z. split; [exact E|]. assert (2 ^ j <= 2 ^ k) by (apply Z.pow_le_mono_r; lia). nia.
Qed.
Lemma fitting_wider j k d ws ascents hs : 0 <= j <= k -> fitting j d ws ascents hs -> fitting k d ws ascents hs.
Proof.
  intros K [A B C D E]. assert (P : (inject_Z (2 ^ j) <= inject_Z (2 ^ k))%Q) by (rewrite <- Zle_Qle; apply Z.pow_le_mono_r; lia). constructor.
  - clear -A K. induction A as [|? ? ? ? H _ IH]; constructor; [exact (on_grid_wider _ _ _ _ _ K H)|exact IH].
  - clear -B K. induction B as [|? ? ? ? H _ IH]; constructor; [exact (on_grid_wider _ _ _ _ _ K H)|exact IH].
  - clear -C K. induction C as [|? ? ? ? [H N] _ IH]; constructor; [split; [exact (on_grid_wider _ _ _ _ _ K H)|exact N]|exact IH].
  - eapply Qle_trans; eassumption.
  - clear -E P. induction E as [|? ? [H L] _ IH]; constructor; [split; [|exact L]|exact IH]. clear -H P. induction H; constructor; [eapply Qle_trans; eassumption|assumption].
Qed.

Lemma small_positions ps qs : positions ps qs -> forallb (fun q => Qle_bool q 32768) qs = true -> Forall2 (on_grid 64 15) ps qs.
Proof.
  unfold positions. induction 1 as [|f q fs qs (z & B & E & ->) _ IH]; intros S; [constructor|]. cbn [forallb] in S. apply andb_prop in S as [S1 S2].
  constructor; [|exact (IH S2)]. split; [|exists z; split; [exact E|]].
  - apply exactly_fin. rewrite (Qreals.Qeq_eqR _ _ E), Q2R_64. apply fixed_exact. lia.
  - apply Qle_bool_iff in S1. rewrite E in S1. unfold Qle in S1. cbn [Qnum Qden inject_Z] in S1. lia.
Qed.

(** A text of three lines and both directions, right-aligned.  Characters 4 and 5 are one
    glyph and have no caret stop between them. *)
Definition whole (c : Z) : Z := if c =? 4 then 6 else each c.
Example C109_agrees_witness : let d := sample in let lay := layout_of d 0 in let ps := map to_f (lo_pos lay) in
  let ws := map at_z [80; 10; 0] in let ascents := map at_z [8; 8; 8] in let hs := map at_z [12; 14; 10] in
  Forall (one_stop whole) (doc_runs d) /\ fitting 15 d ws ascents hs /\ Forall2 (on_grid 64 15) ps (lo_pos lay) /\
  closest_f whole lay ps ws (descents None hs) (at_z 100) XRight (at_z 64) (at_z 5) = Ok 4 /\
  closest_to_position whole lay 100 XRight 64 5 = Ok 4.
Proof.
  cbv zeta. split.
  { assert (Y : forall r, (forall j, (j < run_len r)%nat -> whole (nth j (logical_chars r) (sr_end r)) = char_after r j) -> one_stop whole r) by (intros r H j J _; exact (H j J)).
    unfold doc_runs. cbn [flat_map sample mkline sl_runs app].
    repeat (first [apply Forall_nil|apply Forall_cons; [apply Y; intros [|[|[|j]]] J; try (vm_compute; reflexivity); cbn in J; lia|]]). }
  split; [exact (fitting_wider 7 15 _ _ _ _ ltac:(lia) (proj1 C110_witness))|]. split.
  { apply small_positions; [exact (proj1 C77_witness)|vm_compute; reflexivity]. }
  vm_compute. split; reflexivity.
Qed.
