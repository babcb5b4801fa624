(** C08, C09: packed cursor positions and font faces. *)
From Verif Require Import Base PackingModel PackingProofs.
Open Scope Z_scope.

(** C08.  Any history of setters, from any 32-bit state, reads back like a plain
    pair (position, affinity): each setter changes its own component only. *)
Theorem C08_cursor_history :
  forall (os : list cp_op) (d : Z), 0 <= d < 2 ^ 32 ->
  Forall (fun o => match o with CSetPosition p => 0 <= p < 2 ^ 31 | _ => True end) os ->
  let d' := fold_left cp_step os d in
  0 <= d' < 2 ^ 32 /\
  (cp_get_position d', cp_get_affinity d') =
  fold_left (fun s o => match o with
                        | CSetPosition p => (p, snd s)
                        | CSetAffinity a => (fst s, a)
                        end) os (cp_get_position d, cp_get_affinity d).
Proof. exact cp_history. Qed.
Print Assumptions C08_cursor_history.

Theorem C08_cursor_equality :
  forall d1 d2 : Z, 0 <= d1 < 2 ^ 32 -> 0 <= d2 < 2 ^ 32 ->
  (cp_eqb d1 d2 = true <->
   cp_get_position d1 = cp_get_position d2 /\ cp_get_affinity d1 = cp_get_affinity d2).
Proof. exact cp_eq_iff. Qed.
Print Assumptions C08_cursor_equality.

Theorem C08_cursor_validity :
  forall d : Z, 0 <= d < 2 ^ 32 ->
  (cp_is_valid d = false <-> cp_get_position d = 2 ^ 31 - 1 /\ cp_get_affinity d = AOpposite).
Proof. exact cp_valid_iff. Qed.
Print Assumptions C08_cursor_validity.

(** A cursor marked invalid is not valid, whatever it was; the only history of setters that
    leaves it so sets the last position or the affinity it already has. *)
Theorem C08_invalid_cursor : forall d p a, 0 <= d < 2 ^ 32 -> 0 <= p < 2 ^ 31 ->
  cp_is_valid (cp_set_invalid d) = false /\
  (cp_is_valid (cp_set_position (cp_set_invalid d) p) = false <-> p = 2 ^ 31 - 1) /\
  (cp_is_valid (cp_set_affinity (cp_set_invalid d) a) = false <-> a = AOpposite) /\
  cp_is_valid (cp_make p) = true.
Proof.
  intros d p a Hd Hp. assert (I : 0 <= cp_set_invalid d < 2 ^ 32) by (unfold cp_set_invalid, invalid_value; lia).
  assert (I1 : cp_get_position (cp_set_invalid d) = 2 ^ 31 - 1) by reflexivity.
  assert (I2 : cp_get_affinity (cp_set_invalid d) = AOpposite) by reflexivity.
  split; [apply cp_valid_iff; auto|]. split; [|split].
  - destruct (cp_history [CSetPosition p] _ I ltac:(repeat constructor; lia)) as [R E]. cbn [fold_left cp_step fst snd] in R, E.
    rewrite I2 in E. injection E as E1 E2. rewrite cp_valid_iff by exact R. rewrite E1, E2. tauto.
  - destruct (cp_history [CSetAffinity a] _ I ltac:(repeat constructor)) as [R E]. cbn [fold_left cp_step fst snd] in R, E.
    rewrite I1 in E. injection E as E1 E2. rewrite cp_valid_iff by exact R. rewrite E1, E2. tauto.
  - unfold cp_is_valid, cp_make, wrap32, invalid_value. rewrite Z.mod_small by lia. destruct (Z.eqb_spec p (2 ^ 32 - 1)); [lia|reflexivity].
Qed.
Print Assumptions C08_invalid_cursor.
Example C08_invalid_example : cp_is_valid (cp_set_position (cp_set_invalid 5) 7) = true /\ cp_get_affinity (cp_set_position (cp_set_invalid 5) 7) = AOpposite.
Proof. split; reflexivity. Qed.

Example C08_example :
  let d := fold_left cp_step [CSetPosition 77; CSetAffinity AOpposite; CSetPosition 5] 0 in
  cp_get_position d = 5 /\ cp_get_affinity d = AOpposite /\ cp_is_valid d = true.
Proof. repeat split. Qed.

(** C09. *)
Theorem C09_font_face_round_trip :
  forall f w s : Z, 0 <= f < 2 ^ 16 -> 0 <= w < 16 -> 0 <= s < 2 ->
  let h := ff_make_handle f w s in
  0 <= h < 2 ^ 32 /\ ff_get_family h = f /\ ff_get_weight h = w /\ ff_get_style h = s /\
  (ff_valid h = true <-> f <> 2 ^ 16 - 1).
Proof. exact ff_roundtrip. Qed.
Print Assumptions C09_font_face_round_trip.

Theorem C09_font_face_distinct :
  forall f w s f' w' s' : Z,
  0 <= f < 2 ^ 16 -> 0 <= w < 16 -> 0 <= s < 2 -> 0 <= f' < 2 ^ 16 -> 0 <= w' < 16 -> 0 <= s' < 2 ->
  ff_make_handle f w s = ff_make_handle f' w' s' -> f = f' /\ w = w' /\ s = s'.
Proof. exact ff_injective. Qed.
Print Assumptions C09_font_face_distinct.

Example C09_example : let h := ff_make_handle 65534 8 1 in
  ff_get_family h = 65534 /\ ff_get_weight h = 8 /\ ff_get_style h = 1 /\ ff_valid h = true.
Proof. repeat split. Qed.
