From Coq Require Import Lqa.
From Verif Require Import Base ClipModel ClipSpec.
Open Scope Q_scope.

Lemma qle_spec a b : reflect (a <= b) (qle a b).
Proof. unfold qle. destruct (Qle_bool a b) eqn:E; constructor; [apply Qle_bool_iff, E|]. intros H. apply Qle_bool_iff in H. congruence. Qed.
Lemma qlt_spec a b : reflect (a < b) (qlt a b).
Proof. unfold qlt. destruct (Qle_bool b a) eqn:E; cbn; constructor; [apply Qle_bool_iff in E; lra|]. destruct (Qlt_le_dec a b) as [H|H]; [exact H|]. apply Qle_bool_iff in H. congruence. Qed.

Lemma texel_left x w u uw d t : ~ w == 0 -> ~ d == 0 -> texel x d u (uw * d / w) t == texel x w u uw t.
Proof. intros. unfold texel. field. auto. Qed.
Lemma texel_shift x w u uw d n t : ~ w == 0 -> ~ n == 0 -> texel (x + d) n (u + uw * d / w) (uw * n / w) t == texel x w u uw t.
Proof. intros. unfold texel. field. auto. Qed.

Definition fine (x y w h u v uw vh : Q) (r : rect) : Prop :=
  r_y r = y /\ r_h r = h /\ r_v r = v /\ r_vh r = vh /\ forall t, covers r t -> texel (r_x r) (r_w r) (r_u r) (r_uw r) t == texel x w u uw t.

Lemma one (r : rect) t : covers r t -> drawn_by [r] t r.
Proof. intros H. exists [], []. split; [reflexivity|]. split; [exact H|constructor]. Qed.
Lemma two_1 a b t : covers a t -> ~ covers b t -> drawn_by [a; b] t a.
Proof. intros. exists [], [b]. split; [reflexivity|]. split; [assumption|]. repeat constructor; assumption. Qed.
Lemma two_2 a b t : covers b t -> ~ covers a t -> drawn_by [a; b] t b.
Proof. intros. exists [a], []. split; [reflexivity|]. split; [assumption|]. repeat constructor; assumption. Qed.
Lemma three_1 a b c t : covers a t -> ~ covers b t -> ~ covers c t -> drawn_by [a; b; c] t a.
Proof. intros. exists [], [b; c]. split; [reflexivity|]. split; [assumption|]. repeat constructor; assumption. Qed.
Lemma three_2 a b c t : covers b t -> ~ covers a t -> ~ covers c t -> drawn_by [a; b; c] t b.
Proof. intros. exists [a], [c]. split; [reflexivity|]. split; [assumption|]. repeat constructor; assumption. Qed.
Lemma three_3 a b c t : covers c t -> ~ covers a t -> ~ covers b t -> drawn_by [a; b; c] t c.
Proof. intros. exists [a; b], []. split; [reflexivity|]. split; [assumption|]. repeat constructor; assumption. Qed.

Ltac fine4 := unfold fine; cbn; split; [reflexivity|]; split; [reflexivity|]; split; [reflexivity|]; split; [reflexivity|].
Ltac cols := cbn; repeat split; intros; first [reflexivity | exfalso; lra].

Lemma emit_clip_ok x y w h u v uw vh first second : first <= second ->
  let rs := emit_rect x y w h u v uw vh (Some (first, second)) in
  (forall r t, In r rs -> covers r t -> x <= t /\ t < x + w) /\
  (forall t, x <= t -> t < x + w ->
    exists r, drawn_by rs t r /\ fine x y w h u v uw vh r /\
      (first <= t -> t < second -> r_white r = true) /\
      (t < first -> x + 1 <= first -> r_white r = false) /\
      (second <= t -> second + 1 <= x + w -> r_white r = false) /\
      (second <= x -> r_white r = false) /\ (x + w <= first -> r_white r = false)).
Proof.
  intros FS. cbv zeta. unfold emit_rect. destruct (qle_spec second x) as [H1|H1]; cbn [orb].
  { split; [intros r t [<-|[]] [C1 C2]; cbn in *; auto|]. intros t T1 T2. eexists. split; [apply one; split; cbn; assumption|]. split; [|cols].
    fine4. intros; reflexivity. }
  destruct (qle_spec (x + w) first) as [H2|H2]; cbn [orb].
  { split; [intros r t [<-|[]] [C1 C2]; cbn in *; auto|]. intros t T1 T2. eexists. split; [apply one; split; cbn; assumption|]. split; [|cols].
    fine4. intros; reflexivity. }
  destruct (qle_spec (x + 1) first) as [L1|L1]; cbn [andb].
  - destruct (qlt_spec first (x + w)) as [L2|L2]; [|exfalso; lra].
    destruct (qlt_spec x second) as [R1|R1]; cbn [andb]; [|exfalso; lra].
    destruct (qle_spec (second + 1) (x + w)) as [R2|R2]; cbn [app].
    + set (rl := {| r_x := x; r_y := y; r_w := first - x; r_h := h; r_u := u; r_v := v; r_uw := _; r_vh := vh; r_white := false |}).
      set (rr := {| r_x := x + w - _; r_y := y; r_w := _; r_h := h; r_u := _; r_v := v; r_uw := _; r_vh := vh; r_white := false |}).
      set (rm := {| r_x := _; r_y := y; r_w := _; r_h := h; r_u := _; r_v := v; r_uw := _; r_vh := vh; r_white := true |}).
      assert (Cl : forall t, covers rl t <-> x <= t /\ t < first) by (intros; unfold covers; cbn; lra).
      assert (Cr : forall t, covers rr t <-> second <= t /\ t < x + w) by (intros; unfold covers; cbn; lra).
      assert (Cm : forall t, covers rm t <-> first <= t /\ t < second) by (intros; unfold covers; cbn; lra).
      split; [intros r t [<-|[<-|[<-|[]]]] C; [apply Cl in C|apply Cr in C|apply Cm in C]; lra|].
      intros t T1 T2. destruct (Qlt_le_dec t first) as [A|A]; [|destruct (Qlt_le_dec t second) as [B|B]].
      * exists rl. split; [apply three_1; rewrite ?Cl, ?Cr, ?Cm; lra|]. split; [|cols].
        fine4. intros s Cs.   apply texel_left; lra.
      * exists rm. split; [apply three_3; rewrite ?Cl, ?Cr, ?Cm; lra|]. split; [|cols].
        fine4. intros s Cs.   unfold texel. field. lra.
      * exists rr. split; [apply three_2; rewrite ?Cl, ?Cr, ?Cm; lra|]. split; [|cols].
        fine4. intros s Cs.   unfold texel. field. lra.
    + set (rl := {| r_x := x; r_y := y; r_w := first - x; r_h := h; r_u := u; r_v := v; r_uw := _; r_vh := vh; r_white := false |}).
      set (rm := {| r_x := _; r_y := y; r_w := _; r_h := h; r_u := _; r_v := v; r_uw := _; r_vh := vh; r_white := true |}).
      assert (Cl : forall t, covers rl t <-> x <= t /\ t < first) by (intros; unfold covers; cbn; lra).
      assert (Cm : forall t, covers rm t <-> first <= t /\ t < x + w) by (intros; unfold covers; cbn; lra).
      split; [intros r t [<-|[<-|[]]] C; [apply Cl in C|apply Cm in C]; lra|].
      intros t T1 T2. destruct (Qlt_le_dec t first) as [A|A].
      * exists rl. split; [apply two_1; rewrite ?Cl, ?Cm; lra|]. split; [|cols].
        fine4. intros s Cs.   apply texel_left; lra.
      * exists rm. split; [apply two_2; rewrite ?Cl, ?Cm; lra|]. split; [|cols].
        fine4. intros s Cs.   unfold texel. field. lra.
  - destruct (qlt_spec x second) as [R1|R1]; cbn [andb]; [|exfalso; lra].
    destruct (qle_spec (second + 1) (x + w)) as [R2|R2]; cbn [app].
    + set (rr := {| r_x := x + w - _; r_y := y; r_w := _; r_h := h; r_u := _; r_v := v; r_uw := _; r_vh := vh; r_white := false |}).
      set (rm := {| r_x := _; r_y := y; r_w := _; r_h := h; r_u := _; r_v := v; r_uw := _; r_vh := vh; r_white := true |}).
      assert (Cr : forall t, covers rr t <-> second <= t /\ t < x + w) by (intros; unfold covers; cbn; lra).
      assert (Cm : forall t, covers rm t <-> x <= t /\ t < second) by (intros; unfold covers; cbn; lra).
      split; [intros r t [<-|[<-|[]]] C; [apply Cr in C|apply Cm in C]; lra|].
      intros t T1 T2. destruct (Qlt_le_dec t second) as [A|A].
      * exists rm. split; [apply two_2; rewrite ?Cr, ?Cm; lra|]. split; [|cols].
        fine4. intros s Cs.   unfold texel. field. lra.
      * exists rr. split; [apply two_1; rewrite ?Cr, ?Cm; lra|]. split; [|cols].
        fine4. intros s Cs.   unfold texel. field. lra.
    + split; [intros r t [<-|[]] [C1 C2]; cbn in *; auto|]. intros t T1 T2. eexists. split; [apply one; split; cbn; assumption|].
      split; [|cols]. fine4. intros; reflexivity.
Qed.
