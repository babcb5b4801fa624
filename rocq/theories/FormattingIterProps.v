(** C17, C18: the formatting iterator. *)
From Verif Require Import Base ValueRunsModel ValueRunsSpec FloatModel ColorModel FormattingModel
  FormattingIterModel FormattingIterSpec FormattingIterProofs.
Open Scope Z_scope.

Definition black : color := {| c_r := f32_0; c_g := f32_0; c_b := f32_0; c_a := f32_1 |}.
Definition red : color := {| c_r := f32_1; c_g := f32_0; c_b := f32_0; c_a := f32_1 |}.

(** "ab" plain, "cd" red underlined, "e" black underlined. *)
Definition sample_tables : fmt_tables :=
  {| ft_color := [(2, black); (4, red); (5, black)]; ft_stroke := [(5, stroke_init)];
     ft_strike := [(3, false); (5, true)]; ft_under := [(2, false); (5, true)] |}.
Example sample_tables_for : tables_for 5 sample_tables.
Proof.
  assert (G : forall T (t : table T), t <> [] -> StronglySorted Z.le (map fst t) -> final_limit t 0 = 5 ->
    forallb (fun q => (0 <=? fst q) && (fst q <? 2 ^ 31)) t = true -> table_for 5 t).
  { intros T t H1 H2 H3 H4. repeat split; auto; rewrite forallb_forall in H4; specialize (H4 q H); lia. }
  split; [|split; [|split]]; apply G; try discriminate; try reflexivity; repeat constructor; cbn; lia.
Qed.

(** C17.  From any start and through any moves, forward or backward, the
    iterator reports the attributes of the last target, and as previous colour
    that of the target before. *)
Theorem C17_iterator_tracks_tables :
  forall f n x0 pre y, tables_for n f ->
  x0 < n -> Forall (fun i => i < n) pre -> y < n ->
  exists it es it', fi_make (views_of f) x0 = Ok it /\
    fi_walk (views_of f) it (pre ++ [y]) = Ok (es, it') /\
    lookup (ft_color f) y = Some (fi_color it') /\
    fi_prev it' = lookup (ft_color f) (last pre x0) /\
    lookup (ft_strike f) y = Some (fi_strike it') /\
    lookup (ft_under f) y = Some (fi_under it') /\
    exists k, fi_stroke (views_of f) it' = Ok k /\ lookup (ft_stroke f) y = Some k.
Proof. intros f n x0 pre y H. exact (walk_last f n H x0 pre y). Qed.
Print Assumptions C17_iterator_tracks_tables.

Example C17_example :
  omap (fun it => omap (fun r => (fi_color (snd r), fi_under (snd r), fi_strike (snd r)))
     (fi_walk (views_of sample_tables) it [4; 0; 3; 1; 2])) (fi_make (views_of sample_tables) 3)
  = Ok (Ok (red, true, false)).
Proof. vm_compute. reflexivity. Qed.

(** Starting an iterator at the text length, as [draw_text] does for a
    right-to-left run at the end of the text, reads past the colour table. *)
Theorem C17_start_at_end_refuted :
  exists f n, tables_for n f /\ fi_make (views_of f) n = UB.
Proof. exists sample_tables, 5. split; [exact sample_tables_for|vm_compute; reflexivity]. Qed.
Print Assumptions C17_start_at_end_refuted.

(** C18.  Full statement: for every start and targets, replaying the events from
    "no line" never ends a line that is not open nor begins one that is, and the
    line is open after a step exactly when the target is underlined (struck
    through).  Proved when no line begins where the colour changes. *)
Theorem C18_events_balanced_partial :
  forall f n x0 targets, tables_for n f -> x0 < n -> Forall (fun i => i < n) targets ->
  (steady_starts (line_at (ft_under f)) (lookup (ft_color f)) false x0 targets ->
   exists it es it', fi_make (views_of f) x0 = Ok it /\ fi_walk (views_of f) it targets = Ok (es, it') /\
     replay_walk false (map under_ops es) = Some (map (line_at (ft_under f)) targets)) /\
  (steady_starts (line_at (ft_strike f)) (lookup (ft_color f)) false x0 targets ->
   exists it es it', fi_make (views_of f) x0 = Ok it /\ fi_walk (views_of f) it targets = Ok (es, it') /\
     replay_walk false (map strike_ops es) = Some (map (line_at (ft_strike f)) targets)).
Proof. intros f n x0 targets H. exact (balanced f n H x0 targets). Qed.
Print Assumptions C18_events_balanced_partial.

(** The strikethrough of [sample_tables] starts inside a colour run. *)
Example C18_example :
  steady_starts (line_at (ft_strike sample_tables)) (lookup (ft_color sample_tables)) false 0 [0; 1; 2; 3; 4] /\
  omap (fun it => omap (fun r => replay_walk false (map strike_ops (fst r)))
     (fi_walk (views_of sample_tables) it [0; 1; 2; 3; 4])) (fi_make (views_of sample_tables) 0)
  = Ok (Ok (Some [false; false; false; true; true])).
Proof.
  split; [|vm_compute; reflexivity].
  cbn [steady_starts]. repeat split; try discriminate.
  - intros _ _. exists red, red. repeat split; vm_compute; reflexivity.
Qed.

(** Events of one step, exactly. *)
Theorem C18_events_exact :
  forall f n x0 pre p y, tables_for n f -> x0 < n -> Forall (fun i => i < n) pre -> p < n -> y < n ->
  exists it es it1 e it2 cp cy, fi_make (views_of f) x0 = Ok it /\
    fi_walk (views_of f) it (pre ++ [p]) = Ok (es, it1) /\ fi_advance_to (views_of f) it1 y = Ok (e, it2) /\
    lookup (ft_color f) p = Some cp /\ lookup (ft_color f) y = Some cy /\
    let changed := negb (color_eqb cy cp) in
    let u := line_at (ft_under f) in let s := line_at (ft_strike f) in
    ev_under_begin e = u y && (negb (u p) || changed) /\
    ev_under_end e = (u p && negb (u y)) || (u y && changed) /\
    ev_strike_begin e = s y && (negb (s p) || changed) /\
    ev_strike_end e = (s p && negb (s y)) || (s y && changed).
Proof. intros f n x0 pre p y H. exact (events_exact f n H x0 pre p y). Qed.
Print Assumptions C18_events_exact.

(** When an underlined text of another colour follows plain text, the end of an
    underline is reported although none was begun. *)
Theorem C18_end_without_begin_refuted :
  exists f n it es it', tables_for n f /\ fi_make (views_of f) 0 = Ok it /\
    fi_walk (views_of f) it [0; 1; 2; 3; 4] = Ok (es, it') /\
    replay_walk false (map under_ops es) = None /\
    map ev_under_begin (firstn 2 es) = [false; false] /\ map ev_under_end (firstn 3 es) = [false; false; true].
Proof.
  exists sample_tables, 5. eexists _, _, _. split; [exact sample_tables_for|].
  split; [vm_compute; reflexivity|]. split; [vm_compute; reflexivity|]. vm_compute. auto.
Qed.
Print Assumptions C18_end_without_begin_refuted.
