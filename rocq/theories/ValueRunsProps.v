(** C02-C06: value-run tables. *)
From Verif Require Import Base ValueRunsModel ValueRunsSpec ValueRunsProofs.
Open Scope Z_scope.

(** C02.  [get_value i] is the value of the first run whose limit exceeds [i]
    ([lookup]); it never reads out of range below the last limit. *)
Theorem C02_lookup :
  forall T (t : table T) (i : Z), sorted t -> t <> [] -> i < final_limit t 0 ->
  exists v, get_value (vr_view (build t)) i = Ok v /\ lookup t i = Some v.
Proof. exact @vr_lookup_below. Qed.
Print Assumptions C02_lookup.

(** The run index found is the number of runs ending at or before the index. *)
Theorem C02_run_index :
  forall T (t : table T) (i : Z), sorted t ->
  get_run_containing_index (vr_view (build t)) i = Ok (runs_before t i) /\
  get_value (vr_view (build t)) i = match lookup t i with Some v => Ok v | None => UB end.
Proof. exact @vr_lookup_ok. Qed.
Print Assumptions C02_run_index.

(** At or past the last limit the lookup always reads past the table. *)
Theorem C02_past_the_end_is_undefined :
  forall T (t : table T) (i : Z), sorted t -> final_limit t i <= i ->
  get_value (vr_view (build t)) i = UB.
Proof. exact @vr_lookup_past. Qed.
Print Assumptions C02_past_the_end_is_undefined.

Definition sample_table : table nat := [(3, 10%nat); (3, 20%nat); (7, 30%nat)].
Example sample_sorted : sorted sample_table /\ sample_table <> [] /\ final_limit sample_table 0 = 7.
Proof. split; [|split; [discriminate|reflexivity]]. repeat constructor; cbn; lia. Qed.
Example C02_example : get_value (vr_view (build sample_table)) 3 = Ok 30%nat.
Proof. reflexivity. Qed.

(** C03.  Extracting a sub-range commutes with lookup. *)
Theorem C03_subset :
  forall T (t : table T) (offset len : Z),
  sorted t -> t <> [] -> 0 < len -> offset + len <= final_limit t 0 ->
  exists s, vr_get_runs_subset (build t) offset len vr_empty = Ok (build s) /\
    sorted s /\ final_limit s 0 = len /\ (forall p, In p s -> 0 < fst p <= len) /\
    (forall j, 0 <= j < len -> lookup s j = lookup t (offset + j) /\
       exists v, lookup t (offset + j) = Some v /\
         get_value (vr_view (build t)) (offset + j) = Ok v /\
         get_value (vr_view (build s)) j = Ok v).
Proof. exact @vr_subset_ok. Qed.
Print Assumptions C03_subset.

Example C03_example :
  vr_get_runs_subset (build sample_table) 1 4 vr_empty = Ok (build [(2, 10%nat); (2, 20%nat); (4, 30%nat)]).
Proof. reflexivity. Qed.

(** C04.  Packed boolean runs agree with unpacked ones on every query. *)
Theorem C04_packed_bool_runs :
  forall t : table bool, Forall (fun p : Z * bool => 0 <= fst p < 2 ^ 31) t -> sorted t ->
  rv_count (br_view (build_bool t)) = rv_count (vr_view (build t)) /\
  (forall k, rv_limit (br_view (build_bool t)) k = rv_limit (vr_view (build t)) k) /\
  (forall k, rv_value (br_view (build_bool t)) k = rv_value (vr_view (build t)) k) /\
  (forall i, get_value (br_view (build_bool t)) i = get_value (vr_view (build t)) i) /\
  br_get_limit (build_bool t) = vr_get_limit (build t).
Proof. exact bool_runs_ok. Qed.
Print Assumptions C04_packed_bool_runs.

(** The same for sub-ranges of packed runs. *)
Theorem C04_packed_subset :
  forall (t : table bool) (offset len : Z), Forall (fun p : Z * bool => 0 <= fst p < 2 ^ 31) t ->
  exists s, br_get_runs_subset (build_bool t) offset len [] = Ok (build_bool s) /\
            vr_get_runs_subset (build t) offset len vr_empty = Ok (build s).
Proof. exact (fun t o l H => ex_intro _ _ (conj (@br_subset_eq t o l H) (vr_subset_eq t o l))). Qed.
Print Assumptions C04_packed_subset.

Example C04_example :
  let t := [(5, true); (2147483647, false)] in
  get_value (br_view (build_bool t)) 4 = Ok true /\ get_value (br_view (build_bool t)) 5 = Ok false
  /\ br_get_limit (build_bool t) = Ok 2147483647.
Proof. repeat split. Qed.
(** A negative limit is outside the packed range: value and limit are lost. *)
Example C04_negative_limit : br_word_value (br_encode false (-1)) = true.
Proof. reflexivity. Qed.

(** C05.  Intersection of any number of tables that end at the same limit: the
    calls form a table whose value at [i] is the list of the tables' values at
    [i]; its limits are sorted (strictly if no table has an empty run) and end at
    the common limit. *)
Theorem C05_intersections :
  forall V (fin : Z) (ts : list (table V)), ts <> [] ->
  Forall (fun t => sorted t /\ (forall q, In q t -> 0 <= fst q) /\ t <> [] /\ final_limit t 0 = fin) ts ->
  exists out, iterate_run_intersections (map (fun t => vr_view (build t)) ts) = Ok out /\ sorted out /\
    (forall q, In q out -> 0 <= fst q <= fin) /\ final_limit out 0 = fin /\
    (forall i, 0 <= i < fin -> exists vs, lookup out i = Some vs /\
        Forall2 (fun t v => lookup t i = Some v) ts vs) /\
    (Forall (fun t => strictly_sorted t /\ forall q, In q t -> 0 < fst q) ts -> strictly_sorted out).
Proof. exact @intersections_build. Qed.
Print Assumptions C05_intersections.

Example C05_example :
  iterate_run_intersections (map (fun t => vr_view (build t))
    [[(3, 1); (8, 2)]; [(5, 10); (8, 20)]; [(8, 100)]])
  = Ok [(3, [1; 10; 100]); (5, [2; 10; 100]); (8, [2; 20; 100])].
Proof. reflexivity. Qed.

(** Without the equal-end precondition the loop reads past the shorter table. *)
Theorem C05_unequal_ends_refuted :
  exists ts : list (table Z), ts <> [] /\ Forall (fun t => sorted t /\ t <> []) ts /\
  iterate_run_intersections (map (fun t => vr_view (build t)) ts) = UB.
Proof. exact intersections_unequal_ub. Qed.
Print Assumptions C05_unequal_ends_refuted.

(** C06.  After any non-decreasing sequence of [advance_to] calls whose last
    target is below the final limit, the iterator reports the value at the
    target and a limit up to which this value holds. *)
Theorem C06_iterator :
  forall T (t : table T) (targets : list Z),
  sorted t -> t <> [] -> targets <> [] -> StronglySorted Z.le targets ->
  last targets 0 < final_limit t 0 ->
  exists k l v, it_advance_seq (vr_view (build t)) 0 targets = Ok k /\
    it_get_limit (vr_view (build t)) k = Ok l /\ it_get_value (vr_view (build t)) k = Ok v /\
    lookup t (last targets 0) = Some v /\ last targets 0 < l /\
    (forall j, last targets 0 <= j < l -> lookup t j = Some v).
Proof. exact @it_seq_ok. Qed.
Print Assumptions C06_iterator.

Example C06_example : it_advance_seq (vr_view (build sample_table)) 0 [1; 3; 6] = Ok 2%nat.
Proof. reflexivity. Qed.

(** Advancing to the final limit (or past it) reads past the table, whatever
    the table. *)
Theorem C06_advance_to_end_refuted :
  forall T (t : table T) (i : Z), sorted t -> final_limit t i <= i ->
  it_advance_to (vr_view (build t)) 0 i = UB.
Proof. exact @it_advance_past. Qed.
Print Assumptions C06_advance_to_end_refuted.

(** [MaybeDefaultRunsIterator]: with runs it behaves as the plain iterator, with
    a null pointer it is constant. *)
Theorem C06_maybe_default :
  forall T (d : T) (lim : Z),
  (forall rv i, mi_advance_to (mi_make (Some rv) d lim) i =
     omap (fun k => {| mi_runs := Some rv; mi_runIndex := Z.of_nat k; mi_default := d |}) (it_advance_to rv 0 i)) /\
  (forall i it, mi_advance_to (mi_make None d lim) i = Ok it ->
     mi_get_value it = Ok d /\ mi_get_limit it = Ok lim) /\
  (forall i, exists it, mi_advance_to (mi_make None d lim) i = Ok it).
Proof. exact @maybe_default_ok. Qed.
Print Assumptions C06_maybe_default.
