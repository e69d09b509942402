(** * Properties C12-C17 (pyirf/cuts.py) *)
From Coq Require Import String Reals List Bool ZArith Lia Lra Permutation.
From Verif Require Import Num Numpy Table Binning SpecBinning Percentile Cuts SpecCuts PercentileProofs CutsProofs CutsProofs2 CutsProofs3 BinningWitness SpecColumns ColumnsProofs PlainBoundsProofs.
Import ListNotations.
Open Scope R_scope.

(** ** C12 *)
Theorem C12_percentile_cut : forall values xs edges fill p lo hi min_events,
  nondecreasing edges -> (2 <= List.length edges)%nat ->
  List.length values = List.length xs -> 0 <= p <= 100 -> ordered_bounds lo hi ->
  (exists x k, In x xs /\ in_bin edges k x) ->
  exists t cuts,
    calculate_percentile_cut false (raw values) (raw xs) (raw edges) (plain fill) (PScalar p)
      (plaino (optn lo)) (plaino (optn hi)) None min_events = Ok t /\
    ct_cut t = Cut1 cuts /\
    List.length (ct_low t) = (List.length edges - 1)%nat /\ List.length (ct_high t) = (List.length edges - 1)%nat /\
    List.length (ct_n_events t) = (List.length edges - 1)%nat /\ List.length cuts = (List.length edges - 1)%nat /\
    forall k sel, (k < List.length edges - 1)%nat -> picks (in_bin edges k) xs values sel ->
      nth_error (ct_low t) k = nth_error edges k /\ nth_error (ct_high t) k = nth_error edges (S k) /\
      nth_error (ct_n_events t) k = Some (Z.of_nat (List.length sel)) /\
      exists c, nth_error cuts k = Some c /\ documented_cut fill p lo hi min_events sel c.
Proof. exact c12. Qed.
Print Assumptions C12_percentile_cut.
(** an array of percentiles gives, column by column, the single-percentile tables *)
Theorem C12_percentile_list : forall values xs edges fill ps lo hi min_events,
  nondecreasing edges -> (2 <= List.length edges)%nat ->
  List.length values = List.length xs -> (forall p, In p ps -> 0 <= p <= 100) ->
  (exists x k, In x xs /\ in_bin edges k x) ->
  exists t rows,
    calculate_percentile_cut false (raw values) (raw xs) (raw edges) (plain fill) (PList ps)
      (plaino lo) (plaino hi) None min_events = Ok t /\
    ct_cut t = Cut2 rows /\ List.length rows = (List.length edges - 1)%nat /\
    (forall r, In r rows -> List.length r = List.length ps) /\
    forall j p, nth_error ps j = Some p -> exists t1 cuts,
      calculate_percentile_cut false (raw values) (raw xs) (raw edges) (plain fill) (PScalar p)
        (plaino lo) (plaino hi) None min_events = Ok t1 /\
      ct_n_events t1 = ct_n_events t /\
      ct_cut t1 = Cut1 cuts /\ List.length cuts = List.length rows /\
      forall k row, nth_error rows k = Some row -> nth_error row j = nth_error cuts k.
Proof. exact c12_list. Qed.
Print Assumptions C12_percentile_list.
(** units: fill_value, min_value and max_value may be given in any compatible unit; the
    cut column has the unit of the values; the numbers are those of the unit-less call *)
Theorem C12_fill_value_unit : forall is_int values v xs bins x u1 u2 pc lo hi sm me,
  0 < u_scale v -> 0 < u_scale u1 -> 0 < u_scale u2 -> u_dim u1 = u_dim u2 ->
  calculate_percentile_cut is_int (mkArr values (Some v)) xs bins (mkScalar (convert_val u1 u2 x) (Some u2)) pc lo hi sm me =
  calculate_percentile_cut is_int (mkArr values (Some v)) xs bins (mkScalar x (Some u1)) pc lo hi sm me.
Proof. exact c12_units. Qed.
Print Assumptions C12_fill_value_unit.
Theorem C12_bounds_unit : forall is_int values v xs bins fill l h u1 u2 pc sm me,
  0 < u_scale v -> 0 < u_scale u1 -> 0 < u_scale u2 -> u_dim u1 = u_dim u2 ->
  calculate_percentile_cut is_int (mkArr values (Some v)) xs bins fill pc
    (Some (mkScalar (convert_val u1 u2 l) (Some u2))) (Some (mkScalar (convert_val u1 u2 h) (Some u2))) sm me =
  calculate_percentile_cut is_int (mkArr values (Some v)) xs bins fill pc
    (Some (mkScalar l (Some u1))) (Some (mkScalar h (Some u1))) sm me.
Proof. exact c12_units_bounds. Qed.
Print Assumptions C12_bounds_unit.
Theorem C12_result_unit : forall values v xs bins fill pc lo hi sm me, 0 < u_scale v ->
  calculate_percentile_cut false (mkArr values (Some v)) xs bins (mkScalar fill (Some v)) pc
     (match lo with Some l => Some (mkScalar l (Some v)) | None => None end)
     (match hi with Some h => Some (mkScalar h (Some v)) | None => None end) sm me =
  do t <- calculate_percentile_cut false (mkArr values None) xs bins (mkScalar fill None) pc (plaino lo) (plaino hi) sm me;
  Ok (mkCutTable (ct_low t) (ct_high t) (ct_center t) (ct_edge_unit t) (ct_n_events t) (ct_cut t) (Some v)).
Proof. exact c12_result_unit. Qed.
Print Assumptions C12_result_unit.
(** values without unit: bounds may be quantities without dimension, e.g. in percent (s = 1/100) *)
Theorem C12_plain_values_bounds : forall is_int values xs bins fill l h s pc sm me,
  calculate_percentile_cut is_int (mkArr values None) xs bins fill pc (Some (mkScalar (Fin l) (Some (mkUnit s dimless_dim)))) (Some (mkScalar (Fin h) (Some (mkUnit s dimless_dim)))) sm me =
  calculate_percentile_cut is_int (mkArr values None) xs bins fill pc (Some (mkScalar (Fin (l * s)) None)) (Some (mkScalar (Fin (h * s)) None)) sm me.
Proof. exact c12_plain_values. Qed.
Print Assumptions C12_plain_values_bounds.
Theorem C12_fill_value_wrong_unit : forall is_int values v xs bins x u1 pc lo hi sm me, u_dim u1 <> u_dim v ->
  calculate_percentile_cut is_int (mkArr values (Some v)) xs bins (mkScalar x (Some u1)) pc lo hi sm me = Err UnitConversionError.
Proof. exact c12_fill_wrong_unit. Qed.
Print Assumptions C12_fill_value_wrong_unit.
Theorem C12_fill_value_no_unit : forall is_int values v xs bins x pc lo hi sm me, u_dim v <> dimless_dim ->
  calculate_percentile_cut is_int (mkArr values (Some v)) xs bins (mkScalar x None) pc lo hi sm me = Err UnitConversionError.
Proof. exact c12_fill_no_unit. Qed.
Print Assumptions C12_fill_value_no_unit.
(** a percentile outside of [0, 100] is an error if some bin has min_events or more events *)
Theorem C12_percentile_range : forall values xs edges fill p ps lo hi sm min_events k sel,
  nondecreasing edges -> (2 <= List.length edges)%nat -> List.length values = List.length xs -> In p ps -> ~ (0 <= p <= 100) ->
  picks (in_bin edges k) xs values sel -> sel <> [] -> (min_events <= Z.of_nat (List.length sel))%Z ->
  calculate_percentile_cut false (raw values) (raw xs) (raw edges) (plain fill) (PScalar p) (plaino lo) (plaino hi) sm min_events = Err ValueError /\
  calculate_percentile_cut false (raw values) (raw xs) (raw edges) (plain fill) (PList ps) (plaino lo) (plaino hi) sm min_events = Err ValueError.
Proof. intros. split; eapply c12_range; eauto. exists p. cbn. auto. Qed.
Print Assumptions C12_percentile_range.
Example C12_percentile_range_ex : picks (in_bin [Fin 0; Fin 1] 0) [Fin 0; Fin 2] [Fin 5; Fin 6] [Fin 5] /\ ~ (0 <= 101 <= 100) /\ nondecreasing [Fin 0; Fin 1].
Proof.
  split; [|split; [lra|conc_nondec]].
  constructor; [exists (Fin 0), (Fin 1); cbn; rsolve; auto|]. constructor; [|constructor].
  intros (a & b & Ha & Hb & H). cbn in Ha, Hb. injection Ha as <-. injection Hb as <-. destruct H as [_ H]. cbn in H. apply Rltb_true in H. lra.
Qed.
(** when no event lies in any bin the call fails instead of returning the fill values *)
Theorem C12_no_events_refuted : forall is_int values xs edges fill pc lo hi sm me,
  nondecreasing edges -> edges <> [] -> List.length values = List.length xs ->
  (forall x k, In x xs -> ~ in_bin edges k x) ->
  calculate_percentile_cut is_int (raw values) (raw xs) (raw edges) (plain fill) pc (plaino lo) (plaino hi) sm me = Err IndexError.
Proof. exact c12_no_events. Qed.
Print Assumptions C12_no_events_refuted.
(** integer values: the column stores the documented cuts cut off towards zero *)
Theorem C12_integer_values : forall (zs : list Z) xs edges f p lo hi min_events,
  nondecreasing edges -> (2 <= List.length edges)%nat ->
  List.length zs = List.length xs -> 0 <= p <= 100 -> (exists x k, In x xs /\ in_bin edges k x) ->
  exists t t' cs ct,
    calculate_percentile_cut false (raw (map (fun z => Fin (IZR z)) zs)) (raw xs) (raw edges) (plain (Fin f)) (PScalar p)
      (plaino (optn lo)) (plaino (optn hi)) None min_events = Ok t /\ ct_cut t = Cut1 (map Fin cs) /\
    calculate_percentile_cut true (raw (map (fun z => Fin (IZR z)) zs)) (raw xs) (raw edges) (plain (Fin f)) (PScalar p)
      (plaino (optn lo)) (plaino (optn hi)) None min_events = Ok t' /\ ct_cut t' = Cut1 (map (fun z => Fin (IZR z)) ct) /\
    Forall2 truncated cs ct /\ ct_n_events t' = ct_n_events t /\ ct_low t' = ct_low t /\ ct_high t' = ct_high t.
Proof. exact c12_integer. Qed.
Print Assumptions C12_integer_values.
Example C12_truncated_example : truncated (7/2) 3 /\ truncated (-7/2) (-3) /\ ~ truncated (-7/2) (-4).
Proof.
  unfold truncated. rewrite (Rabs_right (7/2)), (Rabs_right 3), (Rabs_left (-7/2)), (Rabs_left (-3)), (Rabs_left (-4)) by lra. repeat split; lra.
Qed.
(** integer values: the median 1/2 of {0, 1} is stored as 0 *)
Theorem C12_integer_values_refuted : exists t,
  calculate_percentile_cut true (raw [Fin 0; Fin 1]) (raw [Fin 0; Fin 0]) (raw [Fin 0; Fin 1])
    (plain (Fin 0)) (PScalar 50) None None None 1 = Ok t /\
  ct_cut t = Cut1 [Fin 0] /\ linear_percentile [0; 1] 50 (1/2).
Proof. exact c12_int. Qed.
Print Assumptions C12_integer_values_refuted.
Example C12_example : nondecreasing [Fin 0; Fin 1; Fin 2] /\ ordered_bounds (Some 1) (Some 2) /\
  in_bin [Fin 0; Fin 1; Fin 2] 1 (Fin 1) /\
  picks (in_bin [Fin 0; Fin 1; Fin 2] 1) [Fin 1; Fin 5] [Fin 7; Fin 8] [Fin 7].
Proof.
  assert (B : in_bin [Fin 0; Fin 1; Fin 2] 1 (Fin 1)) by (exists (Fin 1), (Fin 2); simpl; rsolve; auto).
  split; [conc_nondec|]. split; [intros l h Hl Hh; injection Hl as <-; injection Hh as <-; lra|].
  split; auto. apply pk_yes; auto. apply pk_no; [|constructor].
  intros (a & b & Ha & Hb & _ & H). simpl in Hb. injection Hb as <-. simpl in H. rcmp; lra.
Qed.

(** ** C13 *)
Theorem C13_percentile_fraction : forall (vs : list R) xs edges fill p min_events,
  nondecreasing edges -> (2 <= List.length edges)%nat ->
  List.length vs = List.length xs -> 0 <= p <= 100 -> (exists x k, In x xs /\ in_bin edges k x) ->
  exists t cuts,
    calculate_percentile_cut false (raw (map Fin vs)) (raw xs) (raw edges) (plain fill) (PScalar p) None None None min_events = Ok t /\
    ct_cut t = Cut1 cuts /\
    forall k rs, (k < List.length edges - 1)%nat -> picks (in_bin edges k) xs vs rs -> rs <> [] ->
      (min_events <= Z.of_nat (List.length rs))%Z ->
      exists c n_le n_ge lo hi, nth_error cuts k = Some (Fin c) /\
        number_of (fun v => v <= c) rs n_le /\ p / 100 * (INR (List.length rs) - 1) < INR n_le /\
        number_of (fun v => c <= v) rs n_ge /\ (1 - p / 100) * (INR (List.length rs) - 1) < INR n_ge /\
        In lo rs /\ In hi rs /\ lo <= c <= hi.
Proof. exact c13. Qed.
Print Assumptions C13_percentile_fraction.
Theorem C13_monotone_in_percentile : forall (vs : list R) xs edges fill p q min_events,
  nondecreasing edges -> (2 <= List.length edges)%nat ->
  List.length vs = List.length xs -> 0 <= p <= q -> q <= 100 -> (exists x k, In x xs /\ in_bin edges k x) ->
  exists t1 t2 c1 c2,
    calculate_percentile_cut false (raw (map Fin vs)) (raw xs) (raw edges) (plain fill) (PScalar p) None None None min_events = Ok t1 /\
    calculate_percentile_cut false (raw (map Fin vs)) (raw xs) (raw edges) (plain fill) (PScalar q) None None None min_events = Ok t2 /\
    ct_cut t1 = Cut1 c1 /\ ct_cut t2 = Cut1 c2 /\
    forall k rs, (k < List.length edges - 1)%nat -> picks (in_bin edges k) xs vs rs -> rs <> [] ->
      (min_events <= Z.of_nat (List.length rs))%Z ->
      exists a b, nth_error c1 k = Some (Fin a) /\ nth_error c2 k = Some (Fin b) /\ a <= b.
Proof. exact c13_mono. Qed.
Print Assumptions C13_monotone_in_percentile.

(** ** C14 *)
Theorem C14_evaluate_binned_cut : forall values xs low high cuts op,
  low <> [] -> contiguous low high -> edges_ascend low high ->
  List.length cuts = List.length low -> List.length values = List.length xs ->
  exists out, evaluate_binned_cut true values (raw xs) low high None cuts op = Ok out /\
    List.length out = List.length values /\
    forall i v x, nth_error values i = Some v -> nth_error xs i = Some x ->
      (forall k c, in_table_bin low high k x -> nth_error cuts k = Some c -> nth_error out i = Some (op v c)) /\
      ((forall k, ~ in_table_bin low high k x) -> nth_error out i = Some false).
Proof. exact c14. Qed.
Print Assumptions C14_evaluate_binned_cut.
Theorem C14_same_as_by_index : forall is_qtable values xs low high cuts op h rest, rev high = h :: rest ->
  evaluate_binned_cut is_qtable values xs low high None cuts op =
  (if is_qtable then
    match calculate_bin_indices xs (raw (low ++ [h])) with
    | Ok (idx, valid) => evaluate_binned_cut_by_index true values idx valid cuts op
    | Err e => Err e
    end else Err ValueError).
Proof. exact c14_by_index. Qed.
Print Assumptions C14_same_as_by_index.
Theorem C14_by_index : forall values idx valid cuts op,
  List.length values = List.length idx -> List.length valid = List.length idx ->
  (forall i z, nth_error idx i = Some z -> nth_error valid i = Some true -> (0 <= z < Z.of_nat (List.length cuts))%Z) ->
  exists out, evaluate_binned_cut_by_index true values idx valid cuts op = Ok out /\ List.length out = List.length values /\
    forall i v z b, nth_error values i = Some v -> nth_error idx i = Some z -> nth_error valid i = Some b ->
      (b = false -> nth_error out i = Some false) /\
      (b = true -> forall k c, z = Z.of_nat k -> nth_error cuts k = Some c -> nth_error out i = Some (op v c)).
Proof. exact c14_index. Qed.
Print Assumptions C14_by_index.
(** any indices, in the sense of Python (negative ones count from the end); an index outside raises *)
Theorem C14_any_index : forall values idx valid cuts op,
  List.length idx = List.length values -> List.length valid = List.length values ->
  (exists m, evaluate_binned_cut_by_index true values idx valid cuts op = Ok m /\ List.length m = List.length values /\
     forall i x z, nth_error values i = Some x -> nth_error idx i = Some z ->
       (nth_error valid i = Some false -> nth_error m i = Some false) /\
       (nth_error valid i = Some true -> exists c, python_index cuts z c /\ nth_error m i = Some (op x c))) \/
  (evaluate_binned_cut_by_index true values idx valid cuts op = Err IndexError /\
     exists i z, nth_error valid i = Some true /\ nth_error idx i = Some z /\ forall c, ~ python_index cuts z c).
Proof. exact by_index. Qed.
Print Assumptions C14_any_index.
Example C14_any_index_example : python_index [Fin 1; Fin 2] (-1) (Fin 2) /\ (forall c, ~ python_index [Fin 1; Fin 2] 2 c).
Proof. split; [right; split; [cbn; lia|reflexivity]|]. intros c [(H & _)|(H & _)]; cbn in H; lia. Qed.
Theorem C14_not_a_qtable : forall values xs low high u cuts op,
  evaluate_binned_cut false values xs low high u cuts op = Err ValueError.
Proof. exact (fun _ _ _ _ _ _ _ => eq_refl). Qed.
Print Assumptions C14_not_a_qtable.
(** any table with ascending lower edges: a bin reaches to the next lower edge, the last one to the last upper edge *)
Theorem C14_any_table : forall values xs low high cuts op, high <> [] -> nondecreasing (low ++ [last high NaN]) ->
  List.length cuts = List.length low -> List.length values = List.length xs ->
  exists out, evaluate_binned_cut true values (raw xs) low high None cuts op = Ok out /\
    List.length out = List.length values /\
    forall i v x, nth_error values i = Some v -> nth_error xs i = Some x ->
      (forall k c, in_stretched_bin low high k x -> nth_error cuts k = Some c -> nth_error out i = Some (op v c)) /\
      ((forall k, ~ in_stretched_bin low high k x) -> nth_error out i = Some false).
Proof. exact c14_any. Qed.
Print Assumptions C14_any_table.
(** the units of the bin values and of the edges do not matter *)
Theorem C14_units : forall is_qtable values xs low high cuts op ud ub ud' ub',
  0 < u_scale ud -> 0 < u_scale ub -> 0 < u_scale ud' -> 0 < u_scale ub' ->
  u_dim ud = u_dim ub -> u_dim ud' = u_dim ud -> u_dim ub' = u_dim ud ->
  evaluate_binned_cut is_qtable values (mkArr (map (convert_val ud ud') xs) (Some ud'))
    (map (convert_val ub ub') low) (map (convert_val ub ub') high) (Some ub') cuts op =
  evaluate_binned_cut is_qtable values (mkArr xs (Some ud)) low high (Some ub) cuts op.
Proof. exact c14_units. Qed.
Print Assumptions C14_units.
Theorem C14_common_unit : forall is_qtable values xs low high cuts op u, 0 < u_scale u ->
  evaluate_binned_cut is_qtable values (mkArr xs (Some u)) low high (Some u) cuts op =
  evaluate_binned_cut is_qtable values (raw xs) low high None cuts op.
Proof. exact c14_common_unit. Qed.
Print Assumptions C14_common_unit.
Example C14_any_table_example : nondecreasing ([Fin 0; Fin 2] ++ [last [Fin 1; Fin 3] NaN]) /\
  in_stretched_bin [Fin 0; Fin 2] [Fin 1; Fin 3] 0 (Fin (3/2)) /\ ~ in_table_bin [Fin 0; Fin 2] [Fin 1; Fin 3] 0 (Fin (3/2)).
Proof.
  split; [conc_nondec|]. split.
  - exists (Fin 0), (Fin 2). simpl. rsolve. auto.
  - intros (a & b & Ha & Hb & _ & H). simpl in Hb. injection Hb as <-. simpl in H. rcmp; lra.
Qed.
(** tables whose bins do not touch: an event in the gap passes the cut of the bin below *)
Theorem C14_gap_refuted : exists low high cuts x,
  edges_ascend low high /\ (forall k, ~ in_table_bin low high k x) /\
  evaluate_binned_cut true [Fin 0] (raw [x]) low high None cuts (fun a b => nle a b) = Ok [true].
Proof. exact c14_gap. Qed.
Print Assumptions C14_gap_refuted.
Example C14_example : contiguous [Fin 0; Fin 1] [Fin 1; Fin 2] /\ edges_ascend [Fin 0; Fin 1] [Fin 1; Fin 2].
Proof.
  split.
  - split; auto. intros [|[|i]] a b Ha Hb; simpl in *; try discriminate; try (destruct i; discriminate). congruence.
  - split; [simpl; intuition; subst; reflexivity|].
    intros [|[|i]] a b Ha Hb; simpl in *; try discriminate; try (destruct i; discriminate);
      injection Ha as <-; injection Hb as <-; simpl; rsolve; reflexivity.
Qed.

(** ** C15 *)
Theorem C15_cut_is_local : forall values1 xs1 values2 xs2 edges fill p lo hi min_events k sel,
  nondecreasing edges -> (2 <= List.length edges)%nat ->
  List.length values1 = List.length xs1 -> List.length values2 = List.length xs2 -> 0 <= p <= 100 ->
  (exists x j, In x xs1 /\ in_bin edges j x) -> (exists x j, In x xs2 /\ in_bin edges j x) ->
  (k < List.length edges - 1)%nat ->
  picks (in_bin edges k) xs1 values1 sel -> picks (in_bin edges k) xs2 values2 sel ->
  exists t1 t2 c1 c2,
    calculate_percentile_cut false (raw values1) (raw xs1) (raw edges) (plain fill) (PScalar p) (plaino lo) (plaino hi) None min_events = Ok t1 /\
    calculate_percentile_cut false (raw values2) (raw xs2) (raw edges) (plain fill) (PScalar p) (plaino lo) (plaino hi) None min_events = Ok t2 /\
    ct_cut t1 = Cut1 c1 /\ ct_cut t2 = Cut1 c2 /\
    nth_error c1 k = nth_error c2 k /\ nth_error c1 k <> None /\
    nth_error (ct_n_events t1) k = nth_error (ct_n_events t2) k.
Proof. exact c15_local. Qed.
Print Assumptions C15_cut_is_local.
Theorem C15_event_order : forall values1 xs1 values2 xs2 edges fill pc lo hi sm min_events,
  nondecreasing edges -> (2 <= List.length edges)%nat ->
  List.length values1 = List.length xs1 -> List.length values2 = List.length xs2 ->
  (forall p, In p (pargs pc) -> 0 <= p <= 100) ->
  (exists x j, In x xs1 /\ in_bin edges j x) ->
  Permutation (combine values1 xs1) (combine values2 xs2) ->
  calculate_percentile_cut false (raw values1) (raw xs1) (raw edges) (plain fill) pc (plaino lo) (plaino hi) sm min_events =
  calculate_percentile_cut false (raw values2) (raw xs2) (raw edges) (plain fill) pc (plaino lo) (plaino hi) sm min_events.
Proof. exact c15_perm. Qed.
Print Assumptions C15_event_order.

(** ** C16 *)
Theorem C16_compare_irf_cuts : forall names n cuts, (forall t, In t cuts -> comparable names n t) ->
  exists b, compare_irf_cuts cuts = Ok b /\
    (b = true <-> forall t t', In t cuts -> In t' cuts -> q_rows t = q_rows t').
Proof. exact c16. Qed.
Print Assumptions C16_compare_irf_cuts.
(** every list of tables: neighbours are compared in order up to the first pair which does not agree *)
Theorem C16_exact : forall cuts,
  let agree_before := fun n => forall j s t, (j < n)%nat -> nth_error cuts j = Some s -> nth_error cuts (S j) = Some t ->
    comparable_shapes s t /\ tables_agree s t in
  (compare_irf_cuts cuts = Ok true /\ agree_before (List.length cuts)) \/
  (exists i s t, nth_error cuts i = Some s /\ nth_error cuts (S i) = Some t /\ agree_before i /\
     ((comparable_shapes s t /\ ~ tables_agree s t /\ compare_irf_cuts cuts = Ok false) \/
      (~ comparable_shapes s t /\ compare_irf_cuts cuts = Err AttributeError))).
Proof. exact c16_exact. Qed.
Print Assumptions C16_exact.
Theorem C16_list_order : forall names n cuts cuts', (forall t, In t cuts -> comparable names n t) ->
  Permutation cuts cuts' -> compare_irf_cuts cuts = compare_irf_cuts cuts'.
Proof. exact c16_order. Qed.
Print Assumptions C16_list_order.
(** identical tables containing NaN compare as different *)
Theorem C16_nan_refuted : exists t, compare_irf_cuts [t; t] = Ok false.
Proof. exact c16_nan. Qed.
Print Assumptions C16_nan_refuted.
(** units are ignored: 1 in one unit "equals" 1 in a unit twice as large *)
Theorem C16_units_refuted : exists t1 t2, t1 <> t2 /\ q_units t1 <> q_units t2 /\ compare_irf_cuts [t1; t2] = Ok true.
Proof. exact c16_units. Qed.
Print Assumptions C16_units_refuted.
(** a one-row table equals a longer table of identical rows *)
Theorem C16_broadcast_refuted : forall r, (forall x, In x r -> is_nan x = false) ->
  compare_irf_cuts [mkQ [] [] [r]; mkQ [] [] [r; r]] = Ok true.
Proof. exact c16_broadcast. Qed.
Print Assumptions C16_broadcast_refuted.
Example C16_example : comparable ["low"; "cut"]%string 1 (mkQ ["low"; "cut"]%string [None; None] [[Fin 1; PInf]]).
Proof. split; auto. split; auto. intros r x [<-|[]] [<-|[<-|[]]]; reflexivity. Qed.

(** ** C17 *)
(** one percentile: smoothed cuts stay within the range of the unsmoothed cuts (in
    particular constant cuts are unchanged: take m = M) *)
Theorem C17_smoothing_bounded : forall values xs edges fill p lo hi min_events us sigma,
  nondecreasing edges -> (2 <= List.length edges)%nat ->
  List.length values = List.length xs -> 0 <= p <= 100 -> (exists x k, In x xs /\ in_bin edges k x) -> 0 < sigma ->
  forall t, calculate_percentile_cut false (raw values) (raw xs) (raw edges) (plain fill) (PScalar p)
    (plaino lo) (plaino hi) None min_events = Ok t -> ct_cut t = Cut1 (map Fin us) ->
  exists t' ss, calculate_percentile_cut false (raw values) (raw xs) (raw edges) (plain fill) (PScalar p)
    (plaino lo) (plaino hi) (Some sigma) min_events = Ok t' /\ ct_cut t' = Cut1 (map Fin ss) /\
    List.length ss = List.length us /\ ct_n_events t' = ct_n_events t /\
    forall m M, (forall v, In v us -> m <= v <= M) -> forall v, In v ss -> m <= v <= M.
Proof. exact c17. Qed.
Print Assumptions C17_smoothing_bounded.
(** the smoothed table: Gaussian weighted means, along the bins for one percentile, but along the PERCENTILES
    of each bin for an array of percentiles *)
Theorem C17_smoothing : forall sigma, 0 < sigma -> exists reach w, gaussian_weights sigma reach w /\
  (forall values xs edges fill p lo hi min_events us t, nondecreasing edges -> (2 <= List.length edges)%nat ->
    List.length values = List.length xs -> 0 <= p <= 100 -> (exists x k, In x xs /\ in_bin edges k x) ->
    calculate_percentile_cut false (raw values) (raw xs) (raw edges) (plain fill) (PScalar p)
      (plaino lo) (plaino hi) None min_events = Ok t -> ct_cut t = Cut1 (map Fin us) ->
    exists t' ss, calculate_percentile_cut false (raw values) (raw xs) (raw edges) (plain fill) (PScalar p)
      (plaino lo) (plaino hi) (Some sigma) min_events = Ok t' /\ ct_cut t' = Cut1 (map Fin ss) /\
      ct_n_events t' = ct_n_events t /\ smoothed_along reach w us ss) /\
  (forall values xs edges fill ps lo hi min_events rows t, nondecreasing edges -> (2 <= List.length edges)%nat ->
    List.length values = List.length xs -> (forall p, In p ps -> 0 <= p <= 100) -> (exists x k, In x xs /\ in_bin edges k x) ->
    calculate_percentile_cut false (raw values) (raw xs) (raw edges) (plain fill) (PList ps)
      (plaino lo) (plaino hi) None min_events = Ok t -> ct_cut t = Cut2 (map (map Fin) rows) ->
    exists t' rows', calculate_percentile_cut false (raw values) (raw xs) (raw edges) (plain fill) (PList ps)
      (plaino lo) (plaino hi) (Some sigma) min_events = Ok t' /\ ct_cut t' = Cut2 (map (map Fin) rows') /\
      ct_n_events t' = ct_n_events t /\ Forall2 (smoothed_along reach w) rows rows').
Proof. exact c17_exact. Qed.
Print Assumptions C17_smoothing.
(** several percentiles: cuts that are the same in all bins are changed, because the
    smoothing runs over the percentiles instead of the bins *)
Theorem C17_several_percentiles_refuted : forall sigma, 1/8 <= sigma -> exists values xs edges t t',
  nondecreasing edges /\
  calculate_percentile_cut false (raw values) (raw xs) (raw edges) (plain (Fin 0)) (PList [0; 100]) None None None 1 = Ok t /\
  ct_cut t = Cut2 [[Fin 0; Fin 1]; [Fin 0; Fin 1]] /\
  calculate_percentile_cut false (raw values) (raw xs) (raw edges) (plain (Fin 0)) (PList [0; 100]) None None (Some sigma) 1 = Ok t' /\
  ct_cut t' <> ct_cut t.
Proof. exact c17_several_refuted. Qed.
Print Assumptions C17_several_percentiles_refuted.
(** a NaN fill value of a bin without events wipes out the cut of the neighbouring bin *)
Theorem C17_fill_value_leaks_refuted : forall sigma c, 1/8 <= sigma ->
  smooth false (Some sigma) (Cut1 [Fin c; NaN]) = Ok (Cut1 [NaN; NaN]).
Proof. exact c17_leak. Qed.
Print Assumptions C17_fill_value_leaks_refuted.
