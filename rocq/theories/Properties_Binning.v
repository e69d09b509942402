(** * Properties C01-C11 (pyirf/binning.py) *)
From Coq Require Import String Reals List Bool ZArith Lia Lra Permutation.
From Verif Require Import Num Numpy Table Binning SpecBinning BinningProofs HistProofs BinningProofs2 BinningProofs3 BinningWitness.
Import ListNotations.
Open Scope R_scope.

(** ** C01 *)
Theorem C01_bin_index_increasing : forall data bins, nondecreasing bins -> bins <> [] ->
  exists idx valid, calculate_bin_indices (mkArr data None) (mkArr bins None) = Ok (idx, valid) /\
    List.length idx = List.length data /\ List.length valid = List.length data /\
    forall i x, nth_error data i = Some x ->
      exists z v, nth_error idx i = Some z /\ nth_error valid i = Some v /\ bin_outcome bins x z v.
Proof. exact bin_indices_inc. Qed.
Print Assumptions C01_bin_index_increasing.

(** the three documented outcomes exclude each other and the bin is unique *)
Theorem C01_outcome_unique : forall bins x z v z' v', nondecreasing bins ->
  bin_outcome bins x z v -> bin_outcome bins x z' v' -> z = z' /\ v = v'.
Proof. exact bin_outcome_functional. Qed.
Print Assumptions C01_outcome_unique.

Theorem C01_bin_index_decreasing : forall data bins a b, nonincreasing bins ->
  first_edge bins a -> last_edge bins b -> a <> b ->
  exists idx valid, calculate_bin_indices (mkArr data None) (mkArr bins None) = Ok (idx, valid) /\
    List.length idx = List.length data /\ List.length valid = List.length data /\
    forall i x, nth_error data i = Some x ->
      exists z v, nth_error idx i = Some z /\ nth_error valid i = Some v /\ bin_outcome_dec bins x z v.
Proof. exact bin_indices_dec. Qed.
Print Assumptions C01_bin_index_decreasing.

(** edges that go up somewhere and down somewhere *)
Theorem C01_bin_index_not_monotonic : forall data bins i j a b c d,
  nth_error bins i = Some a -> nth_error bins (S i) = Some b -> nlt a b = true ->
  nth_error bins j = Some c -> nth_error bins (S j) = Some d -> nlt d c = true ->
  calculate_bin_indices (mkArr data None) (mkArr bins None) = Err ValueError.
Proof. exact bin_indices_nonmono. Qed.
Print Assumptions C01_bin_index_not_monotonic.

Example C01_example : nondecreasing [NInf; Fin 0; Fin 1; Fin 1; PInf] /\ [NInf; Fin 0; Fin 1; Fin 1; PInf] <> [].
Proof. split; [conc_nondec|discriminate]. Qed.
Example C01_example_values :
  in_bin [Fin 0; Fin 1; Fin 3] 1 (Fin 1) /\ in_bin [Fin 0; Fin 1; Fin 3] 1 (Fin 2).
Proof. split; exists (Fin 1), (Fin 3); simpl; rsolve; auto. Qed.

(** ** C02 *)
Theorem C02_infinite_edges : forall data bins, nondecreasing bins ->
  first_edge bins NInf -> last_edge bins PInf ->
  exists idx valid, calculate_bin_indices (mkArr data None) (mkArr bins None) = Ok (idx, valid) /\
    List.length idx = List.length data /\ List.length valid = List.length data /\
    forall i x, nth_error data i = Some x -> exists z v, nth_error idx i = Some z /\ nth_error valid i = Some v /\
      ((x <> PInf /\ x <> NaN /\ v = true /\ (0 <= z < Z.of_nat (List.length bins) - 1)%Z) \/
       ((x = PInf \/ x = NaN) /\ v = false /\ z = INT64_MAX)).
Proof. exact bin_indices_infinite_exact. Qed.
Print Assumptions C02_infinite_edges.
Theorem C02_add_overflow_bins : forall data bins, bins <> [] -> nondecreasing bins ->
  exists out idx valid, add_overflow_bins bins false = Ok out /\
    calculate_bin_indices (mkArr data None) (mkArr out None) = Ok (idx, valid) /\
    List.length idx = List.length data /\ List.length valid = List.length data /\
    forall i x, nth_error data i = Some x -> exists z v, nth_error idx i = Some z /\ nth_error valid i = Some v /\
      ((x <> PInf /\ x <> NaN /\ v = true /\ (0 <= z < Z.of_nat (List.length out) - 1)%Z) \/
       ((x = PInf \/ x = NaN) /\ v = false /\ z = INT64_MAX)).
Proof. exact overflow_exact. Qed.
Print Assumptions C02_add_overflow_bins.

(** The docstring says "always": false for +inf and NaN, for every such binning. *)
Theorem C02_infinite_edges_valid_refuted : forall x bins,
  x = PInf \/ x = NaN -> nondecreasing bins -> first_edge bins NInf -> last_edge bins PInf ->
  calculate_bin_indices (mkArr [x] None) (mkArr bins None) = Ok ([INT64_MAX], [false]).
Proof. exact bin_indices_infinite_refuted. Qed.
Print Assumptions C02_infinite_edges_valid_refuted.

Example C02_example : nondecreasing [NInf; Fin 0; PInf] /\ first_edge [NInf; Fin 0; PInf] NInf
  /\ last_edge [NInf; Fin 0; PInf] PInf.
Proof. split; [conc_nondec|split; reflexivity]. Qed.

(** ** C03 *)
Theorem C03_unit_invariance : forall data bins ud ub ud' ub',
  0 < u_scale ud -> 0 < u_scale ub -> 0 < u_scale ud' -> 0 < u_scale ub' ->
  u_dim ud = u_dim ub -> u_dim ud' = u_dim ud -> u_dim ub' = u_dim ud ->
  calculate_bin_indices (mkArr (map (convert_val ud ud') data) (Some ud'))
                        (mkArr (map (convert_val ub ub') bins) (Some ub'))
  = calculate_bin_indices (mkArr data (Some ud)) (mkArr bins (Some ub)).
Proof. exact bin_indices_units. Qed.
Print Assumptions C03_unit_invariance.
Theorem C03_common_unit : forall data bins u, 0 < u_scale u ->
  calculate_bin_indices (mkArr data (Some u)) (mkArr bins (Some u))
  = calculate_bin_indices (mkArr data None) (mkArr bins None).
Proof. exact bin_indices_same_unit. Qed.
Print Assumptions C03_common_unit.
Theorem C03_incompatible_unit : forall data bins ud ub, u_dim ud <> u_dim ub ->
  calculate_bin_indices (mkArr data (Some ud)) (mkArr bins (Some ub)) = Err UnitConversionError.
Proof. exact bin_indices_wrong_dim. Qed.
Print Assumptions C03_incompatible_unit.
Theorem C03_bins_without_unit : forall data bins ud,
  calculate_bin_indices (mkArr data (Some ud)) (mkArr bins None) = Err TypeError.
Proof. exact (fun data bins ud => eq_refl). Qed.
Print Assumptions C03_bins_without_unit.
(** GeV and TeV: 1 TeV = 1000 GeV *)
Example C03_example : let gev := mkUnit 1 1 in let tev := mkUnit 1000 1 in
  0 < u_scale gev /\ 0 < u_scale tev /\ u_dim gev = u_dim tev /\
  convert_val tev gev (Fin 2) = Fin 2000.
Proof. simpl. repeat split; try lra. unfold convert_val; simpl. f_equal. lra. Qed.

(** ** C04 *)
Theorem C04_histogram_counts : forall ev bins key, nondecreasing bins -> (2 <= List.length bins)%nat ->
  exists t n, create_histogram_table ev bins key = Ok t /\
    getitem t "n" = Some (CZ n) /\
    is_histogram ev_x (et_rows ev) bins n /\
    exists m, zsum n = Z.of_nat m /\ number_of (fun e => in_range bins (ev_x e)) (et_rows ev) m.
Proof. exact c04. Qed.
Print Assumptions C04_histogram_counts.
Theorem C04_histogram_weighted : forall ev bins key, nondecreasing bins -> (2 <= List.length bins)%nat ->
  et_has_weight ev = true ->
  (et_has_ptype ev = true -> forall e, In e (et_rows ev) -> ev_p e <> "weighted"%string) ->
  exists t n, create_histogram_table ev bins key = Ok t /\
    getitem t "n_weighted" = Some (CN (map Fin n)) /\
    is_histogram_w ev_x ev_w (et_rows ev) bins n /\
    weight_of ev_w (fun e => in_range bins (ev_x e)) (et_rows ev) (rsum n).
Proof. exact c04_weighted. Qed.
Print Assumptions C04_histogram_weighted.
Theorem C04_histogram_unweighted : forall ev bins key, nondecreasing bins -> (2 <= List.length bins)%nat ->
  et_has_weight ev = false ->
  (et_has_ptype ev = true -> forall e, In e (et_rows ev) -> ev_p e <> "weighted"%string) ->
  exists t c, create_histogram_table ev bins key = Ok t /\
    getitem t "n" = Some c /\ getitem t "n_weighted" = Some c.
Proof. exact c04_unweighted. Qed.
Print Assumptions C04_histogram_unweighted.
Example C04_example : nondecreasing [Fin 0; Fin 1; PInf] /\
  in_hist_bin [Fin 0; Fin 1; Fin 2] 1 (Fin 2) /\ in_hist_bin [Fin 0; Fin 1; Fin 2] 1 (Fin 1).
Proof.
  split; [conc_nondec|]. split; [right; split; reflexivity|left].
  exists (Fin 1), (Fin 2); simpl; rsolve; auto.
Qed.

(** ** C05 *)
Theorem C05_per_particle : forall ev bins key, nondecreasing bins -> (2 <= List.length bins)%nat ->
  et_has_ptype ev = true -> no_collision (map ev_p (et_rows ev)) ->
  exists t, create_histogram_table ev bins key = Ok t /\
    (forall p, In p (map ev_p (et_rows ev)) -> exists n, getitem t ("n_" ++ p) = Some (CZ n) /\
       List.length n = (List.length bins - 1)%nat /\
       forall k c, nth_error n k = Some c -> exists m, c = Z.of_nat m /\
         number_of (fun e => in_hist_bin bins k (ev_x e) /\ ev_p e = p) (et_rows ev) m) /\
    (forall labels, NoDup labels -> (forall p, In p labels <-> In p (map ev_p (et_rows ev))) ->
       exists n ns, getitem t "n" = Some (CZ n) /\
         Forall2 (fun p np => getitem t ("n_" ++ p)%string = Some (CZ np)) labels ns /\
         forall k c, nth_error n k = Some c -> c = zsum (map (fun np => nth k np 0%Z) ns)).
Proof. exact c05. Qed.
Print Assumptions C05_per_particle.
Theorem C05_per_particle_weighted : forall ev bins key, nondecreasing bins -> (2 <= List.length bins)%nat ->
  et_has_ptype ev = true -> et_has_weight ev = true ->
  no_collision (map ev_p (et_rows ev)) -> ~ In "weighted"%string (map ev_p (et_rows ev)) ->
  exists t, create_histogram_table ev bins key = Ok t /\
    (forall labels, NoDup labels -> (forall p, In p labels <-> In p (map ev_p (et_rows ev))) ->
       exists n ns, getitem t "n_weighted" = Some (CN (map Fin n)) /\
         Forall2 (fun p np => getitem t (("n_" ++ p) ++ "_weighted")%string = Some (CN (map Fin np)) /\
                   is_histogram_w ev_x ev_w (filter (fun e => String.eqb (ev_p e) p) (et_rows ev)) bins np) labels ns /\
         forall k c, nth_error n k = Some c -> c = rsum (map (fun np => nth k np 0) ns)).
Proof. exact c05_weighted. Qed.
Print Assumptions C05_per_particle_weighted.
(** the columns of the table, for any labels *)
Theorem C05_columns : forall ev bins key, nondecreasing bins -> bins <> [] ->
  exists t, create_histogram_table ev bins key = Ok t /\
    forall name, In name (colnames t) <->
      In name [key ++ "_low"; key ++ "_high"; key ++ "_center"; "n"; "n_weighted"]%string \/
      (et_has_ptype ev = true /\ exists p, In p (map ev_p (et_rows ev)) /\ (name = "n_" ++ p \/ name = ("n_" ++ p) ++ "_weighted")%string).
Proof. exact c05_columns. Qed.
Print Assumptions C05_columns.
(** without weights the weighted columns hold the counts *)
Theorem C05_unweighted : forall ev bins key, nondecreasing bins -> bins <> [] -> et_has_weight ev = false ->
  no_collision (map ev_p (et_rows ev)) -> ~ In "weighted"%string (map ev_p (et_rows ev)) ->
  exists t, create_histogram_table ev bins key = Ok t /\
    (exists n, getitem t "n" = Some (CZ n) /\ getitem t "n_weighted" = Some (CZ n)) /\
    (et_has_ptype ev = true -> forall p, In p (map ev_p (et_rows ev)) ->
       exists n, getitem t ("n_" ++ p)%string = Some (CZ n) /\ getitem t (("n_" ++ p) ++ "_weighted")%string = Some (CZ n)).
Proof. exact c05_unweighted. Qed.
Print Assumptions C05_unweighted.
Example C05_example : no_collision ["electron"; "gamma"; "proton"]%string.
Proof.
  intros p q Hp Hq E. apply (f_equal String.length) in E as El. rewrite string_length_app in El.
  simpl in Hp, Hq. repeat (destruct Hp as [<-|Hp]; [|]); try (destruct Hp);
    repeat (destruct Hq as [<-|Hq]; [discriminate|]); destruct Hq.
Qed.
(** A particle called "weighted" overwrites the column n_weighted: with one event of
    weight 1/2, n_weighted shows the unweighted count 1. *)
Theorem C05_label_collision_refuted : exists ev bins t,
  nondecreasing bins /\ et_has_ptype ev = true /\ et_has_weight ev = true /\
  create_histogram_table ev bins "e" = Ok t /\
  getitem t "n_weighted" = Some (CZ [1%Z]) /\
  weight_of ev_w (fun e => in_range bins (ev_x e)) (et_rows ev) (1/2 + 0).
Proof. exact label_collision. Qed.
Print Assumptions C05_label_collision_refuted.

(** ** C06 *)
Theorem C06_permutation : forall e1 e2 hw hp bins key, Permutation e1 e2 ->
  create_histogram_table (mkEvents e1 hw hp) bins key = create_histogram_table (mkEvents e2 hw hp) bins key.
Proof. exact hist_perm. Qed.
Print Assumptions C06_permutation.
Theorem C06_additive : forall e1 e2 hw hp bins key, nondecreasing bins -> bins <> [] ->
  exists t t1 t2 n n1 n2,
    create_histogram_table (mkEvents (e1 ++ e2) hw hp) bins key = Ok t /\
    create_histogram_table (mkEvents e1 hw hp) bins key = Ok t1 /\
    create_histogram_table (mkEvents e2 hw hp) bins key = Ok t2 /\
    getitem t "n" = Some (CZ n) /\ getitem t1 "n" = Some (CZ n1) /\ getitem t2 "n" = Some (CZ n2) /\
    List.length n = List.length n1 /\ List.length n = List.length n2 /\
    forall k a b c, nth_error n k = Some a -> nth_error n1 k = Some b -> nth_error n2 k = Some c -> a = (b + c)%Z.
Proof. exact c06_additive. Qed.
Print Assumptions C06_additive.
Theorem C06_additive_weighted : forall e1 e2 bins key, nondecreasing bins -> bins <> [] ->
  exists t t1 t2 n n1 n2,
    create_histogram_table (mkEvents (e1 ++ e2) true false) bins key = Ok t /\
    create_histogram_table (mkEvents e1 true false) bins key = Ok t1 /\
    create_histogram_table (mkEvents e2 true false) bins key = Ok t2 /\
    getitem t "n_weighted" = Some (CN (map Fin n)) /\ getitem t1 "n_weighted" = Some (CN (map Fin n1)) /\
    getitem t2 "n_weighted" = Some (CN (map Fin n2)) /\
    List.length n = List.length n1 /\ List.length n = List.length n2 /\
    forall k a b c, nth_error n k = Some a -> nth_error n1 k = Some b -> nth_error n2 k = Some c -> a = b + c.
Proof. exact c06_additive_weighted. Qed.
Print Assumptions C06_additive_weighted.
Example C06_example : Permutation [mkEvent (Fin 1) 2 "a"; mkEvent NaN 1 "b"] [mkEvent NaN 1 "b"; mkEvent (Fin 1) 2 "a"].
Proof. constructor. Qed.

(** ** C07 *)
Theorem C07_histogram_matches_indices : forall ev bins key, nondecreasing bins -> (2 <= List.length bins)%nat ->
  exists t n idx valid, create_histogram_table ev bins key = Ok t /\
    getitem t "n" = Some (CZ n) /\
    calculate_bin_indices (mkArr (map ev_x (et_rows ev)) None) (mkArr bins None) = Ok (idx, valid) /\
    forall k c, nth_error n k = Some c ->
      c = (Z.of_nat (count (fun p : Z * bool => snd p && Z.eqb (fst p) (Z.of_nat k)) (combine idx valid))
          + if Nat.eqb (S (S k)) (List.length bins)
            then Z.of_nat (count (fun e => neqb (ev_x e) (last bins NaN)) (et_rows ev)) else 0)%Z.
Proof. exact c07. Qed.
Print Assumptions C07_histogram_matches_indices.

(** ** C08 *)
Theorem C08_add_overflow_bins : forall bins positive, bins <> [] -> (forall e, In e bins -> is_nan e = false) ->
  exists out pre post, add_overflow_bins bins positive = Ok out /\ out = pre ++ bins ++ post /\
    (pre = [] \/ pre = [if positive then Fin 0 else NInf]) /\ (post = [] \/ post = [PInf]) /\
    (exists e, first_edge out e /\ nle e (if positive then Fin 0 else NInf) = true) /\
    last_edge out PInf /\
    (nondecreasing bins -> nondecreasing out) /\
    add_overflow_bins out positive = Ok out.
Proof. exact add_overflow_spec. Qed.
Print Assumptions C08_add_overflow_bins.
(** together with C02: afterwards every value but +inf / NaN is binnable *)
Theorem C08_overflow_bins_make_valid : forall bins data, bins <> [] -> nondecreasing bins ->
  (forall x, In x data -> x <> PInf /\ x <> NaN) ->
  exists out idx valid, add_overflow_bins bins false = Ok out /\
    calculate_bin_indices (mkArr data None) (mkArr out None) = Ok (idx, valid) /\
    (forall v, In v valid -> v = true).
Proof. exact overflow_then_valid. Qed.
Print Assumptions C08_overflow_bins_make_valid.
Example C08_example : add_overflow_bins [Fin 1; Fin 2] true = Ok [Fin 0; Fin 1; Fin 2; PInf].
Proof. unfold add_overflow_bins, ngt. simpl. rsolve. reflexivity. Qed.

(** ** C09 *)
Theorem C09_join_split : forall bins, (2 <= List.length bins)%nat -> (forall e, In e bins -> is_nan e = false) ->
  join_bin_lo_hi (fst (split_bin_lo_hi bins)) (snd (split_bin_lo_hi bins)) = Ok bins.
Proof. exact join_split. Qed.
Print Assumptions C09_join_split.
Theorem C09_join_split_nd : forall rows,
  (forall r, In r rows -> (2 <= List.length r)%nat /\ forall e, In e r -> is_nan e = false) ->
  join_bin_lo_hi_nd (map (fun r => fst (split_bin_lo_hi r)) rows) (map (fun r => snd (split_bin_lo_hi r)) rows) = Ok rows.
Proof. exact join_split_nd. Qed.
Print Assumptions C09_join_split_nd.
Theorem C09_join_succeeds_iff : forall lo hi, List.length lo = List.length hi -> lo <> [] ->
  (touching lo hi /\ join_bin_lo_hi lo hi = Ok (lo ++ [last hi NaN])) \/
  (~ touching lo hi /\ join_bin_lo_hi lo hi = Err ValueError).
Proof. exact join_spec. Qed.
Print Assumptions C09_join_succeeds_iff.
Theorem C09_split_join : forall lo hi out, List.length lo = List.length hi -> lo <> [] ->
  join_bin_lo_hi lo hi = Ok out ->
  List.length out = S (List.length lo) /\
  fst (split_bin_lo_hi out) = lo /\
  List.length (snd (split_bin_lo_hi out)) = List.length hi /\
  forall i a b, nth_error (snd (split_bin_lo_hi out)) i = Some a -> nth_error hi i = Some b ->
     (S i < List.length hi)%nat /\ within_tolerance a b \/ (S i = List.length hi)%nat /\ a = b.
Proof. exact split_join. Qed.
Print Assumptions C09_split_join.
Example C09_example : touching [Fin 0; Fin 1] [Fin 1; Fin 2].
Proof.
  intros [|[|i]] a b Ha Hb; simpl in *; try discriminate; try (destruct i; discriminate).
  injection Ha as <-; injection Hb as <-. simpl. replace (1 - 1) with 0 by ring. rewrite Rabs_R0.
  pose proof (Rabs_pos 1). lra.
Qed.

(** ** C10 *)
Theorem C10_bins_per_decade : forall lo u hi uh n,
  u_dim u = energy_dim -> u_dim uh = energy_dim -> 0 < u_scale u -> 0 < u_scale uh ->
  0 < n -> 0 < lo -> lo <= hi * (u_scale uh / u_scale u) ->
  let hi' := hi * (u_scale uh / u_scale u) in
  exists out, create_bins_per_decade (lo, u) (hi, uh) n = Ok (out, u) /\
    nth_error out 0 = Some lo /\
    (forall i a, nth_error out i = Some a -> a = lo * Rpower 10 (INR i / n)) /\
    (forall i a b, nth_error out i = Some a -> nth_error out (S i) = Some b ->
        a < b /\ b / a = Rpower 10 (1 / n)) /\
    (forall a, In a out -> lo <= a < hi' * Rpower 10 (1 / n / 10000)) /\
    hi' * Rpower 10 (1 / n / 10000) <= lo * Rpower 10 (INR (List.length out) / n).
Proof. exact bins_per_decade_spec. Qed.
Print Assumptions C10_bins_per_decade.
Theorem C10_endpoint_included : forall lo u hi uh n (k : nat),
  u_dim u = energy_dim -> u_dim uh = energy_dim -> 0 < u_scale u -> 0 < u_scale uh ->
  0 < n -> 0 < lo -> hi * (u_scale uh / u_scale u) = lo * Rpower 10 (INR k / n) ->
  exists out, create_bins_per_decade (lo, u) (hi, uh) n = Ok (out, u) /\
    List.length out = S k /\ nth_error out k = Some (hi * (u_scale uh / u_scale u)).
Proof. exact bins_per_decade_exact. Qed.
Print Assumptions C10_endpoint_included.
Example C10_example : let gev := mkUnit 1 energy_dim in let tev := mkUnit 1000 energy_dim in
  10 <= 1 * (u_scale tev / u_scale gev).
Proof. simpl. lra. Qed.

(** ** C11 *)
Section C11.
  Variable itp : list R -> list R -> R -> R.
  Hypothesis Hitp : passes_through_knots itp.
  Variables (data old : list R).
  Hypothesis Hlen : List.length old = S (List.length data).
  Hypothesis Hmin : (3 <= List.length old)%nat.
  Hypothesis Hinc : increasing old.

  Theorem C11_resample_length : forall new, exists out,
    resample_histogram1d itp false data (map Fin old) (map Fin new) = Ok out /\
    List.length out = (List.length new - 1)%nat.
  Proof. exact (resample_length itp data old Hlen Hmin (proj2 (strictly_increasing_iff old) Hinc)). Qed.
  (** the whole result: differences of one cumulative content [G], which is the interpolant of the cumulative
      fractions inside of the old range, nothing below it and the total above it (1 if the total is 0: see the refutation below) *)
  Theorem C11_resample_cumulative : exists (G : R -> R) (fractions : list R),
    List.length fractions = List.length old /\
    (forall i y, nth_error fractions i = Some y ->
       y = rsum (firstn i data) / (if Req_EM_T (rsum data) 0 then 1 else rsum data)) /\
    (forall x, x < hd 0 old -> G x = 0) /\
    (forall x, hd 0 old <= x <= last old 0 -> G x = itp old fractions x * (if Req_EM_T (rsum data) 0 then 1 else rsum data)) /\
    (forall x, last old 0 < x -> G x = if Req_EM_T (rsum data) 0 then 1 else rsum data) /\
    (forall i x, nth_error old i = Some x -> G x = rsum (firstn i data)) /\
    forall new, exists out, resample_histogram1d itp false data (map Fin old) (map Fin new) = Ok out /\
      List.length out = (List.length new - 1)%nat /\
      (forall k a b, nth_error new k = Some a -> nth_error new (S k) = Some b -> nth_error out k = Some (G b - G a)) /\
      (new <> [] -> rsum out = G (last new 0) - G (hd 0 new)).
  Proof. exact (resample_cumulative itp Hitp data old Hlen Hmin (proj2 (strictly_increasing_iff old) Hinc)). Qed.
  Theorem C11_resample_total : forall new, new <> [] -> rsum data <> 0 ->
    hd 0 new <= hd 0 old -> last old 0 <= last new 0 ->
    exists out, resample_histogram1d itp false data (map Fin old) (map Fin new) = Ok out /\ rsum out = rsum data.
  Proof. exact (resample_total itp Hitp data old Hlen Hmin (proj2 (strictly_increasing_iff old) Hinc)). Qed.
  Theorem C11_resample_aligned : forall new k i j a b,
    nth_error new k = Some a -> nth_error new (S k) = Some b ->
    nth_error old i = Some a -> nth_error old j = Some b ->
    exists out, resample_histogram1d itp false data (map Fin old) (map Fin new) = Ok out /\
      nth_error out k = Some (rsum (firstn j data) - rsum (firstn i data)).
  Proof. exact (resample_aligned itp Hitp data old Hlen Hmin (proj2 (strictly_increasing_iff old) Hinc)). Qed.
  Theorem C11_resample_same_edges : exists out,
    resample_histogram1d itp false data (map Fin old) (map Fin old) = Ok out /\ out = data.
  Proof. exact (resample_same itp Hitp data old Hlen Hmin (proj2 (strictly_increasing_iff old) Hinc)). Qed.
  Theorem C11_resample_outside : forall new k a b,
    nth_error new k = Some a -> nth_error new (S k) = Some b ->
    (a <= hd 0 old /\ b <= hd 0 old) \/ (last old 0 <= a /\ last old 0 <= b /\ rsum data <> 0) ->
    exists out, resample_histogram1d itp false data (map Fin old) (map Fin new) = Ok out /\ nth_error out k = Some 0.
  Proof. exact (resample_outside itp Hitp data old Hlen Hmin (proj2 (strictly_increasing_iff old) Hinc)). Qed.
End C11.
Print Assumptions C11_resample_length.
Print Assumptions C11_resample_cumulative.
Print Assumptions C11_resample_total.
Print Assumptions C11_resample_aligned.
Print Assumptions C11_resample_same_edges.
Print Assumptions C11_resample_outside.
(** infinite outer edges behave as the mirrored finite ones / the largest float *)
Theorem C11_resample_infinite_edges : forall itp b data (mid : list R) new nx, (2 <= List.length mid)%nat ->
  all_fin (map (nan_to_num (Fin fmax) (Fin (- fmax))) new) = Some nx ->
  resample_histogram1d itp b data (NInf :: map Fin mid ++ [PInf]) new =
  resample_histogram1d itp b data
    (map Fin ((hd 0 mid - (last mid 0 - hd 0 mid)) :: mid ++ [last mid 0 + (last mid 0 - hd 0 mid)]))
    (map Fin nx).
Proof. exact resample_infinite. Qed.
Print Assumptions C11_resample_infinite_edges.
(** An all-zero histogram does NOT stay all-zero: one new bin from the first old edge to
    beyond the last old edge receives the count 1. *)
Theorem C11_empty_stays_empty_refuted : forall itp (old : list R) (hi : R), passes_through_knots itp ->
  (3 <= List.length old)%nat -> increasing old -> last old 0 < hi ->
  resample_histogram1d itp false (repeat 0 (List.length old - 1)) (map Fin old) (map Fin [hd 0 old; hi]) = Ok [1].
Proof. exact (fun itp old hi H1 H2 H3 => resample_empty_phantom itp old hi H1 H2 (proj2 (strictly_increasing_iff old) H3)). Qed.
Print Assumptions C11_empty_stays_empty_refuted.
(** Non-negative data can be resampled to negative values. *)
Theorem C11_nonnegative_refuted : forall itp, quadratic_on_three_knots itp ->
  resample_histogram1d itp false [1; 0] (map Fin [0; 1; 2]) (map Fin [1; 3/2; 2]) = Ok [1/8; -1/8].
Proof. exact resample_negative. Qed.
Print Assumptions C11_nonnegative_refuted.
(** integer histograms (e.g. from np.histogram without weights) are rejected *)
Theorem C11_integer_data_rejected : forall itp data old new,
  (3 <= List.length old)%nat ->
  resample_histogram1d itp true data (map Fin old) (map Fin new) = Err TypeError.
Proof. exact resample_int. Qed.
Print Assumptions C11_integer_data_rejected.
Example C11_example : passes_through_knots some_itp /\ quadratic_on_three_knots some_itp /\ increasing [0; 1; 2; 4].
Proof. split; [exact some_itp_passes|split; [exact some_itp_quadratic|conc_increasing]]. Qed.
