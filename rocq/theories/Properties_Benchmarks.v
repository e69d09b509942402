(** * Properties of pyirf/benchmarks (C60, C61, C66) *)
From Coq Require Import String Reals List Bool ZArith Lia Lra Permutation.
From Verif Require Import Num Numpy Sort Table Binning SpecBinning BinningProofs Lists Percentile Cuts SpecCuts SpecIRF Benchmarks SpecBenchmarks
  BenchmarkProofs BenchmarkProofs2 BenchmarkProofs3 BenchmarkProofs4.
Import ListNotations.
Open Scope R_scope.
Ltac inc := intros [|[|[|[|?]]]] a b Ha Hb; cbn in Ha, Hb; try discriminate; inversion Ha; inversion Hb; subst; lra.

(** ** C60.  A table of events whose energies have the unit of the bins *)
(** number of events and quantiles of theta in each bin; one column for each quantile *)
Theorem C60_values : forall (events : columns) (energy_type : string) (xs thetas : list num) (u : unit_) (tu : option unit_) (edges : list num),
  getitem events (energy_type ++ "_energy") = Some (mkArr xs (Some u)) -> getitem events "theta" = Some (mkArr thetas tu) ->
  n_rows events = List.length xs -> List.length thetas = List.length xs -> 0 < u_scale u -> nondecreasing edges -> (2 <= List.length edges)%nat ->
  forall qs,
  (forall q, In q qs -> 0 <= q <= 1) -> NoDup (map column_name qs) ->
    (exists x k, In x xs /\ in_bin edges k x) ->
    exists t, angular_resolution events (mkArr edges (Some u)) energy_type (QSeq qs) = Ok t /\ table_of edges (map column_name qs) t /\
      forall k sel, (k < List.length edges - 1)%nat -> picks (in_bin edges k) xs thetas sel ->
        nth_error (bt_n_events t) k = Some (Z.of_nat (List.length sel)) /\
        forall q, In q qs -> exists c, cell t (column_name q) k c /\ documented_quantile sel q c.
Proof. intros; eapply resolution_values; eauto. Qed.
Print Assumptions C60_values.
(** a single quantile *)
Theorem C60_scalar : forall events energy_type u edges,
  forall q,
  angular_resolution events (mkArr edges (Some u)) energy_type (QScalar q) = angular_resolution events (mkArr edges (Some u)) energy_type (QSeq [q]).
Proof. exact resolution_scalar. Qed.
Print Assumptions C60_scalar.
(** an empty table *)
Theorem C60_no_events : forall (events : columns) (energy_type : string) (xs thetas : list num) (u : unit_) (tu : option unit_) (edges : list num),
  getitem events (energy_type ++ "_energy") = Some (mkArr xs (Some u)) -> getitem events "theta" = Some (mkArr thetas tu) ->
  n_rows events = List.length xs -> List.length thetas = List.length xs -> 0 < u_scale u -> nondecreasing edges -> (2 <= List.length edges)%nat ->
  forall qs,
  xs = [] -> NoDup (map column_name qs) ->
    exists t, angular_resolution events (mkArr edges (Some u)) energy_type (QSeq qs) = Ok t /\ table_of edges (map column_name qs) t /\
      forall k, (k < List.length edges - 1)%nat -> nth_error (bt_n_events t) k = Some 0%Z /\ forall q, In q qs -> cell t (column_name q) k NaN.
Proof. intros; eapply resolution_empty; eauto. Qed.
Print Assumptions C60_no_events.
Theorem C60_missing_column : forall events bins energy_type q,
  getitem events (energy_type ++ "_energy") = None \/ getitem events "theta" = None ->
  angular_resolution events bins energy_type q = Err KeyError.
Proof. exact resolution_missing. Qed.
Print Assumptions C60_missing_column.
(** a larger quantile has a larger value *)
Theorem C60_monotone : forall sel q1 q2 c1 c2 rs,
  0 <= q1 -> q1 <= q2 -> documented_quantile sel q1 (Fin c1) -> documented_quantile sel q2 (Fin c2) -> finite_part sel rs -> c1 <= c2.
Proof. exact quantile_mono. Qed.
Print Assumptions C60_monotone.
(** the name: percentage rounded to an integer *)
Theorem C60_names : forall q n,
  0 <= q -> Rabs (100 * q - INR n) < 1/2 -> column_name q = ("angular_resolution_" ++ decimal n)%string.
Proof. exact column_name_near. Qed.
Print Assumptions C60_names.
(** quantiles that differ by more than one per cent have different names *)
Theorem C60_names_differ : forall qs,
  (forall q, In q qs -> 0 <= q) -> (forall i j a b, i <> j -> nth_error qs i = Some a -> nth_error qs j = Some b -> 1 < Rabs (100 * a - 100 * b)) ->
  NoDup (map column_name qs).
Proof. exact column_names_nodup. Qed.
Print Assumptions C60_names_differ.
(** expected: one column per quantile.  Quantiles with the same name: only the last one is left *)
Theorem C60_same_name_refuted : forall events bins energy_type q1 q2,
  0 <= q1 <= 1 -> column_name q1 = column_name q2 ->
  angular_resolution events bins energy_type (QSeq [q1; q2]) = angular_resolution events bins energy_type (QSeq [q2]).
Proof. exact resolution_same_name. Qed.
Print Assumptions C60_same_name_refuted.
(** expected: NaN.  Events but none of them in a bin: IndexError *)
Theorem C60_outside_refuted : forall (events : columns) (energy_type : string) (xs thetas : list num) (u : unit_) (tu : option unit_) (edges : list num),
  getitem events (energy_type ++ "_energy") = Some (mkArr xs (Some u)) -> getitem events "theta" = Some (mkArr thetas tu) ->
  n_rows events = List.length xs -> List.length thetas = List.length xs -> 0 < u_scale u -> nondecreasing edges -> (2 <= List.length edges)%nat ->
  forall qs,
  ~ (exists x k, In x xs /\ in_bin edges k x) -> xs <> [] ->
    angular_resolution events (mkArr edges (Some u)) energy_type (QSeq qs) = Err IndexError.
Proof. intros; eapply resolution_none; eauto. Qed.
Print Assumptions C60_outside_refuted.
(** an array of quantiles is no Sequence: TypeError *)
Theorem C60_array_refuted : forall (events : columns) (energy_type : string) (xs thetas : list num) (u : unit_) (tu : option unit_) (edges : list num),
  getitem events (energy_type ++ "_energy") = Some (mkArr xs (Some u)) -> getitem events "theta" = Some (mkArr thetas tu) ->
  n_rows events = List.length xs -> List.length thetas = List.length xs -> 0 < u_scale u -> nondecreasing edges -> (2 <= List.length edges)%nat ->
  forall qs,
  angular_resolution events (mkArr edges (Some u)) energy_type (QArray qs) = Err TypeError.
Proof. intros; eapply resolution_array; eauto. Qed.
Print Assumptions C60_array_refuted.
Definition tev : unit_ := mkUnit 1 1.
Definition ev60 : columns := [("true_energy"%string, mkArr [Fin 2; Fin 5; Fin 20] (Some tev)); ("theta"%string, mkArr [Fin 3; NaN; Fin 1] (Some tev))].
Example C60_example : getitem ev60 ("true" ++ "_energy") = Some (mkArr [Fin 2; Fin 5; Fin 20] (Some tev)) /\ n_rows ev60 = 3%nat /\
  nondecreasing [Fin 1; Fin 10; Fin 100] /\ (exists x k, In x [Fin 2; Fin 5; Fin 20] /\ in_bin [Fin 1; Fin 10; Fin 100] k x) /\
  column_name (1/4) = "angular_resolution_25"%string /\ column_name (682/1000) = "angular_resolution_68"%string /\
  NoDup (map column_name [1/4; 682/1000]) /\ column_name 0 = column_name (4/1000) /\
  picks (in_bin [Fin 1; Fin 10; Fin 100] 0) [Fin 2; Fin 5; Fin 20] [Fin 3; NaN; Fin 1] [Fin 3; NaN].
Proof.
  assert (R : forall q n, 0 <= q -> -1/2 < 100 * q - INR n < 1/2 -> column_name q = ("angular_resolution_" ++ decimal n)%string) by (intros q n Hq H; apply column_name_near; auto; apply Rabs_def1; lra).
  split; [auto|]. split; [auto|]. split.
  { split; [intros e [<-|[<-|[<-|[]]]]; auto|]. intros [|[|[|?]]] a b Ha Hb; cbn in Ha, Hb; try discriminate; injection Ha as <-; injection Hb as <-; cbn; apply Rleb_true; lra. }
  split. { exists (Fin 2), 0%nat. split; [left; auto|]. exists (Fin 1), (Fin 10). repeat split; auto; cbn; [apply Rleb_true|apply Rltb_true]; lra. }
  split; [apply (R _ 25%nat); simpl INR; lra|]. split; [apply (R _ 68%nat); simpl INR; lra|]. split.
  { apply column_names_nodup; [intros q [<-|[<-|[]]]; lra|]. intros [|[|[|?]]] [|[|[|?]]] a b Hne Ha Hb; cbn in Ha, Hb; try discriminate; try congruence; injection Ha as <-; injection Hb as <-; unfold Rabs; destruct (Rcase_abs _); lra. }
  split; [rewrite (R 0 0%nat), (R (4/1000) 0%nat); auto; simpl INR; lra|].
  assert (Y : forall x, 1 <= x < 10 -> in_bin [Fin 1; Fin 10; Fin 100] 0 (Fin x)).
  { intros x Hx. exists (Fin 1), (Fin 10). repeat split; auto; cbn; [apply Rleb_true|apply Rltb_true]; lra. }
  apply pk_yes; [apply Y; lra|]. apply pk_yes; [apply Y; lra|]. apply pk_no; [|constructor].
  intros (a & b & Ha & Hb & _ & H). cbn in Ha, Hb. injection Hb as <-. cbn in H. apply Rltb_true in H. lra.
Qed.

(** ** C61 *)
(** median and half of the distance of the quantiles [lower], [upper] *)
Theorem C61_default : forall (events : columns) (energy_type : string) (trues recos : list num) (ut ur : unit_) (es : list R) (xs : list num) (u : unit_) (edges : list num),
  getitem events "true_energy" = Some (mkArr trues (Some ut)) -> getitem events "reco_energy" = Some (mkArr recos (Some ur)) ->
  n_rows events = List.length trues -> u_dim ur = u_dim ut -> 0 < u_scale ut -> 0 < u_scale ur -> rel_errors ur ut recos trues es ->
  binned_energy energy_type trues recos ut ur xs u -> nondecreasing edges -> (2 <= List.length edges)%nat ->
  forall lower upper,
  0 <= lower <= 1 -> 0 <= upper <= 1 -> (exists x k, In x xs /\ in_bin edges k x) ->
    exists t, energy_bias_resolution events (mkArr edges (Some u)) energy_type nanmedian (inter_quantile_distance lower upper) = Ok t /\ table_of edges ["bias"; "resolution"]%string t /\
      forall k sel, (k < List.length edges - 1)%nat -> picks (in_bin edges k) xs es sel ->
        nth_error (bt_n_events t) k = Some (Z.of_nat (List.length sel)) /\
        exists b r, cell t "bias" k b /\ cell t "resolution" k r /\ bias_and_resolution lower upper sel b r.
Proof. intros; eapply energy_default; eauto. Qed.
Print Assumptions C61_default.
(** any functions for bias and resolution: applied to the relative errors of the events in the bin *)
Theorem C61_any_functions : forall (events : columns) (energy_type : string) (trues recos : list num) (ut ur : unit_) (es : list R) (xs : list num) (u : unit_) (edges : list num),
  getitem events "true_energy" = Some (mkArr trues (Some ut)) -> getitem events "reco_energy" = Some (mkArr recos (Some ur)) ->
  n_rows events = List.length trues -> u_dim ur = u_dim ut -> 0 < u_scale ut -> 0 < u_scale ur -> rel_errors ur ut recos trues es ->
  binned_energy energy_type trues recos ut ur xs u -> nondecreasing edges -> (2 <= List.length edges)%nat ->
  forall bf rf,
  (forall g, exists b, bf g = Ok b) -> (forall g, exists r, rf g = Ok r) -> (exists x k, In x xs /\ in_bin edges k x) ->
    exists t, energy_bias_resolution events (mkArr edges (Some u)) energy_type bf rf = Ok t /\ table_of edges ["bias"; "resolution"]%string t /\
      forall k sel, (k < List.length edges - 1)%nat -> picks (in_bin edges k) xs es sel ->
        nth_error (bt_n_events t) k = Some (Z.of_nat (List.length sel)) /\
        match sel with [] => cell t "bias" k NaN /\ cell t "resolution" k NaN
        | _ => exists b r, bf (map Fin sel) = Ok b /\ rf (map Fin sel) = Ok r /\ cell t "bias" k b /\ cell t "resolution" k r end.
Proof. intros; eapply energy_values; eauto. Qed.
Print Assumptions C61_any_functions.
(** an empty table *)
Theorem C61_no_events : forall (events : columns) (energy_type : string) (trues recos : list num) (ut ur : unit_) (es : list R) (xs : list num) (u : unit_) (edges : list num),
  getitem events "true_energy" = Some (mkArr trues (Some ut)) -> getitem events "reco_energy" = Some (mkArr recos (Some ur)) ->
  n_rows events = List.length trues -> u_dim ur = u_dim ut -> 0 < u_scale ut -> 0 < u_scale ur -> rel_errors ur ut recos trues es ->
  binned_energy energy_type trues recos ut ur xs u -> nondecreasing edges -> (2 <= List.length edges)%nat ->
  forall bf rf,
  xs = [] ->
    exists t, energy_bias_resolution events (mkArr edges (Some u)) energy_type bf rf = Ok t /\ table_of edges ["bias"; "resolution"]%string t /\
      forall k, (k < List.length edges - 1)%nat -> nth_error (bt_n_events t) k = Some 0%Z /\ cell t "bias" k NaN /\ cell t "resolution" k NaN.
Proof. intros; eapply energy_empty; eauto. Qed.
Print Assumptions C61_no_events.
Theorem C61_resolution_nonnegative : forall lower upper sel b r,
  0 <= lower <= upper -> bias_and_resolution lower upper sel b (Fin r) -> 0 <= r.
Proof. exact resolution_nonneg. Qed.
Print Assumptions C61_resolution_nonnegative.
Theorem C61_bias_in_range : forall lower upper sel b r,
  bias_and_resolution lower upper sel (Fin b) r -> exists lo hi, In lo sel /\ In hi sel /\ lo <= b <= hi.
Proof. exact bias_in_range. Qed.
Print Assumptions C61_bias_in_range.
Theorem C61_resolution_bounded : forall lower upper sel b r,
  bias_and_resolution lower upper sel b (Fin r) -> exists lo hi, In lo sel /\ In hi sel /\ 2 * r <= hi - lo.
Proof. exact resolution_bounded. Qed.
Print Assumptions C61_resolution_bounded.
(** all relative errors equal: this is the bias, resolution 0 *)
Theorem C61_equal_errors : forall lower upper sel e b r,
  sel <> [] -> (forall x, In x sel -> x = e) -> bias_and_resolution lower upper sel b r -> b = Fin e /\ r = Fin 0.
Proof. exact bias_exact. Qed.
Print Assumptions C61_equal_errors.
(** reconstructed energies times a constant: the relative errors *)
Theorem C61_scaled_energies : forall ur ut c rs ts es,
  rel_errors ur ut rs ts es -> 0 < u_scale ut ->
  rel_errors ur ut (map (fun r => match r with Fin x => Fin (c * x) | _ => r end) rs) ts (map (fun e => c * (1 + e) - 1) es).
Proof. exact rel_errors_scale. Qed.
Print Assumptions C61_scaled_energies.
(** and bias and resolution *)
Theorem C61_scaling : forall lower upper c sel b r b' r',
  0 < c -> 0 <= lower -> 0 <= upper ->
  bias_and_resolution lower upper sel (Fin b) (Fin r) -> bias_and_resolution lower upper (map (fun e => c * (1 + e) - 1) sel) (Fin b') (Fin r') ->
  1 + b' = c * (1 + b) /\ r' = c * r.
Proof. exact bias_scaling. Qed.
Print Assumptions C61_scaling.
(** the alternative resolution: quantile of the absolute errors *)
Theorem C61_absolute_68 : forall coverage sel,
  0 <= coverage <= 1 -> exists c, energy_resolution_absolute_68 coverage (map Fin sel) = Ok c /\
  match sel with [] => c = NaN | _ => exists r, c = Fin r /\ 0 <= r /\ linear_percentile (map Rabs sel) (100 * coverage) r end.
Proof. exact absolute_68_spec. Qed.
Print Assumptions C61_absolute_68.
(** expected: NaN.  Events but none of them in a bin: IndexError *)
Theorem C61_outside_refuted : forall (events : columns) (energy_type : string) (trues recos : list num) (ut ur : unit_) (es : list R) (xs : list num) (u : unit_) (edges : list num),
  getitem events "true_energy" = Some (mkArr trues (Some ut)) -> getitem events "reco_energy" = Some (mkArr recos (Some ur)) ->
  n_rows events = List.length trues -> u_dim ur = u_dim ut -> 0 < u_scale ut -> 0 < u_scale ur -> rel_errors ur ut recos trues es ->
  binned_energy energy_type trues recos ut ur xs u -> nondecreasing edges -> (2 <= List.length edges)%nat ->
  forall bf rf,
  xs <> [] -> ~ (exists x k, In x xs /\ in_bin edges k x) ->
    energy_bias_resolution events (mkArr edges (Some u)) energy_type bf rf = Err IndexError.
Proof. intros; eapply energy_none; eauto. Qed.
Print Assumptions C61_outside_refuted.
(** columns without units, accepted by other functions: AttributeError *)
Theorem C61_without_units_refuted : forall events bins energy_type bf rf trues recos,
  getitem events "true_energy" = Some (mkArr trues None) -> getitem events "reco_energy" = Some (mkArr recos None) ->
  energy_bias_resolution events bins energy_type bf rf = Err AttributeError.
Proof. exact energy_no_units. Qed.
Print Assumptions C61_without_units_refuted.
Definition gev : unit_ := mkUnit (1/1000) 1.
Definition ev61 : columns := [("true_energy"%string, mkArr [Fin 2; Fin 4] (Some tev)); ("reco_energy"%string, mkArr [Fin 3000; Fin 5000] (Some gev))].
Example C61_example : getitem ev61 "true_energy" = Some (mkArr [Fin 2; Fin 4] (Some tev)) /\ rel_errors gev tev [Fin 3000; Fin 5000] [Fin 2; Fin 4] [1/2; 1/4] /\
  binned_energy "true" [Fin 2; Fin 4] [Fin 3000; Fin 5000] tev gev [Fin 2; Fin 4] tev /\ nondecreasing [Fin 1; Fin 10] /\
  (exists x k, In x [Fin 2; Fin 4] /\ in_bin [Fin 1; Fin 10] k x) /\ bias_and_resolution (16/100) (84/100) [1/2; 1/4] (Fin (3/8)) (Fin (17/200)).
Proof.
  split; [auto|]. split; [apply re_cons; [lra|cbn; lra|apply re_cons; [lra|cbn; lra|constructor]]|]. split; [left; auto|]. split.
  { split; [intros e [<-|[<-|[]]]; auto|]. intros [|[|?]] a b Ha Hb; cbn in Ha, Hb; try discriminate; injection Ha as <-; injection Hb as <-; cbn; apply Rleb_true; lra. }
  split. { exists (Fin 2), 0%nat. split; [left; auto|]. exists (Fin 1), (Fin 10). repeat split; auto; cbn; [apply Rleb_true|apply Rltb_true]; lra. }
  assert (L : forall p c, 0 <= p < 100 -> c = 1/4 + p / 100 * (1/4) -> linear_percentile [1/2; 1/4] p c).
  { intros p c Hp ->. exists [1/4; 1/2], 0%nat, (1/4). split; [apply perm_swap|]. split; [intros [|[|[|?]]] a b Ha Hb; cbn in Ha, Hb; try discriminate; injection Ha as <-; injection Hb as <-; lra|]. split; auto.
    right. exists (1/2). split; auto. cbn [List.length INR]. split; lra. }
  exists (3/8), (29/100), (46/100). split; auto. split; [f_equal; lra|]. split; [apply L; lra|]. split; apply L; lra.
Qed.

(** ** C66: bias and resolution from the energy dispersion *)
(** NaN for an empty column, else from the migrations where the content reaches the quantiles *)
Theorem C66_quantiles : forall lower upper ne nm no edisp edges,
  increasing edges -> (1 <= nm)%nat -> List.length edges = (nm + 1)%nat -> (forall e m o, 0 <= edisp e m o) -> lower <= upper ->
  exists out, bias_resolution_from_dispersion lower upper (ne, nm, no) edisp edges = Ok out /\ List.length out = ne /\
    forall e o, (e < ne)%nat -> (o < no)%nat -> exists row v, nth_error out e = Some row /\ List.length row = no /\ nth_error row o = Some v /\
      let h := map (fun m => edisp e m o) (seq 0 nm) in
      match v with
      | None => forall d, In d h -> d = 0
      | Some (b, r) => (exists d, In d h /\ d <> 0) /\ 0 <= r /\
          exists lo md hi, b = md - 1 /\ r = (hi - lo) / 2 /\ dispersion_quantile edges h lower lo /\ dispersion_quantile edges h (1/2) md /\ dispersion_quantile edges h upper hi
      end.
Proof. exact from_dispersion. Qed.
Print Assumptions C66_quantiles.
(** larger contents are reached later *)
Theorem C66_order : forall edges h p q x y,
  p <= q -> dispersion_quantile edges h p x -> dispersion_quantile edges h q y -> x <= y.
Proof. exact quantile_order. Qed.
Print Assumptions C66_order.
(** an array whose second axis does not belong to the edges *)
Theorem C66_shape : forall lower upper ne nm no edisp edges,
  nm <> (List.length edges - 1)%nat -> bias_resolution_from_dispersion lower upper (ne, nm, no) edisp edges = Err ValueError.
Proof. exact dispersion_shape. Qed.
Print Assumptions C66_shape.
(** expected: the median.  All events in the first bin: the median is said to be its upper edge *)
Theorem C66_first_bin_refuted : exists edges edisp lower upper out b r, lower = 16/100 /\ upper = 84/100 /\ increasing edges /\
  bias_resolution_from_dispersion lower upper (1, 2, 1)%nat edisp edges = Ok out /\ out = [[Some (b, r)]] /\ r = 0 /\
  content_below edges (map (fun m => edisp 0%nat m 0%nat) (seq 0 2)) (3/2) = 1/2 /\ content_below edges (map (fun m => edisp 0%nat m 0%nat) (seq 0 2)) (1 + b) = 1.
Proof.
  pose (edges := [1; 2; 3]). pose (edisp := fun e m o : nat => match m with 0%nat => 1 | _ => 0 end).
  assert (Hi : increasing edges) by inc. assert (Hp : forall e m o, 0 <= edisp e m o) by (intros ? [|?] ?; cbn; lra).
  assert (C : forall x, 1 <= x <= 2 -> content_below edges (map (fun m => edisp 0%nat m 0%nat) (seq 0 2)) x = x - 1).
  { intros x Hx. cbn. rewrite (Rmin_left x 2) by lra. rewrite Rmax_right by lra. lra. }
  destruct (from_dispersion (16/100) (84/100) 1 2 1 edisp edges Hi ltac:(lia) ltac:(auto) Hp ltac:(lra)) as (out & E & L & H).
  destruct (H 0%nat 0%nat ltac:(lia) ltac:(lia)) as (row & v & Hr & Lr & Hv & S). cbv zeta in S.
  destruct out as [|r0 [|? ?]]; try discriminate. cbn in Hr. injection Hr as ->. destruct row as [|v0 [|? ?]]; try discriminate. cbn in Hv. injection Hv as ->.
  destruct v as [(b, r)|]; [|specialize (S 1 (or_introl eq_refl)); lra]. destruct S as (_ & _ & lo & md & hi & Eb & Er & Ql & Qm & Qh).
  assert (F : forall q x, q < 1 -> dispersion_quantile edges (map (fun m => edisp 0%nat m 0%nat) (seq 0 2)) q x -> x = 2).
  { intros q x Hq (e1 & el & H1 & H2 & _ & _ & _ & X & _). cbn in H1. injection H1 as <-. apply X. rewrite C by lra. lra. }
  exists edges, edisp, (16/100), (84/100), [[Some (b, r)]], b, r. rewrite (F (16/100) lo ltac:(lra) Ql), (F (84/100) hi ltac:(lra) Qh) in Er. rewrite (F (1/2) md ltac:(lra) Qm) in Eb.
  repeat (split; [solve [auto]|]). split; [lra|]. split; [rewrite C by lra; lra|]. rewrite C by lra. lra.
Qed.
Print Assumptions C66_first_bin_refuted.
(** two bins with half of the content each: the median is the edge between them *)
Example C66_example : increasing [0; 1; 2] /\ dispersion_column [0; 1; 2] [1/2; 1/2] /\ content_below [0; 1; 2] [1/2; 1/2] 1 = 1/2 /\ content_below [0; 1; 2] [1/2; 1/2] (3/2) = 3/4.
Proof.
  assert (I : increasing [0; 1; 2]) by inc. split; auto. split; [split; [auto|split; [auto|split; [cbn; lia|intros d [<-|[<-|[]]]; lra]]]|].
  cbn. rewrite (Rmin_left 1 1), (Rmin_left 1 2), (Rmin_right (3/2) 1), (Rmin_left (3/2) 2) by lra. rewrite (Rmax_right 0 (1 - 0)), (Rmax_left 0 (1 - 1)), (Rmax_right 0 (3/2 - 1)) by lra. lra.
Qed.
