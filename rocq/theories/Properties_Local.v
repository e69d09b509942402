(** * C83: entry k of a result depends on the events in bin k only *)
From Coq Require Import String Reals List Bool ZArith Arith Lia Lra.
From Verif Require Import Num Numpy Table Binning Utils Simulations Tensor IRF SpecBinning SpecIRF SpecLocal
  BinningProofs HistProofs TensorProofs SpecUtils SpecSimulations SimulationsProofs IRFProofs IRFProofs2 IRFProofs3 IRFProofs4 HistDouble2Proofs Lists MergeProofs.
From Verif Require Import Num Numpy Table Binning SpecBinning Lists BinningProofs SpecSensitivity SpecUtils Sensitivity SpecLocal LocalProofs
  Percentile Cuts SpecCuts Benchmarks SpecBenchmarks BenchmarkProofs BenchmarkProofs2 UtilsProofs SensitivityProofs4.
From Verif Require Import LocalProofs2.
Import ListNotations.
Open Scope R_scope.

Theorem C83_counts l l' hw hp edges key k :
  nondecreasing edges -> (k < List.length edges - 1)%nat -> same_on (fun e => in_hist_bin edges k (ev_x e)) l l' ->
  exists t t' n n' c, create_histogram_table (mkEvents l hw hp) edges key = Ok t /\ create_histogram_table (mkEvents l' hw hp) edges key = Ok t' /\
  getitem t "n" = Some (CZ n) /\ getitem t' "n" = Some (CZ n') /\ nth_error n k = Some c /\ nth_error n' k = Some c.
Proof. exact (local_hist l l' hw hp edges key k). Qed.
Print Assumptions C83_counts.

Theorem C83_weights l l' edges key k :
  nondecreasing edges -> (k < List.length edges - 1)%nat -> same_on (fun e => in_hist_bin edges k (ev_x e)) l l' ->
  exists t t' n n' c, create_histogram_table (mkEvents l true false) edges key = Ok t /\ create_histogram_table (mkEvents l' true false) edges key = Ok t' /\
  getitem t "n_weighted" = Some (CN (map Fin n)) /\ getitem t' "n_weighted" = Some (CN (map Fin n')) /\ nth_error n k = Some c /\ nth_error n' k = Some c.
Proof. exact (local_hist_weighted l l' edges key k). Qed.
Print Assumptions C83_weights.

Theorem C83_effective_area s l l' hw hp edges k :
  nondecreasing edges -> (k < List.length edges - 1)%nat -> same_on (fun e => in_hist_bin edges k (ev_x e)) l l' ->
  same_entry [k] (effective_area_per_energy (mkEvents l hw hp) s edges) (effective_area_per_energy (mkEvents l' hw hp) s edges).
Proof. exact (local_area s l l' hw hp edges k). Qed.
Print Assumptions C83_effective_area.

Theorem C83_effective_area_fov s eb fb i j l l' :
  nondecreasing eb -> (i < List.length eb - 1)%nat -> increasing fb -> (j < List.length fb - 1)%nat ->
  same_on (fun e => in_hist_bin eb i (true_energy e) /\ in_hist_bin (map Fin fb) j (true_fov_offset e)) l l' ->
  same_entry [i; j] (effective_area_per_energy_and_fov l s eb fb) (effective_area_per_energy_and_fov l' s eb fb).
Proof. exact (local_fov s eb fb i j l l'). Qed.
Print Assumptions C83_effective_area_fov.

Theorem C83_effective_area_polar s eb fb pb i j k l l' :
  nondecreasing eb -> (i < List.length eb - 1)%nat -> increasing fb -> (j < List.length fb - 1)%nat -> increasing pb -> (k < List.length pb - 1)%nat ->
  same_on (fun e => in_hist_bin eb i (true_energy e) /\ in_hist_bin (map Fin fb) j (true_fov_offset e) /\ in_hist_bin (map Fin pb) k (true_fov_pa e)) l l' ->
  same_entry [i; j; k] (effective_area_3d_polar l s eb fb pb) (effective_area_3d_polar l' s eb fb pb).
Proof. exact (local_polar s eb fb pb i j k l l'). Qed.
Print Assumptions C83_effective_area_polar.

Theorem C83_effective_area_lonlat s eb lon lat sub i j k l l' :
  nondecreasing eb -> (i < List.length eb - 1)%nat -> increasing lon -> (j < List.length lon - 1)%nat -> increasing lat -> (k < List.length lat - 1)%nat ->
  same_on (fun e => in_hist_bin eb i (true_energy e) /\ in_hist_bin (map Fin lon) j (true_fov_lon e) /\ in_hist_bin (map Fin lat) k (true_fov_lat e)) l l' ->
  same_entry [i; j; k] (effective_area_3d_lonlat l s eb lon lat sub) (effective_area_3d_lonlat l' s eb lon lat sub).
Proof. exact (local_lonlat s eb lon lat sub i j k l l'). Qed.
Print Assumptions C83_effective_area_lonlat.

Theorem C83_background_2d eb fb t i j l l' :
  nondecreasing eb -> (i < List.length eb - 1)%nat -> increasing fb -> (j < List.length fb - 1)%nat ->
  same_on (fun e => in_hist_bin eb i (reco_energy e) /\ in_hist_bin (map Fin fb) j (reco_fov_offset e)) l l' ->
  same_entry [i; j] (background_2d l eb fb t) (background_2d l' eb fb t).
Proof. exact (local_bg2 eb fb t i j l l'). Qed.
Print Assumptions C83_background_2d.

Theorem C83_background_3d eb lon lat t i j k l l' :
  nondecreasing eb -> (i < List.length eb - 1)%nat -> increasing lon -> (j < List.length lon - 1)%nat -> increasing lat -> (k < List.length lat - 1)%nat ->
  same_on (fun e => in_hist_bin eb i (reco_energy e) /\ in_hist_bin (map Fin lon) j (reco_fov_lon e) /\ in_hist_bin (map Fin lat) k (reco_fov_lat e)) l l' ->
  same_entry [i; j; k] (background_3d_lonlat l eb lon lat t) (background_3d_lonlat l' eb lon lat t).
Proof. exact (local_bg3 eb lon lat t i j k l l'). Qed.
Print Assumptions C83_background_3d.

Theorem C83_energy_dispersion l l' (eb fb : list num) i j k mig :
  nondecreasing eb -> (i < List.length eb - 1)%nat -> nondecreasing fb -> (k < List.length fb - 1)%nat -> increasing mig -> (j < List.length mig - 1)%nat ->
  same_on (fun e => in_hist_bin eb i (true_energy e) /\ in_range (map Fin mig) (ndiv (reco_energy e) (true_energy e)) /\ in_hist_bin fb k (true_fov_offset e)) l l' ->
  same_entry [i; j; k] (energy_dispersion l eb fb (map Fin mig)) (energy_dispersion l' eb fb (map Fin mig)).
Proof. exact (fun He Hi Hf Hk => local_edisp l l' eb fb i j k He Hi Hf Hk mig). Qed.
Print Assumptions C83_energy_dispersion.

Theorem C83_migration_matrix l l' (eb fb : list num) i j k mig :
  nondecreasing eb -> (i < List.length eb - 1)%nat -> nondecreasing fb -> (k < List.length fb - 1)%nat -> nondecreasing mig -> (j < List.length mig - 1)%nat ->
  same_on (fun e => in_hist_bin eb i (true_energy e) /\ in_range mig (reco_energy e) /\ in_hist_bin fb k (true_fov_offset e)) l l' ->
  same_entry [i; j; k] (energy_migration_matrix l eb mig fb) (energy_migration_matrix l' eb mig fb).
Proof. exact (fun He Hi Hf Hk => local_migration l l' eb fb i j k He Hi Hf Hk mig). Qed.
Print Assumptions C83_migration_matrix.

Theorem C83_psf_table l l' (eb fb : list num) i j k src :
  nondecreasing eb -> (i < List.length eb - 1)%nat -> nondecreasing fb -> (k < List.length fb - 1)%nat -> angles src -> (j < List.length src - 1)%nat ->
  same_on (fun e => in_hist_bin eb i (true_energy e) /\ in_hist_bin fb k (true_fov_offset e) /\ in_range (map Fin src) (theta e)) l l' ->
  same_entry [i; k; j] (psf_table l eb src fb) (psf_table l' eb src fb).
Proof. exact (fun He Hi Hf Hk => local_psf l l' eb fb i j k He Hi Hf Hk src). Qed.
Print Assumptions C83_psf_table.

Theorem C83_angular_resolution events events' energy_type xs xs' thetas thetas' u tu edges qs :
  getitem events (energy_type ++ "_energy") = Some (mkArr xs (Some u)) -> getitem events "theta" = Some (mkArr thetas tu) ->
  n_rows events = List.length xs -> List.length thetas = List.length xs ->
  getitem events' (energy_type ++ "_energy") = Some (mkArr xs' (Some u)) -> getitem events' "theta" = Some (mkArr thetas' tu) ->
  n_rows events' = List.length xs' -> List.length thetas' = List.length xs' -> 0 < u_scale u -> nondecreasing edges -> (2 <= List.length edges)%nat ->
  (forall q, In q qs -> 0 <= q <= 1) -> NoDup (map column_name qs) -> (exists x k, In x xs /\ in_bin edges k x) -> (exists x k, In x xs' /\ in_bin edges k x) ->
  exists t t', angular_resolution events (mkArr edges (Some u)) energy_type (QSeq qs) = Ok t /\ angular_resolution events' (mkArr edges (Some u)) energy_type (QSeq qs) = Ok t' /\
    forall k sel, (k < List.length edges - 1)%nat -> picks (in_bin edges k) xs thetas sel -> picks (in_bin edges k) xs' thetas' sel ->
      nth_error (bt_n_events t) k = nth_error (bt_n_events t') k /\ forall q, In q qs -> exists c, cell t (column_name q) k c /\ cell t' (column_name q) k c.
Proof. exact (local_resolution events events' energy_type xs xs' thetas thetas' u tu edges qs). Qed.
Print Assumptions C83_angular_resolution.

Theorem C83_estimate_background l l' hw hp edges centers cuts alpha mn mx k lo hi :
  nondecreasing edges -> (2 <= List.length edges)%nat -> increasing centers -> List.length centers = List.length cuts -> centers <> [] ->
  alpha <> 0 -> 0 <= mn -> mn < mx -> mx <= PI -> nth_error edges k = Some lo -> nth_error edges (S k) = Some hi -> (exists r, lo = Fin r \/ hi = Fin r) ->
  same_on (fun e => in_annulus mn mx (bg_offset e) /\ in_hist_bin edges k (ev_x (bg_ev e))) l l' ->
  exists t t' n n' v, estimate_background l hw hp edges (map Fin centers) (map Fin cuts) (Fin alpha) (Fin mn) (Fin mx) = Ok t /\
    estimate_background l' hw hp edges (map Fin centers) (map Fin cuts) (Fin alpha) (Fin mn) (Fin mx) = Ok t' /\
    column t "n" n /\ column t' "n" n' /\ nth_error n k = Some v /\ nth_error n' k = Some v.
Proof. exact (local_estimate l l' hw hp edges centers cuts alpha mn mx k lo hi). Qed.
Print Assumptions C83_estimate_background.

(** an event outside of the bin is dropped and another one inserted; the bin has an event *)
Example C83_example : let e x := mkEvent (Fin x) 2 "proton" in
  nondecreasing (map Fin [1; 2; 4]) /\ same_on (fun v => in_hist_bin (map Fin [1; 2; 4]) 0 (ev_x v)) [e (3 / 2); e 3] [e 5; e (3 / 2)] /\
  in_hist_bin (map Fin [1; 2; 4]) 0 (ev_x (e (3 / 2))).
Proof.
  cbv zeta. split; [apply (inc_nondec [1; 2; 4]); intros [|[|[|[|?]]]] a b Ha Hb; cbn in Ha, Hb; try discriminate; inversion Ha; inversion Hb; subst; lra|].
  assert (N : forall x, 2 <= x -> ~ in_hist_bin (map Fin [1; 2; 4]) 0 (Fin x)).
  { intros x Hx [(lo & hi & A & B & C & D)|[A _]]; [|discriminate]. cbn in B. injection B as <-. apply Rltb_true in D. lra. }
  split.
  - apply so_right; [apply N; lra|]. apply so_both. apply so_left; [apply N; lra|]. constructor.
  - left. exists (Fin 1), (Fin 2). repeat split; cbn; [apply Rleb_true|apply Rltb_true]; lra.
Qed.
(** ... but if no event is in any bin, angular_resolution raises IndexError (C60_outside_refuted): the hypotheses above ask for one in each table *)
Example C83_example_3d : let e x y := mkDL2 (Fin x) (Fin x) (Fin y) (Fin 0) (Fin 0) (Fin 0) (Fin 0) (Fin y) (Fin 0) (Fin 0) 1 in
  same_on (fun v => in_hist_bin (map Fin [1; 2; 4]) 0 (true_energy v) /\ in_hist_bin (map Fin [0; 1]) 0 (true_fov_offset v)) [e (3 / 2) (1 / 2); e (3 / 2) 7] [e (3 / 2) (1 / 2)].
Proof.
  cbv zeta. apply so_both. apply so_left; [|constructor]. intros [_ [(lo & hi & A & B & C & D)|[_ A]]]; cbn in *.
  - injection B as <-. apply Rltb_true in D. lra.
  - injection A. lra.
Qed.
