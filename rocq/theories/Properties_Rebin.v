(** * C84: joining bins adds their contents *)
From Coq Require Import String Reals List Bool ZArith Arith Lia Lra.
From Verif Require Import Num Numpy Table Binning Utils Simulations Tensor IRF SpecBinning SpecIRF SpecRebin
  BinningProofs HistProofs TensorProofs SpecUtils SpecSimulations SimulationsProofs SimulationsProofs2 IRFProofs IRFProofs2 IRFProofs3 IRFProofs4 HistDouble2Proofs Lists LocalProofs FoldProofs RebinProofs RebinProofs2 RebinProofs3.
From Verif Require Import RebinProofs2 RebinProofs3 RebinProofs4.
Import ListNotations.
Open Scope R_scope.

Theorem C84_counts ev fine coarse key :
  nondecreasing fine -> nondecreasing coarse -> (2 <= List.length fine)%nat -> (2 <= List.length coarse)%nat ->
  exists t t' n n', create_histogram_table ev fine key = Ok t /\ create_histogram_table ev coarse key = Ok t' /\ getitem t "n" = Some (CZ n) /\ getitem t' "n" = Some (CZ n') /\
  List.length n = (List.length fine - 1)%nat /\ List.length n' = (List.length coarse - 1)%nat /\
  forall k a b, joins fine coarse k a b -> IZR (nth k n' 0%Z) = sum_between a b (fun j => IZR (nth j n 0%Z)).
Proof. exact (rebin_counts ev fine coarse key). Qed.
Print Assumptions C84_counts.

Theorem C84_weights ev fine coarse key :
  nondecreasing fine -> nondecreasing coarse -> (2 <= List.length fine)%nat -> (2 <= List.length coarse)%nat ->
  et_has_weight ev = true -> (et_has_ptype ev = true -> forall e, In e (et_rows ev) -> ev_p e <> "weighted"%string) ->
  exists t t' n n', create_histogram_table ev fine key = Ok t /\ create_histogram_table ev coarse key = Ok t' /\
  getitem t "n_weighted" = Some (CN (map Fin n)) /\ getitem t' "n_weighted" = Some (CN (map Fin n')) /\
  List.length n = (List.length fine - 1)%nat /\ List.length n' = (List.length coarse - 1)%nat /\
  forall k a b, joins fine coarse k a b -> nth k n' 0 = sum_between a b (fun j => nth j n 0).
Proof. exact (rebin_weights ev fine coarse key). Qed.
Print Assumptions C84_weights.

Theorem C84_showers s fine coarse k a b lo hi :
  0 < energy_min s -> energy_min s < energy_max s -> spectral_index s < -1 -> nondecreasing fine -> joins fine coarse k a b -> nth_error coarse k = Some lo -> nth_error coarse (S k) = Some hi ->
  energy_bin lo hi -> ~ overhangs (energy_min s) (energy_max s) lo hi ->
  exists N n, nth_error (calculate_n_showers_per_energy s coarse) k = Some (Fin N) /\
    (forall j, (a <= j < b)%nat -> nth_error (calculate_n_showers_per_energy s fine) j = Some (Fin (n j))) /\ N = sum_between a b n.
Proof. exact (fun E0 E1 E2 => rebin_showers s E0 E1 E2 fine coarse k a b lo hi). Qed.
Print Assumptions C84_showers.

Theorem C84_effective_area s ev fine coarse :
  (0 < n_showers s)%Z -> max_impact s <> 0 -> 0 < energy_min s -> energy_min s < energy_max s -> spectral_index s < -1 -> nondecreasing fine -> nondecreasing coarse -> (2 <= List.length fine)%nat -> (2 <= List.length coarse)%nat ->
  exists out out', effective_area_per_energy ev s fine = Ok out /\ effective_area_per_energy ev s coarse = Ok out' /\
  forall k a b lo hi, joins fine coarse k a b -> nth_error coarse k = Some lo -> nth_error coarse (S k) = Some hi -> energy_bin lo hi -> ~ overhangs (energy_min s) (energy_max s) lo hi ->
  forall A, (forall j, (a <= j < b)%nat -> at_ out [j] = Fin (A j)) ->
  exists A' N n, at_ out' [k] = Fin A' /\ nth_error (calculate_n_showers_per_energy s coarse) k = Some (Fin N) /\
    (forall j, (a <= j < b)%nat -> nth_error (calculate_n_showers_per_energy s fine) j = Some (Fin (n j)) /\ 0 < n j) /\
    N = sum_between a b n /\ N * A' = sum_between a b (fun j => n j * A j).
Proof. exact (fun Hn Hi E0 E1 E2 => rebin_area s Hn Hi E0 E1 E2 ev fine coarse). Qed.
Print Assumptions C84_effective_area.

Theorem C84_background_2d ev t fine coarse fine' coarse' :
  0 < t -> increasing fine -> increasing coarse -> (2 <= List.length fine)%nat -> (2 <= List.length coarse)%nat ->
  angles fine' -> angles coarse' -> (2 <= List.length fine')%nat -> (2 <= List.length coarse')%nat ->
  exists out out', background_2d ev (map Fin fine) fine' t = Ok out /\ background_2d ev (map Fin coarse) coarse' t = Ok out' /\
  forall k a b k' a' b', joins fine coarse k a b -> joins fine' coarse' k' a' b' ->
  exists B' (B : nat -> nat -> R), at_ out' [k; k'] = Fin B' /\ (forall i j, (a <= i < b)%nat -> (a' <= j < b')%nat -> at_ out [i; j] = Fin (B i j)) /\
    B' * width (nth k coarse 0) (nth (S k) coarse 0) * ring_deg (nth k' coarse' 0) (nth (S k') coarse' 0) =
    sum_between a b (fun i => sum_between a' b' (fun j => B i j * width (nth i fine 0) (nth (S i) fine 0) * ring_deg (nth j fine' 0) (nth (S j) fine' 0))).
Proof. exact (rebin_background ev t fine coarse fine' coarse'). Qed.
Print Assumptions C84_background_2d.

Theorem C84_energy_dispersion ev (eb fb : list num) fine coarse :
  nondecreasing eb -> (2 <= List.length eb)%nat -> nondecreasing fb -> (2 <= List.length fb)%nat -> increasing fine -> (2 <= List.length fine)%nat -> increasing coarse -> (2 <= List.length coarse)%nat -> same_ends fine coarse ->
  exists d d', energy_dispersion ev eb fb (map Fin fine) = Ok d /\ energy_dispersion ev eb fb (map Fin coarse) = Ok d' /\
  forall i k c a b, (i < List.length eb - 1)%nat -> (k < List.length fb - 1)%nat -> joins fine coarse c a b ->
  exists X Y, at_ d' [i; c; k] = Fin X /\ (forall j, (a <= j < b)%nat -> at_ d [i; j; k] = Fin (Y j)) /\
    X * width (nth c coarse 0) (nth (S c) coarse 0) = sum_between a b (fun j => Y j * width (nth j fine 0) (nth (S j) fine 0)).
Proof. exact (fun He Le Hf Lf => rebin_edisp ev eb fb He Le Hf Lf fine coarse). Qed.
Print Assumptions C84_energy_dispersion.

Theorem C84_migration_matrix ev (eb fb : list num) fine coarse :
  nondecreasing eb -> (2 <= List.length eb)%nat -> nondecreasing fb -> (2 <= List.length fb)%nat -> nondecreasing fine -> (2 <= List.length fine)%nat -> nondecreasing coarse -> (2 <= List.length coarse)%nat -> same_ends fine coarse ->
  exists d d', energy_migration_matrix ev eb fine fb = Ok d /\ energy_migration_matrix ev eb coarse fb = Ok d' /\
  forall i k c a b, (i < List.length eb - 1)%nat -> (k < List.length fb - 1)%nat -> joins fine coarse c a b ->
  exists X Y, at_ d' [i; c; k] = Fin X /\ (forall j, (a <= j < b)%nat -> at_ d [i; j; k] = Fin (Y j)) /\ X = sum_between a b Y.
Proof. exact (fun He Le Hf Lf => rebin_migration ev eb fb He Le Hf Lf fine coarse). Qed.
Print Assumptions C84_migration_matrix.

Theorem C84_psf_table ev (eb fb : list num) fine coarse :
  nondecreasing eb -> (2 <= List.length eb)%nat -> nondecreasing fb -> (2 <= List.length fb)%nat -> angles fine -> (2 <= List.length fine)%nat -> angles coarse -> (2 <= List.length coarse)%nat -> same_ends fine coarse ->
  exists d d', psf_table ev eb fine fb = Ok d /\ psf_table ev eb coarse fb = Ok d' /\
  forall i k c a b, (i < List.length eb - 1)%nat -> (k < List.length fb - 1)%nat -> joins fine coarse c a b ->
  exists X Y, at_ d' [i; k; c] = Fin X /\ (forall j, (a <= j < b)%nat -> at_ d [i; k; j] = Fin (Y j)) /\
    X * ring_deg (nth c coarse 0) (nth (S c) coarse 0) = sum_between a b (fun j => Y j * ring_deg (nth j fine 0) (nth (S j) fine 0)).
Proof. exact (fun He Le Hf Lf => rebin_psf ev eb fb He Le Hf Lf fine coarse). Qed.
Print Assumptions C84_psf_table.

Example C84_example : let s := mkSim 1000 1 10 100 (-2) 0 (PI / 18) in
  increasing [1; 2; 3; 10] /\ increasing [1; 3; 10] /\ joins (map Fin [1; 2; 3; 10]) (map Fin [1; 3; 10]) 0 0 2 /\ joins (map Fin [1; 2; 3; 10]) (map Fin [1; 3; 10]) 1 2 3 /\
  joins [1; 2; 3; 10] [1; 3; 10] 0 0 2 /\ same_ends [1; 2; 3; 10] [1; 3; 10] /\ energy_bin (Fin 1) (Fin 3) /\ ~ overhangs (energy_min s) (energy_max s) (Fin 1) (Fin 3) /\
  sum_between 0 2 INR = 1.
Proof.
  cbv zeta. assert (I : increasing [1; 2; 3; 10] /\ increasing [1; 3; 10]).
  { split; intros [|[|[|[|?]]]] a b Ha Hb; cbn in Ha, Hb; try discriminate; inversion Ha; inversion Hb; subst; lra. }
  destruct I as [I I']. split; [exact I|]. split; [exact I'|].
  split; [split; [lia|]; split; [eexists; split; reflexivity|]; split; [eexists; split; reflexivity|]; cbn; lia|].
  split; [split; [lia|]; split; [eexists; split; reflexivity|]; split; [eexists; split; reflexivity|]; cbn; lia|].
  split; [split; [lia|]; split; [eexists; split; reflexivity|]; split; [eexists; split; reflexivity|]; cbn; lia|].
  split; [split; reflexivity|]. split; [split; cbn; apply Rleb_true; lra|].
  split; [intros [A _]; cbn in A; apply Rltb_true in A; lra|]. unfold sum_between. cbn. lra.
Qed.
(** the last bin of the coarse edges has to be the last one of the fine edges too: an event on its upper edge is counted in it *)
Theorem C84_last_edge_refuted : exists ev fine coarse t t' n n', nondecreasing fine /\ nondecreasing coarse /\
  nth_error coarse 0 = nth_error fine 0 /\ nth_error coarse 1 = nth_error fine 1 /\
  create_histogram_table ev fine "true" = Ok t /\ create_histogram_table ev coarse "true" = Ok t' /\ getitem t "n" = Some (CZ n) /\ getitem t' "n" = Some (CZ n') /\
  nth_error n' 0 <> nth_error n 0.
Proof. exact last_edge_refuted. Qed.
Print Assumptions C84_last_edge_refuted.
