(** * Properties_Fold: instrument responses fold the simulated flux back to the selected events (C70) *)
From Coq Require Import Reals List Bool ZArith Lia Lra.
From Verif Require Import Num Numpy SpecBinning Table Binning HistProofs SpecUtils SpecSimulations Simulations Spectral Tensor SpecIRF IRF FoldProofs.
Import ListNotations.
Open Scope R_scope.
Ltac inc := intros [|[|[|[|?]]]] a b Ha Hb; cbn in Ha, Hb; try discriminate; inversion Ha; inversion Hb; subst; lra.
Ltac cmp := cbn; first [apply Rleb_true; lra | apply Rltb_true; lra].

(** ** C70.  [from_simulation] gives the flux that was simulated; the effective areas computed
    from the selected events of the same simulation fold the integral [P] of this flux, over the
    observation time (and the solid angle of the fov bin) back to the number of selected events *)
Theorem C70_point_source : forall s T r eb events,
  (0 < n_showers s)%Z -> 0 < energy_min s -> energy_min s < energy_max s -> spectral_index s < -1 -> 0 < max_impact s -> 0 < T -> 0 < r ->
  viewcone_max s <= viewcone_min s ->
  increasing eb -> (2 <= length eb)%nat -> (forall e, In e eb -> energy_min s <= e <= energy_max s) ->
  exists p fl out, from_simulation s T r = Ok p /\ (forall E, 0 < E -> call (PowerLaw p) (Fin E) = (Fin (fl E), PointSource)) /\
    effective_area_per_energy events s (map Fin eb) = Ok out /\
    forall P, primitive_on positive fl P -> forall k e e', nth_error eb k = Some e -> nth_error eb (S k) = Some e' ->
      exists A m, at_ out [k] = Fin A /\ number_of (fun ev => in_hist_bin (map Fin eb) k (ev_x ev)) (et_rows events) m /\
        A * (P e' - P e) * T = INR m.
Proof. exact c70_point. Qed.
Print Assumptions C70_point_source.
Theorem C70_diffuse : forall s T r eb fb evs,
  (0 < n_showers s)%Z -> 0 < energy_min s -> energy_min s < energy_max s -> spectral_index s < -1 -> 0 < max_impact s -> 0 < T -> 0 < r ->
  0 <= viewcone_min s -> viewcone_min s < viewcone_max s -> viewcone_max s <= PI ->
  increasing eb -> (2 <= length eb)%nat -> (forall e, In e eb -> energy_min s <= e <= energy_max s) ->
  increasing fb -> (2 <= length fb)%nat -> (forall f, In f fb -> viewcone_min s <= deg f <= viewcone_max s) ->
  exists p fl out, from_simulation s T r = Ok p /\ (forall E, 0 < E -> call (PowerLaw p) (Fin E) = (Fin (fl E), Diffuse)) /\
    effective_area_per_energy_and_fov evs s (map Fin eb) fb = Ok out /\
    forall P, primitive_on positive fl P -> forall k j e e' f f', nth_error eb k = Some e -> nth_error eb (S k) = Some e' ->
      nth_error fb j = Some f -> nth_error fb (S j) = Some f' ->
      exists A m, at_ out [k; j] = Fin A /\
        number_of (fun ev => in_hist_bin (map Fin eb) k (true_energy ev) /\ in_hist_bin (map Fin fb) j (true_fov_offset ev)) evs m /\
        A * (P e' - P e) * T * ring_deg f f' = INR m.
Proof. exact c70_diffuse. Qed.
Print Assumptions C70_diffuse.
(** and with the energy migration matrix of the same events into the numbers per bin of
    reconstructed energy, if no event of the fov bin is reconstructed outside of the matrix *)
Theorem C70_energy_migration : forall s T r eb fb rbins evs,
  (0 < n_showers s)%Z -> 0 < energy_min s -> energy_min s < energy_max s -> spectral_index s < -1 -> 0 < max_impact s -> 0 < T -> 0 < r ->
  0 <= viewcone_min s -> viewcone_min s < viewcone_max s -> viewcone_max s <= PI ->
  increasing eb -> (2 <= length eb)%nat -> (forall e, In e eb -> energy_min s <= e <= energy_max s) ->
  increasing fb -> (2 <= length fb)%nat -> (forall f, In f fb -> viewcone_min s <= deg f <= viewcone_max s) ->
  nondecreasing rbins -> (2 <= length rbins)%nat ->
  exists p fl aeff mig, from_simulation s T r = Ok p /\ (forall E, 0 < E -> call (PowerLaw p) (Fin E) = (Fin (fl E), Diffuse)) /\
    effective_area_per_energy_and_fov evs s (map Fin eb) fb = Ok aeff /\
    energy_migration_matrix evs (map Fin eb) rbins (map Fin fb) = Ok mig /\
    forall P, primitive_on positive fl P -> forall j k f f', (j < length rbins - 1)%nat ->
      nth_error fb k = Some f -> nth_error fb (S k) = Some f' ->
      (forall ev, In ev evs -> in_range (map Fin eb) (true_energy ev) -> in_hist_bin (map Fin fb) k (true_fov_offset ev) -> in_range rbins (reco_energy ev)) ->
      exists d m, length d = (length eb - 1)%nat /\
        (forall i e e', nth_error eb i = Some e -> nth_error eb (S i) = Some e' -> exists A M, at_ aeff [i; k] = Fin A /\ at_ mig [i; j; k] = Fin M /\
           nth_error d i = Some (A * (P e' - P e) * T * ring_deg f f' * M)) /\
        number_of (fun ev => in_range (map Fin eb) (true_energy ev) /\ in_hist_bin rbins j (reco_energy ev) /\ in_hist_bin (map Fin fb) k (true_fov_offset ev)) evs m /\
        total d = INR m.
Proof. exact c70_fold. Qed.
Print Assumptions C70_energy_migration.
(** in general the folded number is at least the number of events: the matrix redistributes
    the events that are reconstructed outside of it *)
Theorem C70_energy_migration_least : forall s T r eb fb rbins evs,
  (0 < n_showers s)%Z -> 0 < energy_min s -> energy_min s < energy_max s -> spectral_index s < -1 -> 0 < max_impact s -> 0 < T -> 0 < r ->
  0 <= viewcone_min s -> viewcone_min s < viewcone_max s -> viewcone_max s <= PI ->
  increasing eb -> (2 <= length eb)%nat -> (forall e, In e eb -> energy_min s <= e <= energy_max s) ->
  increasing fb -> (2 <= length fb)%nat -> (forall f, In f fb -> viewcone_min s <= deg f <= viewcone_max s) ->
  nondecreasing rbins -> (2 <= length rbins)%nat ->
  exists p fl aeff mig, from_simulation s T r = Ok p /\ (forall E, 0 < E -> call (PowerLaw p) (Fin E) = (Fin (fl E), Diffuse)) /\
    effective_area_per_energy_and_fov evs s (map Fin eb) fb = Ok aeff /\
    energy_migration_matrix evs (map Fin eb) rbins (map Fin fb) = Ok mig /\
    forall P, primitive_on positive fl P -> forall j k f f', (j < length rbins - 1)%nat ->
      nth_error fb k = Some f -> nth_error fb (S k) = Some f' ->
      exists d m, length d = (length eb - 1)%nat /\
        (forall i e e', nth_error eb i = Some e -> nth_error eb (S i) = Some e' -> exists A M, at_ aeff [i; k] = Fin A /\ at_ mig [i; j; k] = Fin M /\
           nth_error d i = Some (A * (P e' - P e) * T * ring_deg f f' * M)) /\
        number_of (fun ev => in_range (map Fin eb) (true_energy ev) /\ in_hist_bin rbins j (reco_energy ev) /\ in_hist_bin (map Fin fb) k (true_fov_offset ev)) evs m /\
        INR m <= total d.
Proof. exact c70_fold_least. Qed.
Print Assumptions C70_energy_migration_least.

Definition fold_sim : sim_info := mkSim 1000 1 10 100 (-2) 0 (PI / 18).
Definition fold_event (t r o : R) : dl2 := mkDL2 (Fin t) (Fin r) (Fin o) (Fin 0) (Fin 0) (Fin 0) (Fin 0) (Fin 0) (Fin 0) (Fin 0) 1.
Definition fold_events : list dl2 := [fold_event 2 4 1; fold_event 5 5 2; fold_event 5 2 7; fold_event 9 9 1].
(** three of the four events are in the first fov bin, and all three in the second bin of
    reconstructed energy *)
Example C70_example : exists p fl aeff mig, from_simulation fold_sim 50 1 = Ok p /\
    (forall E, 0 < E -> call (PowerLaw p) (Fin E) = (Fin (fl E), Diffuse)) /\
    effective_area_per_energy_and_fov fold_events fold_sim (map Fin [1; 3; 10]) [0; 5; 10] = Ok aeff /\
    energy_migration_matrix fold_events (map Fin [1; 3; 10]) (map Fin [1; 3; 10]) (map Fin [0; 5; 10]) = Ok mig /\
    forall P, primitive_on positive fl P -> exists A0 A1 M0 M1,
      at_ aeff [0; 0]%nat = Fin A0 /\ at_ aeff [1; 0]%nat = Fin A1 /\ at_ mig [0; 1; 0]%nat = Fin M0 /\ at_ mig [1; 1; 0]%nat = Fin M1 /\
      A0 * (P 3 - P 1) * 50 * ring_deg 0 5 * M0 + A1 * (P 10 - P 3) * 50 * ring_deg 0 5 * M1 = 3.
Proof.
  assert (I1 : increasing [1; 3; 10]) by inc. assert (I2 : increasing [0; 5; 10]) by inc. pose proof PI_RGT_0 as HPI.
  destruct (c70_fold fold_sim 50 1 [1; 3; 10] [0; 5; 10] (map Fin [1; 3; 10]) fold_events) as (p & fl & aeff & mig & H1 & H2 & H3 & H4 & H5);
    cbn [n_showers energy_min energy_max spectral_index max_impact viewcone_min viewcone_max fold_sim]; auto; try lia; try lra; try (cbn; lia).
  - intros e [<-|[<-|[<-|[]]]]; lra.
  - intros f [<-|[<-|[<-|[]]]]; unfold deg; lra.
  - apply IRFProofs.inc_nondec; auto.
  - exists p, fl, aeff, mig. split; auto. split; auto. split; auto. split; auto. intros P HP.
    destruct (H5 P HP 1%nat 0%nat 0 5) as (d & m & Ld & Hd & Nm & Eq); auto.
    { intros ev [<-|[<-|[<-|[<-|[]]]]] _ _; exists (Fin 1), (Fin 10); cbn; repeat split; try reflexivity; apply Rleb_true; lra. }
    destruct (Hd 0%nat 1 3 eq_refl eq_refl) as (A0 & M0 & E1 & E2 & E3). destruct (Hd 1%nat 3 10 eq_refl eq_refl) as (A1 & M1 & E4 & E5 & E6).
    exists A0, A1, M0, M1. split; auto. split; auto. split; auto. split; auto.
    destruct d as [|d0 [|d1 [|? ?]]]; try discriminate. injection E3 as E3. injection E6 as E6. rewrite <- E3, <- E6. cbn [total] in Eq. rewrite Rplus_0_r in Eq. rewrite Eq.
    assert (m = 3)%nat as ->; [|cbn; lra]. apply (number_of_unique _ _ _ _ Nm).
    apply no_yes; [|apply no_yes; [|apply no_no; [|apply no_yes; [|apply no_nil]]]].
    + split; [|split]; [exists (Fin 1), (Fin 10); repeat split; cmp| |]; left; [exists (Fin 3), (Fin 10)|exists (Fin 0), (Fin 5)]; repeat split; cmp.
    + split; [|split]; [exists (Fin 1), (Fin 10); repeat split; cmp| |]; left; [exists (Fin 3), (Fin 10)|exists (Fin 0), (Fin 5)]; repeat split; cmp.
    + intros (_ & _ & [(lo & hi & Q1 & Q2 & _ & Q3)|[Q1 _]]); [|cbn in Q1; lia]. cbn in Q1, Q2. injection Q2 as <-. cbn in Q3. apply Rltb_true in Q3. lra.
    + split; [|split]; [exists (Fin 1), (Fin 10); repeat split; cmp| |]; left; [exists (Fin 3), (Fin 10)|exists (Fin 0), (Fin 5)]; repeat split; cmp.
Qed.
