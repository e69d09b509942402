(** * Properties_Double: C74, C75, double precision *)
From Coq Require Import Reals List Bool ZArith Lia Lra.
From Verif Require Import Num Numpy Statistics SpecStatistics StatisticsProofs SpecBinning SpecSimulations Tensor SpecIRF IRF Double SpecDouble LiMaDouble2Proofs
  IRFDouble IRFDoubleProofs IRFDouble2Proofs PSFDoubleProofs.
Import ListNotations.
Open Scope R_scope.

(** ** C74: the significance in double precision *)
Theorem C74_accuracy : forall log n_on n_off alpha, accurate_log log ->
  moderate n_on -> double n_on -> n_off = 0 \/ moderate n_off -> moderate alpha ->
  let s := lima n_on n_off alpha in
  let tolerance := 100 * eps53 * lima_terms n_on n_off alpha in
  (exists r, li_ma_significance_double log (Sc (Fin n_on)) (Sc (Fin n_off)) (Fin alpha) = Ok (Sc (Fin r)) /\ 0 <= r /\ Rabs (r ^ 2 - s ^ 2) <= tolerance) \/
  (li_ma_significance_double log (Sc (Fin n_on)) (Sc (Fin n_off)) (Fin alpha) = Ok (Sc NaN) /\ s ^ 2 <= tolerance).
Proof. exact accuracy'. Qed.
Print Assumptions C74_accuracy.
(** up to a hundred million events the result is right within 1/50, and within 1/5000 from one sigma on *)
Theorem C74_counts : forall log n_on n_off alpha, accurate_log log ->
  (1 <= n_on <= 10 ^ 8)%Z -> (0 <= n_off <= 10 ^ 8)%Z -> / 1000 <= alpha <= 1000 ->
  let s := lima (IZR n_on) (IZR n_off) alpha in
  (exists r, li_ma_significance_double log (Sc (Fin (IZR n_on))) (Sc (Fin (IZR n_off))) (Fin alpha) = Ok (Sc (Fin r)) /\ 0 <= r /\
     Rabs (r - s) <= / 50 /\ (1 <= s -> Rabs (r - s) <= / 5000)) \/
  (li_ma_significance_double log (Sc (Fin (IZR n_on))) (Sc (Fin (IZR n_off))) (Fin alpha) = Ok (Sc NaN) /\ s <= / 50).
Proof. exact counts'. Qed.
Print Assumptions C74_counts.
(** the second case happens: without an excess the rounding errors can make the argument of the root negative.  One event
    on source, five events off source, the default alpha *)
Theorem C74_nan_refuted : forall log, accurate_log log ->
  lima 1 5 (1 / 5) = 0 /\ li_ma_significance_double log (Sc (Fin 1)) (Sc (Fin 5)) (fl (1 / 5)) = Ok (Sc NaN).
Proof. exact nan_refuted. Qed.
Print Assumptions C74_nan_refuted.
(** never negative, whatever the arguments and the logarithm *)
Theorem C74_not_negative : forall log n_on n_off alpha, exists s,
  li_ma_significance_double log (Sc n_on) (Sc n_off) alpha = Ok (Sc s) /\ (s = NaN \/ s = PInf \/ exists r, s = Fin r /\ 0 <= r).
Proof. exact not_negative'. Qed.
Print Assumptions C74_not_negative.
(** exactly zero for a deficit that is not just a rounding error *)
Theorem C74_deficit : forall log n_on n_off alpha, moderate n_off -> moderate alpha -> n_on < alpha * n_off * (1 - eps53) ->
  li_ma_significance_double log (Sc (Fin n_on)) (Sc (Fin n_off)) (Fin alpha) = Ok (Sc (Fin 0)).
Proof. exact deficit'. Qed.
Print Assumptions C74_deficit.
(** never NaN with an empty region *)
Theorem C74_empty : forall log alpha, accurate_log log -> moderate alpha -> double alpha ->
  (forall n_off, n_off = 0 \/ moderate n_off -> li_ma_significance_double log (Sc (Fin 0)) (Sc (Fin n_off)) (Fin alpha) = Ok (Sc (Fin 0))) /\
  (forall n_on, moderate n_on -> double n_on -> exists r, li_ma_significance_double log (Sc (Fin n_on)) (Sc (Fin 0)) (Fin alpha) = Ok (Sc (Fin r)) /\ 0 <= r).
Proof. exact empty_regions. Qed.
Print Assumptions C74_empty.
Theorem C74_elementwise : forall log on off alpha, length on = length off ->
  exists l, li_ma_significance_double log (Ar on) (Ar off) alpha = Ok (Ar l) /\ length l = length on /\
    forall i x b, nth_error on i = Some x -> nth_error off i = Some b ->
      exists s, nth_error l i = Some s /\ li_ma_significance_double log (Sc x) (Sc b) alpha = Ok (Sc s).
Proof. exact elementwise. Qed.
Print Assumptions C74_elementwise.
(** correct rounding is accurate; eight events on source, none off source *)
Example C74_example : accurate_log rounded_log /\ exists r,
  li_ma_significance_double rounded_log (Sc (Fin (IZR 8))) (Sc (Fin (IZR 0))) (Fin 1) = Ok (Sc (Fin r)) /\ Rabs (r - sqrt 2 * sqrt (8 * ln 2)) <= / 5000.
Proof. split; [exact rounded_log_accurate|exact eight_events]. Qed.

(** ** C75: instrument responses in double precision.  [fdiv]: the rounded quotient *)
Theorem C75_energy_dispersion : forall evs ebins fbins mig,
  nondecreasing ebins -> (2 <= List.length ebins)%nat -> nondecreasing fbins -> (2 <= List.length fbins)%nat ->
  increasing mig -> (2 <= List.length mig)%nat -> moderate_widths mig -> (Z.of_nat (List.length evs) <= 2 ^ 53)%Z ->
  exists out, energy_dispersion_double evs ebins fbins (map Fin mig) = Ok out /\
  shape out = [(List.length ebins - 1)%nat; (List.length mig - 1)%nat; (List.length fbins - 1)%nat] /\
  forall i k, (i < List.length ebins - 1)%nat -> (k < List.length fbins - 1)%nat ->
    exists d, List.length d = (List.length mig - 1)%nat /\
      (forall j v, nth_error d j = Some v -> at_ out [i; j; k] = Fin v /\ 0 <= v) /\
      (forall j v n m a b, nth_error d j = Some v -> nth_error mig j = Some a -> nth_error mig (S j) = Some b ->
        number_of (fun e => in_hist_bin ebins i (true_energy e) /\ in_hist_bin (map Fin mig) j (fdiv (reco_energy e) (true_energy e)) /\ in_hist_bin fbins k (true_fov_offset e)) evs n ->
        number_of (fun e => in_hist_bin ebins i (true_energy e) /\ in_range (map Fin mig) (fdiv (reco_energy e) (true_energy e)) /\ in_hist_bin fbins k (true_fov_offset e)) evs m ->
        (0 < m)%nat -> Rabs (v - INR n / INR m / (b - a)) <= 4 * eps53 * (INR n / INR m / (b - a))) /\
      ((exists e, In e evs /\ in_hist_bin ebins i (true_energy e) /\
          in_range (map Fin mig) (fdiv (reco_energy e) (true_energy e)) /\ in_hist_bin fbins k (true_fov_offset e)) ->
       Rabs (integral_over width mig d - 1) <= 4 * eps53) /\
      ((forall e, In e evs -> ~ (in_hist_bin ebins i (true_energy e) /\
          in_range (map Fin mig) (fdiv (reco_energy e) (true_energy e)) /\ in_hist_bin fbins k (true_fov_offset e))) ->
       forall v, In v d -> v = 0).
Proof. intros; apply disp_double; auto. Qed.
Print Assumptions C75_energy_dispersion.
Theorem C75_migration_matrix : forall evs ebins rbins fbins,
  nondecreasing ebins -> (2 <= List.length ebins)%nat -> nondecreasing rbins -> (2 <= List.length rbins)%nat ->
  nondecreasing fbins -> (2 <= List.length fbins)%nat -> (Z.of_nat (List.length evs) <= 2 ^ 53)%Z ->
  exists out, energy_migration_matrix_double evs ebins rbins fbins = Ok out /\
  shape out = [(List.length ebins - 1)%nat; (List.length rbins - 1)%nat; (List.length fbins - 1)%nat] /\
  forall i k, (i < List.length ebins - 1)%nat -> (k < List.length fbins - 1)%nat ->
    exists d, List.length d = (List.length rbins - 1)%nat /\
      (forall j v, nth_error d j = Some v -> at_ out [i; j; k] = Fin v /\ 0 <= v <= 1) /\
      (forall j v n m, nth_error d j = Some v ->
        number_of (fun e => in_hist_bin ebins i (true_energy e) /\ in_hist_bin rbins j (reco_energy e) /\ in_hist_bin fbins k (true_fov_offset e)) evs n ->
        number_of (fun e => in_hist_bin ebins i (true_energy e) /\ in_range rbins (reco_energy e) /\ in_hist_bin fbins k (true_fov_offset e)) evs m ->
        (0 < m)%nat -> Rabs (v - INR n / INR m) <= 2 * eps53 * (INR n / INR m)) /\
      ((exists e, In e evs /\ in_hist_bin ebins i (true_energy e) /\ in_range rbins (reco_energy e) /\ in_hist_bin fbins k (true_fov_offset e)) ->
       Rabs (total d - 1) <= 2 * eps53) /\
      ((forall e, In e evs -> ~ (in_hist_bin ebins i (true_energy e) /\ in_range rbins (reco_energy e) /\ in_hist_bin fbins k (true_fov_offset e))) ->
       forall v, In v d -> v = 0).
Proof. intros; apply mig_double; auto. Qed.
Print Assumptions C75_migration_matrix.
(** the effective area, never more than the simulated area *)
Theorem C75_effective_area : forall selected simulated area, shape selected = shape simulated -> moderate area -> double area ->
  exists out, effective_area_double selected simulated area = Ok out /\ shape out = shape selected /\
  forall ix k n, index_of (shape selected) ix -> at_ selected ix = Fin k -> at_ simulated ix = Fin n -> k = 0 \/ moderate k -> moderate n ->
    exists v, at_ out ix = Fin v /\ 0 <= v /\ Rabs (v - k / n * area) <= 3 * eps53 * (k / n * area) /\ (k <= n -> v <= area).
Proof. exact area_double. Qed.
Print Assumptions C75_effective_area.
(** the difference of cosines loses digits: the smaller the ring, the larger the error.  For rings of 0.01 degree it is
    about one in a million *)
Theorem C75_point_spread_function : forall cosine evs ebins fbins sbins w,
  accurate_cos cosine -> nondecreasing ebins -> (2 <= List.length ebins)%nat -> nondecreasing fbins -> (2 <= List.length fbins)%nat ->
  angles sbins -> (2 <= List.length sbins)%nat -> (Z.of_nat (List.length evs) <= 2 ^ 53)%Z -> 10000 * eps53 <= w ->
  (forall k a b, nth_error sbins k = Some a -> nth_error sbins (S k) = Some b -> w <= ring_deg a b) ->
  exists out, psf_table_double cosine evs ebins sbins fbins = Ok out /\
  shape out = [(List.length ebins - 1)%nat; (List.length fbins - 1)%nat; (List.length sbins - 1)%nat] /\
  forall i j, (i < List.length ebins - 1)%nat -> (j < List.length fbins - 1)%nat ->
    exists d, List.length d = (List.length sbins - 1)%nat /\
      (forall k v, nth_error d k = Some v -> at_ out [i; j; k] = Fin v /\ 0 <= v) /\
      (forall k v n m a b, nth_error d k = Some v -> nth_error sbins k = Some a -> nth_error sbins (S k) = Some b ->
        number_of (fun e => in_hist_bin ebins i (true_energy e) /\ in_hist_bin fbins j (true_fov_offset e) /\ in_hist_bin (map Fin sbins) k (theta e)) evs n ->
        number_of (fun e => in_hist_bin ebins i (true_energy e) /\ in_hist_bin fbins j (true_fov_offset e) /\ in_range (map Fin sbins) (theta e)) evs m ->
        (0 < m)%nat -> Rabs (v - INR n / INR m / ring_deg a b) <= 1000 * eps53 / ring_deg a b * (INR n / INR m / ring_deg a b)) /\
      ((exists e, In e evs /\ in_hist_bin ebins i (true_energy e) /\ in_hist_bin fbins j (true_fov_offset e) /\ in_range (map Fin sbins) (theta e)) ->
       Rabs (integral_over ring_deg sbins d - 1) <= 1000 * eps53 / w) /\
      ((forall e, In e evs -> ~ (in_hist_bin ebins i (true_energy e) /\ in_hist_bin fbins j (true_fov_offset e) /\ in_range (map Fin sbins) (theta e))) ->
       forall v, In v d -> v = 0).
Proof. intros; apply psf_double; auto. Qed.
Print Assumptions C75_point_spread_function.
(** the solid angle of a cone is accurate to an absolute error, not a relative one *)
Theorem C75_cone : forall cosine x, accurate_cos cosine -> 0 <= x <= 180 ->
  exists s, cone_solid_angle_double cosine x = Fin s /\ Rabs (s - 2 * PI * (1 - cos (deg x))) <= 256 * eps53.
Proof. exact cone_double'. Qed.
Print Assumptions C75_cone.
(** up to 10^-7 degree it is zero, and a point spread function with such bins has no finite value *)
Theorem C75_tiny_refuted : forall evs ebins fbins x i j,
  nondecreasing ebins -> (2 <= List.length ebins)%nat -> nondecreasing fbins -> (2 <= List.length fbins)%nat ->
  (Z.of_nat (List.length evs) <= 2 ^ 53)%Z -> 0 < x <= / 10 ^ 7 ->
  (i < List.length ebins - 1)%nat -> (j < List.length fbins - 1)%nat ->
  cone_solid_angle_double rounded_cos x = Fin 0 /\
  exists out, psf_table_double rounded_cos evs ebins [0; x] fbins = Ok out /\ (at_ out [i; j; 0%nat] = PInf \/ at_ out [i; j; 0%nat] = NaN).
Proof. exact tiny. Qed.
Print Assumptions C75_tiny_refuted.
(** a rounded ratio never moves below an edge it reached, and reaches an edge at most by rounding up to it *)
Theorem C75_rounded_ratio : forall x y q edge, y <> 0 -> double edge -> fdiv (Fin x) (Fin y) = Fin q ->
  (edge <= x / y -> edge <= q) /\ (q < edge -> x / y < edge) /\ (x / y < edge -> q <= edge).
Proof. exact rounded_ratio. Qed.
Print Assumptions C75_rounded_ratio.
Example C75_example : accurate_cos rounded_cos /\ moderate_widths [1 / 5; 1; 5] /\ increasing [1 / 5; 1; 5] /\
  angles [0; 90] /\ 10000 * eps53 <= ring_deg 0 90 /\ moderate 7 /\ double 7.
Proof. exact double_example. Qed.
