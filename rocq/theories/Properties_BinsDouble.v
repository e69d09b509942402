(** * C77: bin edges, bin centres and percentiles in double precision *)
From Coq Require Import Reals List Bool ZArith Lia Lra Permutation.
From Verif Require Import Num Numpy Binning SpecBinning SpecCuts Double SpecDouble SpecBinsDouble BinsDouble BinsDoubleProofs PercentileDoubleProofs.
Import ListNotations.
Open Scope R_scope.

(** create_bins_per_decade: never empty, strictly increasing and positive; the number of edges and every edge are right up
    to rounding *)
Theorem C77_bins_per_decade : forall log10f powf lo hi n, accurate_log10 log10f -> usable_energy lo -> usable_energy hi -> lo <= hi -> (1 <= n <= 1000)%nat -> accurate_pow10 powf ->
  exists out, create_bins_per_decade_double log10f powf (Fin lo) (Fin hi) n = Ok (map Fin out) /\
    INR (length out) - 1 < bins_between lo hi n + 1 / 10000 + / 10 ^ 9 /\ bins_between lo hi n + 1 / 10000 - / 10 ^ 9 <= INR (length out) /\
    (forall i e, nth_error out i = Some e -> Rabs (e - lo * Rpower 10 (INR i / INR n)) <= (1000 + 150 * INR i) * eps53 * (lo * Rpower 10 (INR i / INR n))) /\
    (forall i a b, nth_error out i = Some a -> nth_error out (S i) = Some b -> 0 < a < b).
Proof. exact bins_double. Qed.
Print Assumptions C77_bins_per_decade.
(** e_max is an edge whenever e_min and e_max are a whole number of bins apart (even if only nearly so) *)
Theorem C77_endpoint_included : forall log10f powf lo hi n, accurate_log10 log10f -> usable_energy lo -> usable_energy hi -> lo <= hi -> (1 <= n <= 1000)%nat -> accurate_pow10 powf ->
  forall k, Rabs (bins_between lo hi n - INR k) <= / 20000 ->
  exists out, create_bins_per_decade_double log10f powf (Fin lo) (Fin hi) n = Ok out /\ length out = S k.
Proof. exact bins_double_count. Qed.
Print Assumptions C77_endpoint_included.
(** bin_center: between the two edges, also after rounding *)
Theorem C77_bin_center : forall edges, (forall e, In e edges -> double e /\ Rabs e <= 10 ^ 300) ->
  length (bin_center_double (map Fin edges)) = (length edges - 1)%nat /\
  forall i a b, nth_error edges i = Some a -> nth_error edges (S i) = Some b -> a <= b ->
    exists c, nth_error (bin_center_double (map Fin edges)) i = Some (Fin c) /\ a <= c <= b /\ Rabs (c - (a + b) / 2) <= 4 * eps53 * Rabs ((a + b) / 2) + / 2 ^ 1075.
Proof. exact bin_center_double_ok. Qed.
Print Assumptions C77_bin_center.
(** percentiles (cuts, energy resolution, angular resolution): close to the documented percentile, never outside the values,
    and with the right number of values on either side *)
Theorem C77_percentile : forall l vals p M, finite_part l vals -> vals <> [] -> (forall x, In x vals -> double x /\ Rabs x <= M) -> M <= 10 ^ 300 -> (Z.of_nat (length vals) <= 2 ^ 53)%Z ->
  double p -> p = 0 \/ / 10 ^ 60 <= p <= 100 ->
  exists r, nanpercentile_double l (Fin p) = Ok (Fin r) /\
    (forall c s G, linear_percentile vals p c -> Permutation vals s -> ascending s -> 0 <= G -> (forall i a b, nth_error s i = Some a -> nth_error s (S i) = Some b -> b - a <= G) ->
      Rabs (r - c) <= 3 * eps53 * (p / 100 * (INR (length vals) - 1)) * G + 6 * eps53 * M + / 2 ^ 1075) /\
    (exists lo hi, In lo vals /\ In hi vals /\ lo <= r <= hi) /\
    (forall n, number_of (fun x => x <= r) vals n -> p / 100 * (INR (length vals) - 1) * (1 - 3 * eps53) < INR n) /\
    (forall n, number_of (fun x => r <= x) vals n -> INR (length vals) - 1 - p / 100 * (INR (length vals) - 1) * (1 + 3 * eps53) < INR n).
Proof. exact percentile_double_ok. Qed.
Print Assumptions C77_percentile.
(** the limit on the values is needed: for the two extreme doubles even the minimum comes out as NaN *)
Theorem C77_percentile_overflow : nanpercentile_double [Fin (- fmax); Fin fmax] (Fin 0) = Ok NaN.
Proof. exact percentile_overflow. Qed.
Print Assumptions C77_percentile_overflow.
Example C77_example : accurate_log10 rounded_log10 /\ accurate_pow10 rounded_pow10 /\ usable_energy 1 /\ usable_energy 1000 /\ bins_between 1 1000 5 = INR 15.
Proof. exact bins_example. Qed.
Example C77_example_percentile : finite_part [Fin 3; NaN; Fin 1; Fin 2] [3; 1; 2] /\ (forall x, In x [3; 1; 2] -> double x /\ Rabs x <= 3) /\ double 50 /\ / 10 ^ 60 <= 50 <= 100.
Proof.
  assert (D : forall k, (Z.abs k < 2 ^ 53)%Z -> double (IZR k)) by (intros k H; exists k, 0%Z; split; [auto|]; split; [lia|]; cbn; ring).
  split; [repeat constructor|]. split; [|split; [apply D; reflexivity|split; [|lra]]].
  - intros x Hx. cbn in Hx. destruct Hx as [<-|[<-|[<-|[]]]]; (split; [apply D; reflexivity|rewrite Rabs_pos_eq; lra]).
  - assert (1 <= 10 ^ 60) by (apply pow_R1_Rle; lra). assert (/ 10 ^ 60 <= / 1) by (apply Rinv_le_contravar; lra). lra.
Qed.
