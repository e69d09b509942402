(** * C94: bins in another unit than the data, in double precision *)
From Coq Require Import String Reals List Bool ZArith Lia Lra.
From Verif Require Import Num Numpy Table Binning SpecBinning Double SpecDouble ConvertDouble SpecConvert ConvertDoubleProofs.
Import ListNotations.
Open Scope R_scope.

(** the index is that of the exact edges, except for values just below an edge, which can only move up *)
Theorem C94_bin_index s bins data : 0 < s -> nondecreasing bins -> bins <> [] -> (Z.of_nat (List.length bins) <= INT64_MAX)%Z -> values data ->
  exists idx valid idx' valid', calculate_bin_indices_double s (map Fin data) bins = Ok (idx, valid) /\
    calculate_bin_indices (mkArr (map Fin data) None) (mkArr (exact_edges s bins) None) = Ok (idx', valid') /\
    List.length idx = List.length data /\ List.length valid = List.length data /\
    forall i x, nth_error data i = Some x -> exists z v z' v',
      nth_error idx i = Some z /\ nth_error valid i = Some v /\ nth_error idx' i = Some z' /\ nth_error valid' i = Some v' /\
      bin_outcome (exact_edges s bins) (Fin x) z' v' /\ (z' <= z)%Z /\ (z = z' /\ v = v' \/ just_below_an_edge s bins x).
Proof. exact (fun H => c94_bin_index s H bins data). Qed.
Print Assumptions C94_bin_index.

(** a value below the lowest edge gets the index of the first bin *)
Theorem C94_event_moves_refuted : exists e x, double e /\ double x /\ x < e * 1000 /\
  calculate_bin_indices_double 1000 [Fin x] [Fin e; Fin 1] = Ok ([0%Z], [true]).
Proof. exact c94_event_moves_refuted. Qed.
Print Assumptions C94_event_moves_refuted.

(** histograms with the same bins count the same events *)
Theorem C94_histogram s ev bins key : 0 < s -> nondecreasing bins -> (2 <= List.length bins)%nat ->
  exists t n idx valid, create_histogram_table_converted s ev bins key = Ok t /\ getitem t "n" = Some (CZ n) /\
    calculate_bin_indices_double s (map ev_x (et_rows ev)) bins = Ok (idx, valid) /\
    forall k c, nth_error n k = Some c ->
      c = (Z.of_nat (count (fun p : Z * bool => snd p && Z.eqb (fst p) (Z.of_nat k)) (combine idx valid))
          + if Nat.eqb (S (S k)) (List.length bins) then Z.of_nat (count (fun e => neqb (ev_x e) (last (converted s bins) NaN)) (et_rows ev)) else 0)%Z.
Proof. exact (c94_histogram s ev bins key). Qed.
Print Assumptions C94_histogram.

Theorem C94_bins_kept s a b : 0 < s -> Rabs (a * s) <= 10 ^ 300 -> Rabs (b * s) <= 10 ^ 300 ->
  eps53 * (Rabs (a * s) + Rabs (b * s)) + 2 * / 2 ^ 1075 < b * s - a * s ->
  exists a' b', converted s [Fin a; Fin b] = [Fin a'; Fin b'] /\ a' < b'.
Proof. exact (c94_bins_kept s a b). Qed.
Print Assumptions C94_bins_kept.

(** narrower bins can vanish: no value gets their index *)
Theorem C94_bins_merge_refuted : exists a b c, double a /\ double b /\ a < b /\ converted 1000 [Fin a; Fin b] = [Fin c; Fin c] /\
  forall x z v, bin_outcome (converted 1000 [Fin a; Fin b]) x z v -> v = false.
Proof. exact c94_bins_merge_refuted. Qed.
Print Assumptions C94_bins_merge_refuted.

Example C94_example : nondecreasing [NInf; Fin (1 / 4); Fin (1 / 2); PInf] /\ values [1; 300].
Proof.
  split.
  - split; [intros e H; cbn in H; intuition (subst; auto)|].
    intros [|[|[|[|i]]]] a b A B; cbn in A, B; try discriminate; injection A as <-; injection B as <-; auto. cbn. unfold Rleb. destruct (Rle_dec _ _); auto; lra.
  - intros x [<-|[<-|[]]]; [exists 1%Z, 0%Z|exists 300%Z, 0%Z]; cbn; (split; [lia|]); (split; [lia|]); lra.
Qed.
Example C94_bins_example : eps53 * (Rabs (1 * 1000) + Rabs (2 * 1000)) + 2 * / 2 ^ 1075 < 2 * 1000 - 1 * 1000.
Proof.
  unfold eps53. rewrite !Rabs_pos_eq by lra. assert (/ 2 ^ 53 <= / 2 ^ 3) by (apply Rinv_le_contravar; [apply pow_lt; lra|apply Rle_pow; [lra|lia]]).
  assert (/ 2 ^ 1075 <= / 2 ^ 0) by (apply Rinv_le_contravar; [apply pow_lt; lra|apply Rle_pow; [lra|lia]]). cbn [pow] in *. lra.
Qed.
