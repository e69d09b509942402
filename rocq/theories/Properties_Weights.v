(** * C93: weights of the grid points in double precision *)
From Coq Require Import Reals List Lra.
From Verif Require Import Num Double SpecDouble WeightsDouble SpecWeights WeightsDoubleProofs.
Import ListNotations.
Open Scope R_scope.

Theorem C93_barycentric p1 p2 p3 t : location p1 -> location p2 -> location p3 -> location t -> fat p1 p2 p3 ->
  exists w1 w2 w3, barycentric_double (fin p1) (fin p2) (fin p3) (fin t) = [Fin w1; Fin w2; Fin w3] /\
    close_weight w1 (area2 t p2 p3) (products t p2 p3) (area2 p1 p2 p3) (products p1 p2 p3) /\
    close_weight w2 (area2 p1 t p3) (products p1 t p3) (area2 p1 p2 p3) (products p1 p2 p3) /\
    Rabs (w1 + w2 + w3 - 1) <= 3 * eps53 * (1 + Rabs w1 + Rabs w2).
Proof. exact (barycentric_ok p1 p2 p3 t). Qed.
Print Assumptions C93_barycentric.

Theorem C93_barycentric_at_grid_points p1 p2 p3 : location p1 -> location p2 -> location p3 -> fat p1 p2 p3 ->
  barycentric_double (fin p1) (fin p2) (fin p3) (fin p1) = [Fin 1; Fin 0; Fin 0] /\
  barycentric_double (fin p1) (fin p2) (fin p3) (fin p2) = [Fin 0; Fin 1; Fin 0] /\
  barycentric_double (fin p1) (fin p2) (fin p3) (fin p3) = [Fin 0; Fin 0; Fin 1].
Proof. exact (barycentric_at_points p1 p2 p3). Qed.
Print Assumptions C93_barycentric_at_grid_points.

(** a triangle that is not fat: the weights at one of its corners are not numbers *)
Theorem C93_thin_triangle_refuted : exists p1 p2 p3, location p1 /\ location p2 /\ location p3 /\ area2 p1 p2 p3 <> 0 /\
  barycentric_double (fin p1) (fin p2) (fin p3) (fin p1) = [NaN; NaN; NaN].
Proof. exact thin_refuted. Qed.
Print Assumptions C93_thin_triangle_refuted.

Theorem C93_segment inverse g0 g1 t : accurate_inverse inverse -> coordinate g0 -> coordinate g1 -> coordinate t -> / 10 ^ 60 <= Rabs (g1 - g0) ->
  exists w0 w1, segment_double inverse (Fin g0) (Fin g1) (Fin t) = [Fin w0; Fin w1] /\
    Rabs (w0 - (g1 - t) / (g1 - g0)) <= 10 * eps53 * (1 + Rabs ((t - g0) / (g1 - g0))) /\
    Rabs (w1 - (t - g0) / (g1 - g0)) <= 10 * eps53 * Rabs ((t - g0) / (g1 - g0)) + / 10 ^ 100.
Proof. exact (segment_ok inverse g0 g1 t). Qed.
Print Assumptions C93_segment.

Theorem C93_segment_at_first_point inverse g0 g1 : (exists a b, inverse (fsub (Fin g1) (Fin g0)) = (Fin a, Fin b)) ->
  segment_double inverse (Fin g0) (Fin g1) (Fin g0) = [Fin 1; Fin 0].
Proof. exact (segment_at_g0 inverse g0 g1). Qed.
Print Assumptions C93_segment_at_first_point.

(** at the other grid point the first one can keep a weight *)
Theorem C93_segment_at_other_point_refuted : exists inverse g0 g1, accurate_inverse inverse /\ coordinate g0 /\ coordinate g1 /\ g0 < g1 /\
  segment_double inverse (Fin g0) (Fin g1) (Fin g1) = [Fin (/ 2 ^ 53); Fin (1 - / 2 ^ 53)].
Proof. exact segment_other_refuted. Qed.
Print Assumptions C93_segment_at_other_point_refuted.

Theorem C93_estimate n coefficients rows : List.length coefficients = List.length rows -> (1 <= List.length coefficients <= 1000)%nat ->
  (forall c, In c coefficients -> Rabs c <= 10 ^ 100) -> (forall row, In row rows -> row_of n row) ->
  forall j, (j < n)%nat -> exists z, nth j (estimate_double (map Fin coefficients) (map (map Fin) rows)) NaN = Fin z /\
    Rabs (z - combination coefficients rows j) <= 2 * INR (List.length coefficients) * eps53 * magnitude coefficients rows j + / 10 ^ 300.
Proof. exact (estimate_ok n coefficients rows). Qed.
Print Assumptions C93_estimate.

Theorem C93_estimate_at_grid_points n p1 p2 p3 r1 r2 r3 : location p1 -> location p2 -> location p3 -> fat p1 p2 p3 -> row_of n r1 -> row_of n r2 -> row_of n r3 ->
  let estimate t := estimate_double (barycentric_double (fin p1) (fin p2) (fin p3) (fin t)) [map Fin r1; map Fin r2; map Fin r3] in
  estimate p1 = map Fin r1 /\ estimate p2 = map Fin r2 /\ estimate p3 = map Fin r3.
Proof. exact (barycentric_estimate_at_points n p1 p2 p3 r1 r2 r3). Qed.
Print Assumptions C93_estimate_at_grid_points.

Example C93_triangle : location (0, 0) /\ location (1, 0) /\ location (0, 1) /\ location (1 / 4, 1 / 2) /\ fat (0, 0) (1, 0) (0, 1).
Proof. destruct unit_locations as (A & B & C & D). repeat (split; [assumption|]). exact unit_triangle_meets. Qed.
Example C93_inverse : accurate_inverse (fun d => (fdiv (Fin (- 1)) d, fdiv (Fin 1) d)).
Proof. exact rounded_inverse_accurate. Qed.
Example C93_rows : row_of 2 [0; 1] /\ row_of 2 [1; 0] /\ combination [1 / 4; 3 / 4] [[0; 1]; [1; 0]] 1 = 1 / 4.
Proof.
  split; [|split].
  1,2: split; [reflexivity|]; intros x [<-|[<-|[]]]; (split; [auto using d_one, d_zero|]); rewrite ?Rabs_R0, ?Rabs_R1; first [apply pow_le; lra|apply pow_R1_Rle; lra].
  cbn. lra.
Qed.
