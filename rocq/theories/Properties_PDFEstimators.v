(** * C82: EnergyDispersionEstimator and PSFTableEstimator *)
From Coq Require Import String Reals List Bool ZArith Arith Lia Lra Permutation.
From Verif Require Import Num Numpy Sort Table Binning SpecBinning Utils SpecSimulations SpecIRF Morph SpecInterp MorphProofs Geometry Quantile Tensor Quantities SpecUnits Estimators SpecEstimators EstimatorProofs EstimatorProofs2 EstimatorProofs5 PDFEstimators SpecPDFEstimators PDFProofs3 PDFProofs4 PDFProofs5 PDFProofs6 PDFProofs7.
Import ListNotations.
Open Scope R_scope.

(** moment morphing, one dimension: the result is made from the histograms of the two grid points next to the target, is a density
    or zero everywhere, and at a grid point it is the normalised histogram of this point *)
Theorem C82_morph : forall m edges g pts a axis k find inside,
  usable_edges m edges -> float_grid g 1 pts -> (2 <= List.length pts)%nat -> NoDup pts ->
  histograms_along (List.length pts) (List.length edges - 1) axis k a ->
  exists est, edisp_init g edges a (fun N e => morph_method find false N (nz m) e) None axis = Ok est /\
  (forall t p q c d, between pts t p q c d -> exists out, pdf_call inside est (TFlat [t]) = Ok (false, out) /\ shape out = 1%nat :: tl (ashape a) /\
    forall ix, index_of (shape out) ix ->
      let h0 := histogram_along a k ix p in let h1 := histogram_along a k ix q in let h := result_along out k ix in
      (filled h0 -> filled h1 -> nonnegative h /\ (integrates_to_one m edges h \/ all_zero h)) /\
      (~ filled h0 \/ ~ filled h1 -> all_zero h) /\
      (t = c -> filled h0 -> filled h1 -> normalised m edges h0 h) /\
      moment_morph_slice edges [h0; h1] [(d - t) / (d - c); (t - c) / (d - c)] (nz m) = Ok h) /\
  (forall t, largest pts t -> pdf_call inside est (TFlat [t]) = Err IndexError) /\
  (forall t, outside pts t -> pdf_call inside est (TFlat [t]) = Err ValueError).
Proof. exact c82_morph. Qed.
Print Assumptions C82_morph.
(** the largest grid point is a valid target, but the estimation there fails *)
Theorem C82_largest_grid_point_refuted : forall m edges g pts a axis k find inside,
  usable_edges m edges -> float_grid g 1 pts -> (2 <= List.length pts)%nat -> NoDup pts ->
  histograms_along (List.length pts) (List.length edges - 1) axis k a ->
  exists est t, edisp_init g edges a (fun N e => morph_method find false N (nz m) e) None axis = Ok est /\
    In [t] pts /\ in_hull 1 pts [t] /\ pdf_call inside est (TFlat [t]) = Err IndexError.
Proof. exact c82_largest. Qed.
Print Assumptions C82_largest_grid_point_refuted.
Theorem C82_morph_2d : forall m edges g pts a axis k find inside,
  usable_edges m edges -> float_grid g 2 pts -> (3 <= List.length pts)%nat -> hull_test 2 pts inside -> simplex_finder pts find ->
  histograms_along (List.length pts) (List.length edges - 1) axis k a ->
  exists est, edisp_init g edges a (fun N e => morph_method find false N (nz m) e) None axis = Ok est /\
  forall t, List.length t = 2%nat ->
  (in_hull 2 pts t -> exists out p1 p2 p3 c1 c2 c3, pdf_call inside est (TFlat t) = Ok (false, out) /\ shape out = 1%nat :: tl (ashape a) /\
    find pts t = (p1, p2, p3) /\ nth_error (map in_plane pts) p1 = Some c1 /\ nth_error (map in_plane pts) p2 = Some c2 /\ nth_error (map in_plane pts) p3 = Some c3 /\
    forall ix, index_of (shape out) ix ->
      let h1 := histogram_along a k ix p1 in let h2 := histogram_along a k ix p2 in let h3 := histogram_along a k ix p3 in let h := result_along out k ix in
      (filled h1 -> filled h2 -> filled h3 -> nonnegative h /\ (integrates_to_one m edges h \/ all_zero h)) /\
      (~ filled h1 \/ ~ filled h2 \/ ~ filled h3 -> all_zero h) /\
      (filled h1 -> filled h2 -> filled h3 ->
         (in_plane t = c1 -> normalised m edges h1 h) /\ (in_plane t = c2 -> normalised m edges h2 h) /\ (in_plane t = c3 -> normalised m edges h3 h))) /\
  (~ in_hull 2 pts t -> pdf_call inside est (TFlat t) = Err ValueError).
Proof. exact c82_morph_2d. Qed.
Print Assumptions C82_morph_2d.
(** extrapolation: from the two outermost grid points; with a warning *)
Theorem C82_extrapolate : forall m edges g pts a axis k find tri inside,
  usable_edges m edges -> float_grid g 1 pts -> (2 <= List.length pts)%nat -> NoDup pts ->
  histograms_along (List.length pts) (List.length edges - 1) axis k a ->
  exists est, edisp_init g edges a (fun N e => morph_method find false N (nz m) e) (Some (fun N e => morph_extrapolator tri false N (nz m) e)) axis = Ok est /\
  forall t p q c d, beyond pts t p q c d -> exists out w, pdf_call inside est (TFlat [t]) = Ok (true, out) /\ shape out = 1%nat :: tl (ashape a) /\
    total w = 1 /\ weighted w [c; d] = t /\
    forall ix, index_of (shape out) ix -> slice_result m edges [histogram_along a k ix p; histogram_along a k ix q] w (result_along out k ix).
Proof. exact c82_extrapolate. Qed.
Print Assumptions C82_extrapolate.
(** two dimensions: from the corners of a triangle at the nearest side of the hull *)
Theorem C82_extrapolate_2d : forall m edges g pts a axis k find tri inside sx hl,
  usable_edges m edges -> float_grid g 2 pts -> (3 <= List.length pts)%nat -> hull_test 2 pts inside ->
  tri pts = mkTri (map in_plane pts) sx hl -> good_mesh (map in_plane pts) sx hl ->
  histograms_along (List.length pts) (List.length edges - 1) axis k a ->
  exists est, edisp_init g edges a (fun N e => morph_method find false N (nz m) e) (Some (fun N e => morph_extrapolator tri false N (nz m) e)) axis = Ok est /\
  forall t, List.length t = 2%nat -> ~ in_hull 2 pts t -> exists out p1 p2 p3 c1 c2 c3 h f w, pdf_call inside est (TFlat t) = Ok (true, out) /\ shape out = 1%nat :: tl (ashape a) /\
    In (p1, p2, p3) sx /\ triangle_of (map in_plane pts) (p1, p2, p3) (c1, c2, c3) /\
    In h hl /\ side_of (map in_plane pts) h (fst f) (snd f) /\ is_corner (fst f) (c1, c2, c3) /\ is_corner (snd f) (c1, c2, c3) /\
    (forall h' f' d d', In h' hl -> side_of (map in_plane pts) h' (fst f') (snd f') ->
       distance_to_segment (fst f) (snd f) (in_plane t) d -> distance_to_segment (fst f') (snd f') (in_plane t) d' ->
       d <= d' + 1/100000 * (distance (fst f) (snd f) + distance (fst f') (snd f'))) /\
    barycentric (c1, c2, c3) (in_plane t) w /\
    forall ix, index_of (shape out) ix -> slice_result m edges [histogram_along a k ix p1; histogram_along a k ix p2; histogram_along a k ix p3] w (result_along out k ix).
Proof. exact c82_extrapolate_2d. Qed.
Print Assumptions C82_extrapolate_2d.
(** quantile interpolation, any dimension *)
Theorem C82_quantile : forall m edges g d pts a axis k nq choose inside,
  usable_edges m edges -> float_grid g d pts -> (1 <= d)%nat -> (d + 1 <= List.length pts)%nat -> hull_test d pts inside -> served d pts choose -> NoDup pts ->
  (3 <= nq)%nat -> histograms_along (List.length pts) (List.length edges - 1) axis k a ->
  exists est, edisp_init g edges a (fun N e => quantile_method choose nq N (nz m) e) None axis = Ok est /\
  forall t, List.length t = d ->
  (in_hull d pts t -> exists out, pdf_call inside est (TFlat t) = Ok (false, out) /\ shape out = 1%nat :: tl (ashape a) /\
    forall ix, index_of (shape out) ix ->
      nonnegative (result_along out k ix) /\ (integrates_to_one m edges (result_along out k ix) \/ all_zero (result_along out k ix)) /\
      ((d = 1%nat -> in_order pts) -> exists r, result_along out k ix = map Fin r /\
         quantile_interpolate edges (map (histogram_along a k ix) (seq 0 (List.length pts))) (nz m) nq (choose pts t) = Ok r)) /\
  (~ in_hull d pts t -> pdf_call inside est (TFlat t) = Err ValueError).
Proof. exact c82_quantile. Qed.
Print Assumptions C82_quantile.
(** the nearest neighbour searcher, inside and outside of the grid, with an axis counted from the end *)
Theorem C82_nearest : forall edges g d pts a k ord inside,
  (2 <= List.length edges)%nat -> float_grid g d pts -> (1 <= d)%nat -> (d + 1 <= List.length pts)%nat -> hull_test d pts inside -> (0 < ord)%nat ->
  let axis := (Z.of_nat k - Z.of_nat (List.length (ashape a)))%Z in
  histograms_along (List.length pts) (List.length edges - 1) axis k a ->
  exists est, edisp_init g edges a (fun N e => nearest_pdf_method ord e) (Some (fun N e => nearest_pdf_method ord e)) axis = Ok est /\
  forall t, List.length t = d -> exists w p x out, pdf_call inside est (TFlat t) = Ok (w, out) /\ (w = false <-> in_hull d pts t) /\
    nth_error pts p = Some x /\ (forall y dx dy, In y pts -> p_distance ord x t dx -> p_distance ord y t dy -> dx <= dy) /\
    shape out = tl (ashape a) /\ forall ix, index_of (shape out) ix -> at_ out ix = Fin (aat a (p :: ix)).
Proof. exact c82_nearest. Qed.
Print Assumptions C82_nearest.
(** the order of the grid points does not matter (one dimension), whatever the classes *)
Theorem C82_order : forall g g' edges pts pts' a a' axis k n_bins interp extrap,
  float_grid g 1 pts -> float_grid g' 1 pts' -> (2 <= List.length pts)%nat -> NoDup pts ->
  List.length edges = (n_bins + 1)%nat -> histograms_along (List.length pts) n_bins axis k a -> reordered pts pts' a a' ->
  edisp_init g' edges a' interp extrap axis = edisp_init g edges a interp extrap axis.
Proof. exact c82_order. Qed.
Print Assumptions C82_order.
Theorem C82_errors : forall g d edges pts a axis k interp extrap,
  float_grid g d pts -> (d + 1 <= List.length pts)%nat -> (2 <= List.length (ashape a))%nat ->
  ((axis < - Z.of_nat (List.length (ashape a)) \/ Z.of_nat (List.length (ashape a)) <= axis)%Z -> edisp_init g edges a interp extrap axis = Err ValueError) /\
  (axis_at (List.length (ashape a)) axis k -> (1 <= k)%nat ->
     (hd 0%nat (ashape a) <> List.length pts -> edisp_init g edges a interp extrap axis = Err ValueError) /\
     (List.length edges <> (nth k (ashape a) 0 + 1)%nat -> edisp_init g edges a interp extrap axis = Err ValueError)) /\
  (forall inside est t, pdf_call inside est TNotArray = Err TypeError /\ pdf_call inside est (TRows [t]) = pdf_call inside est (TFlat t) /\
     (forall l, List.length l <> 1%nat -> pdf_call inside est (TRows l) = Err ValueError)) /\
  (forall est, edisp_init g edges a interp extrap axis = Ok est -> forall inside t, List.length t <> d -> pdf_call inside est (TFlat t) = Err ValueError).
Proof. exact c82_errors. Qed.
Print Assumptions C82_errors.
(** PSFTableEstimator: the angles may have any unit; the normalisation is that over the solid angles of the rings *)
Theorem C82_psf : forall g bins bu edges psf pu kwi ikls kwe ekls axis,
  in_radian bins bu edges -> qu_dim pu = per_solid_angle -> normalization_left_out kwi -> normalization_left_out kwe ->
  psf_init g bins (Some bu) psf (Some pu) kwi ikls kwe ekls axis =
  edisp_init g edges psf (ikls (nz BySolidAngle)) match ekls with Some e => Some (e (nz BySolidAngle)) | None => None end axis.
Proof. exact c82_psf. Qed.
Print Assumptions C82_psf.
Theorem C82_psf_units : forall g bins bu psf pu kwi ikls kwe ekls axis,
  psf_init g bins None psf pu kwi ikls kwe ekls axis = Err TypeError /\
  (qu_dim bu <> angle_dim -> psf_init g bins (Some bu) psf pu kwi ikls kwe ekls axis = Err UnitsError) /\
  (qu_dim bu = angle_dim -> (pu = None -> psf_init g bins (Some bu) psf pu kwi ikls kwe ekls axis = Err TypeError) /\
     forall u, pu = Some u -> qu_dim u <> per_solid_angle -> psf_init g bins (Some bu) psf pu kwi ikls kwe ekls axis = Err UnitsError).
Proof. exact c82_psf_units. Qed.
Print Assumptions C82_psf_units.
(** a PSF table interpolated by quantiles integrates to one over the solid angle (or is zero), whatever the unit of the angles *)
Theorem C82_psf_quantile : forall bins bu edges pu kwi kwe g d pts a axis k nq choose inside,
  in_radian bins bu edges -> qu_dim pu = per_solid_angle -> normalization_left_out kwi -> normalization_left_out kwe ->
  usable_edges BySolidAngle edges -> float_grid g d pts -> (1 <= d)%nat -> (d + 1 <= List.length pts)%nat -> hull_test d pts inside -> served d pts choose -> NoDup pts ->
  (3 <= nq)%nat -> histograms_along (List.length pts) (List.length edges - 1) axis k a ->
  exists est, psf_init g bins (Some bu) a (Some pu) kwi (fun n N e => quantile_method choose nq N n e) kwe None axis = Ok est /\
  forall t, List.length t = d -> in_hull d pts t -> exists out, pdf_call inside est (TFlat t) = Ok (false, out) /\ shape out = 1%nat :: tl (ashape a) /\
    forall ix, index_of (shape out) ix ->
      nonnegative (result_along out k ix) /\ (integrates_to_one BySolidAngle edges (result_along out k ix) \/ all_zero (result_along out k ix)).
Proof. exact c82_psf_quantile. Qed.
Print Assumptions C82_psf_quantile.
(** PSFTableEstimator with the moment morphing classes: an estimation always fails, because the tables have a unit *)
Theorem C82_psf_morph_refuted : forall g bins bu edges pts a pu kwi kwe axis k find tri inside,
  in_radian bins bu edges -> qu_dim pu = per_solid_angle -> normalization_left_out kwi -> normalization_left_out kwe ->
  usable_edges BySolidAngle edges -> float_grid g 1 pts -> (2 <= List.length pts)%nat -> NoDup pts -> histograms_along (List.length pts) (List.length edges - 1) axis k a ->
  exists est, psf_init g bins (Some bu) a (Some pu) kwi (fun n N e => morph_method find true N n e) kwe (Some (fun n N e => morph_extrapolator tri true N n e)) axis = Ok est /\
  (forall t p q c d, between pts t p q c d -> pdf_call inside est (TFlat [t]) = Err UnitConversionError) /\
  (forall t, outside pts t -> pdf_call inside est (TFlat [t]) = Err UnitConversionError).
Proof. exact c82_psf_morph. Qed.
Print Assumptions C82_psf_morph_refuted.
(** ** examples for the hypotheses *)
(** three grid points out of order; two energies, two bins of the migration *)
Definition grid_example : list (list R) := [[2]; [0]; [1]].
Definition array_example : array := mkA [3; 2; 2]%nat (fun ix => INR (1 + nth 0 ix 0%nat + 2 * nth 1 ix 0%nat + nth 2 ix 0%nat)).
Definition array_reordered : array := mkA [3; 2; 2]%nat (fun ix => aat array_example (nth (hd 0%nat ix) [1; 2; 0]%nat 0%nat :: tl ix)).
Example C82_example_1d : usable_edges ByWidth [0; 1; 3] /\ float_grid (G1 [2; 0; 1]) 1 grid_example /\ NoDup grid_example /\
  histograms_along 3 2 (-1) 2 array_example /\ between grid_example (1/2) 1 2 0 1 /\ beyond grid_example 3 2 0 1 2 /\ beyond grid_example (-1) 1 2 0 1 /\
  largest grid_example 2 /\ outside grid_example 3 /\ reordered grid_example [[0]; [1]; [2]] array_example array_reordered /\ served 1 grid_example choose_1D /\
  filled (histogram_along array_example 2 [0; 1; 0]%nat 1).
Proof.
  assert (I : forall c, In [c] grid_example -> c = 2 \/ c = 0 \/ c = 1). { intros c [H|[H|[H|[]]]]; injection H as <-; auto. }
  split; [split; [|split; [cbn; lia|discriminate]]|]. { intros [|[|i]] x y Hx Hy; cbn in Hx, Hy; try (injection Hx as <-; injection Hy as <-; lra); destruct i; discriminate. }
  split; [left; exists [2; 0; 1]; auto|]. split. { unfold grid_example. repeat constructor; cbn; intros H; repeat destruct H as [H|H]; try contradiction; injection H; lra. }
  split. { split; [cbn; lia|]. split; [split; [cbn; lia|right; cbn; lia]|]. split; [lia|]. split; [auto|]. split; [auto|]. intros ix _. cbn [aat array_example]. apply pos_INR. }
  split. { split; [auto|]. split; [auto|]. split; [lra|]. intros c Hc. destruct (I c Hc) as [-> | [-> | ->]]; lra. }
  split. { split; [auto|]. split; [auto|]. split; [lra|]. right. split; [lra|]. intros c Hc. destruct (I c Hc) as [-> | [-> | ->]]; lra. }
  split. { split; [auto|]. split; [auto|]. split; [lra|]. left. split; [lra|]. intros c Hc. destruct (I c Hc) as [-> | [-> | ->]]; lra. }
  split. { split; [cbn; auto|]. intros c Hc. destruct (I c Hc) as [-> | [-> | ->]]; lra. }
  split. { right. intros c Hc. destruct (I c Hc) as [-> | [-> | ->]]; lra. }
  split. { split; [auto|]. split; [auto|]. exists [1; 2; 0]%nat. split.
    - change (seq 0 (List.length grid_example)) with [0; 1; 2]%nat. apply perm_trans with [1; 0; 2]%nat; [apply perm_skip, perm_swap|apply perm_swap].
    - intros [|[|[|i]]] j Hj; cbn in Hj; try (injection Hj as <-; split; [reflexivity|intros; reflexivity]); destruct i; discriminate. }
  split. { split; [|intros H; lia]. intros _ pts' P O. apply choose_1D_ok; auto.
    - intros p Hp. eapply Permutation_in in Hp; [|symmetry; exact P]. destruct Hp as [<-|[<-|[<-|[]]]]; auto.
    - apply Permutation_length in P. rewrite <- P. cbn. lia. }
  unfold filled, histogram_along. cbn. lra.
Qed.
(** two dimensions *)
Example C82_example_2d : float_grid (G2 2 triangle) 2 triangle /\ hull_test 2 triangle inside_triangle /\ simplex_finder triangle (fun _ _ => (0, 1, 2)%nat) /\
  good_mesh (map in_plane triangle) [(0, 1, 2)%nat] [(0, 1)%nat; (1, 2)%nat; (2, 0)%nat] /\ in_hull 2 triangle [1/4; 1/4] /\ ~ in_hull 2 triangle [1; 1] /\
  histograms_along 3 2 1 1 (mkA [3; 2; 5]%nat (fun _ => 1)).
Proof.
  split; [right; split; [auto|intros p [<-|[<-|[<-|[]]]]; auto]|]. split; [apply triangle_test|].
  assert (T : triangle_of (map in_plane triangle) (0, 1, 2)%nat ((0, 0), (1, 0), (0, 1))) by (repeat split).
  assert (P : proper_triangle (0, 0) (1, 0) (0, 1)) by (unfold proper_triangle, doubled_area; cbn; lra).
  split. { intros t Ht Hin. apply triangle_hull in Hin; auto. exists (0, 0), (1, 0), (0, 1). split; [exact T|]. split; [exact P|].
    exists (1 - nth 0 t 0 - nth 1 t 0), (nth 0 t 0), (nth 1 t 0). cbn [fst snd in_plane]. lra. }
  split. { split; [discriminate|]. split.
    - intros s [<-|[]]. eexists. split; [exact T|exact P].
    - intros f [<-|[<-|[<-|[]]]]; eexists _, _, (0, 1, 2)%nat, ((0, 0), (1, 0), (0, 1)); (split; [split; reflexivity|]); (split; [intros E; injection E; lra|]); (split; [left; auto|]); (split; [exact T|]); unfold is_corner; cbn; auto. }
  split; [apply triangle_hull; auto; cbn; lra|]. split; [intros H; apply triangle_hull in H; auto; cbn in H; lra|].
  split; [cbn; lia|]. split; [split; [cbn; lia|left; auto]|]. split; [lia|]. split; [auto|]. split; [auto|]. intros ix _. cbn. lra.
Qed.
(** rings in degree *)
Example C82_example_psf : in_radian [0; 1; 2] deg [0; PI / 180; PI / 90] /\ usable_edges BySolidAngle [0; PI / 180; PI / 90] /\
  qu_dim (upow sr (-1)) = per_solid_angle /\ qu_dim (upow deg (-2)) = per_solid_angle /\ normalization_left_out (Some [("quantile_resolution", KOther "1e-3")])%string /\ normalization_left_out None.
Proof.
  pose proof PI_RGT_0. split; [split; [split; [reflexivity|cbn; lra]|cbn; f_equal; [lra|]; f_equal; [lra|]; f_equal; lra]|].
  split. { split; [|split; [cbn; lia|]]. { intros [|[|i]] x y Hx Hy; cbn in Hx, Hy; try (injection Hx as <-; injection Hy as <-; lra); destruct i; discriminate. }
    intros _ x [<-|[<-|[<-|[]]]]; lra. }
  split; [unfold per_solid_angle, upow, sr, dpow; cbn; f_equal; lra|]. split; [unfold per_solid_angle, upow, deg, dpow; cbn; f_equal; lra|]. split; [|exact I].
  intros v [H'|[]]. discriminate.
Qed.
