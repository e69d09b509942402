(** * C89: the unit and the origin of the grid coordinates do not matter *)
From Coq Require Import String Reals List Bool ZArith Arith Lia Lra Permutation.
From Verif Require Import Num Numpy Morph Geometry Quantile Tensor Quantities Estimators PDFEstimators GridMethods
  SpecIRF SpecInterp SpecEstimators SpecMoved MovedProofs MovedProofs2 MovedProofs3 MovedProofs4 EstimatorProofs5 MovedWitness.
Import ListNotations.
Open Scope R_scope.

(** an estimator of parametrised components (any shape [O] of results), made and called in other coordinates: the same
    answer, warning or exception *)
Theorem C89_parametrized : forall s v d pts g inside T O (params : option (list T)) (m : method T O) e tgt,
  0 < s -> (1 <= d)%nat -> float_grid g d pts -> hull_test d pts inside -> hull_test d (map (moved s v) pts) inside ->
  indifferent s v d pts m -> indifferent_option s v d pts e ->
  (do est <- parametrized_init (moved_grid s v g) params m e; estimator_call inside est (moved_target s v tgt)) =
  (do est <- parametrized_init g params m e; estimator_call inside est tgt).
Proof. intros. eapply c89_parametrized; eauto. Qed.
Print Assumptions C89_parametrized.
Theorem C89_effective_area : forall s v d pts g inside areas min_area m e tgt,
  0 < s -> (1 <= d)%nat -> float_grid g d pts -> hull_test d pts inside -> hull_test d (map (moved s v) pts) inside ->
  indifferent s v d pts m -> indifferent_option s v d pts e ->
  (do est <- aeff_init (moved_grid s v g) areas min_area m e; aeff_call inside est min_area (moved_target s v tgt)) =
  (do est <- aeff_init g areas min_area m e; aeff_call inside est min_area tgt).
Proof. intros. eapply c89_effective_area; eauto. Qed.
Print Assumptions C89_effective_area.
(** [find], [find']: the simplex found by scipy in the two coordinates *)
Theorem C89_rad_max : forall s v d pts g inside rad_max fill m e two_axes tri (find find' : list R -> option nat) tgt,
  0 < s -> (1 <= d)%nat -> float_grid g d pts -> hull_test d pts inside -> hull_test d (map (moved s v) pts) inside ->
  indifferent s v d pts m -> indifferent_option s v d pts e ->
  (d = 2%nat -> good_mesh (points tri) (simplices tri) (hull tri)) ->
  (forall t, List.length t = d -> find' (moved s v t) = find t) ->
  (do est <- rad_max_init (moved_grid s v g) rad_max fill m e;
   rad_max_call inside (moved_triangulation s v tri) find' two_axes est (moved_target s v tgt)) =
  (do est <- rad_max_init g rad_max fill m e; rad_max_call inside tri find two_axes est tgt).
Proof. intros. eapply c89_rad_max; eauto. Qed.
Print Assumptions C89_rad_max.
Theorem C89_energy_dispersion : forall s v d pts g inside edges pdf m e axis tgt,
  0 < s -> (1 <= d)%nat -> float_grid g d pts -> hull_test d pts inside -> hull_test d (map (moved s v) pts) inside ->
  (forall k edges, indifferent s v d pts (m k edges)) -> (forall e' k edges, e = Some e' -> indifferent s v d pts (e' k edges)) ->
  (do est <- edisp_init (moved_grid s v g) edges pdf m e axis; pdf_call inside est (moved_target s v tgt)) =
  (do est <- edisp_init g edges pdf m e axis; pdf_call inside est tgt).
Proof. intros. eapply c89_pdf; eauto. Qed.
Print Assumptions C89_energy_dispersion.
Theorem C89_psf : forall s v d pts g inside edges edges_unit pdf pdf_unit ik m ek e axis tgt,
  0 < s -> (1 <= d)%nat -> float_grid g d pts -> hull_test d pts inside -> hull_test d (map (moved s v) pts) inside ->
  (forall n k edges, indifferent s v d pts (m n k edges)) -> (forall e' n k edges, e = Some e' -> indifferent s v d pts (e' n k edges)) ->
  (do est <- psf_init (moved_grid s v g) edges edges_unit pdf pdf_unit ik m ek e axis; pdf_call inside est (moved_target s v tgt)) =
  (do est <- psf_init g edges edges_unit pdf pdf_unit ik m ek e axis; pdf_call inside est tgt).
Proof. intros. eapply c89_psf; eauto. Qed.
Print Assumptions C89_psf.
(** the classes of pyirf on one-dimensional grids (nothing is assumed of scipy's triangulations, which are not used) *)
Theorem C89_classes_1d : forall s v pts, 0 < s -> of_dimension 1 pts -> pts <> [] ->
  (forall k edges, (0 < k)%nat -> indifferent s v 1 pts (nearest_method k) /\ indifferent s v 1 pts (nearest_pdf_method k edges)) /\
  (forall n, indifferent s v 1 pts (griddata_method choose_1D n)) /\
  (forall nq k n edges, indifferent s v 1 pts (quantile_method choose_1D nq k n edges)) /\
  (forall find u k n edges, indifferent s v 1 pts (morph_method find u k n edges)) /\
  (forall tri n, indifferent s v 1 pts (simplex_method tri n)) /\
  (forall tri full n pshape m, indifferent s v 1 pts (visible_method tri full n pshape m)) /\
  (forall tri u k n edges, indifferent s v 1 pts (morph_extrapolator tri u k n edges)).
Proof.
  intros s v pts Hs H N. split; [split|split; [|split; [|split; [|split; [|split]]]]]; intros.
  - apply nearest_indifferent; auto.
  - apply nearest_pdf_indifferent; auto.
  - apply griddata_indifferent, linear_choice; auto.
  - apply quantile_indifferent, linear_choice; auto.
  - apply morph_indifferent_1; auto.
  - apply simplex_indifferent_1; auto.
  - apply visible_indifferent_1; auto.
  - apply morph_extrapolator_indifferent_1; auto.
Qed.
Print Assumptions C89_classes_1d.
(** the classes on two-dimensional grids, if scipy finds the same triangles and weights in both coordinates *)
Theorem C89_classes_2d : forall s v pts choose find tri full, 0 < s -> of_dimension 2 pts -> pts <> [] ->
  same_choice s v 2 pts choose -> same_choice s v 2 pts find -> same_mesh s v pts tri -> same_view s v pts full ->
  (forall n, indifferent s v 2 pts (griddata_method choose n)) /\
  (forall nq k n edges, indifferent s v 2 pts (quantile_method choose nq k n edges)) /\
  (forall u k n edges, indifferent s v 2 pts (morph_method find u k n edges)) /\
  (forall n, indifferent s v 2 pts (simplex_method tri n)) /\
  (forall n pshape m, indifferent s v 2 pts (visible_method tri full n pshape m)) /\
  (forall u k n edges, indifferent s v 2 pts (morph_extrapolator tri u k n edges)).
Proof.
  intros s v pts choose find tri full Hs H N Hc Hf Ht Hv.
  assert (C : forall pts', passed 2 pts pts' -> same_choice s v 2 pts' choose) by (intros pts' P; rewrite (passed_2 pts pts'); auto).
  split; [|split; [|split; [|split; [|split]]]]; intros.
  - apply griddata_indifferent; auto.
  - apply quantile_indifferent; auto.
  - apply morph_indifferent_2; auto.
  - apply simplex_indifferent_2; auto.
  - apply visible_indifferent_2; auto.
  - apply morph_extrapolator_indifferent_2; auto.
Qed.
Print Assumptions C89_classes_2d.
(** nearest neighbour searchers, any dimension *)
Theorem C89_nearest : forall s v d pts k edges, 0 < s -> of_dimension d pts -> (0 < k)%nat ->
  indifferent s v d pts (nearest_method k) /\ indifferent s v d pts (nearest_pdf_method k edges).
Proof. intros. split; [apply nearest_indifferent|apply nearest_pdf_indifferent]; auto. Qed.
Print Assumptions C89_nearest.
(** the unit of one axis alone does matter: another point can become the nearest *)
Theorem C89_one_axis_refuted : exists f f', let pts := [[0; 0]; [1; 1/2]] in
  create (nearest_method 1) pts [[7]; [8]] = Ok f /\ create (nearest_method 1) (map (fun p => [nth 0 p 0; 10 * nth 1 p 0]) pts) [[7]; [8]] = Ok f' /\
  f [1; 0] = Ok [8] /\ f' [1; 10 * 0] = Ok [7].
Proof. exact one_axis. Qed.
Print Assumptions C89_one_axis_refuted.
(** one triangle, in minutes of arc instead of degrees and shifted: all hypotheses hold; so the extrapolation is the same *)
Example C89_example : of_dimension 2 triangle /\ float_grid (G2 2 triangle) 2 triangle /\ hull_test 2 triangle inside3 /\
  hull_test 2 (map (moved 60 shift3) triangle) inside3 /\ same_mesh 60 shift3 triangle tri3 /\ same_view 60 shift3 triangle full3 /\
  same_choice 60 shift3 2 triangle find3 /\ same_choice 60 shift3 2 triangle (fun _ _ => [(0%nat, 1)]) /\
  moved 60 shift3 [1; 1/2] = [65; 29] /\ indifferent 60 shift3 2 triangle (visible_method tri3 full3 1 [1%nat] 2).
Proof.
  destruct witness_2d as (H1 & H2 & H3 & H4 & H5 & H6 & H7).
  split; [auto|]. split; [auto|]. split; [auto|]. split; [auto|]. split; [auto|]. split; [auto|]. split; [auto|]. split; [intros t L; auto|]. split.
  - unfold moved. cbn. f_equal; [lra|f_equal; lra].
  - apply visible_indifferent_2; auto; [lra|discriminate].
Qed.
