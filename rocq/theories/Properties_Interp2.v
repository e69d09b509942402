(** * Properties of pyirf/interpolation: nearest neighbour search, quantile interpolation (C55, C56) *)
From Coq Require Import String Reals List Bool ZArith Permutation Lia Lra.
From Verif Require Import Num Numpy Sort Table Binning SpecBinning Utils SpecSimulations SpecIRF Morph SpecInterp MorphProofs MorphProofs2 Geometry
  GeometryProofs GeometryProofs2 GeometryProofs3 GeometryProofs4 Quantile QuantileProofs QuantileProofs2 QuantileProofs3.
Import ListNotations.
Open Scope R_scope.
Ltac inc := intros [|[|[|[|?]]]] a b Ha Hb; cbn in Ha, Hb; try discriminate; inversion Ha; inversion Hb; subst; lra.

(** ** C55 *)
(** the template of a nearest grid point, the first of them *)
Theorem C55_nearest : forall grid shape rows p target,
  grid <> [] -> (0 < p)%nat -> List.length rows = List.length grid ->
  exists k g r, nth_error grid k = Some g /\ nth_error rows k = Some r /\ nn_interpolate grid (Rows shape rows) p target = Ok (shape, r) /\
    forall j g' d d', nth_error grid j = Some g' -> p_distance p g target d -> p_distance p g' target d' -> d <= d' /\ ((j < k)%nat -> d < d').
Proof. exact c55_nearest. Qed.
Print Assumptions C55_nearest.
Theorem C55_at_grid_point : forall grid shape rows p k g r,
  (0 < p)%nat -> NoDup grid -> (forall x, In x grid -> List.length x = List.length g) ->
  nth_error grid k = Some g -> nth_error rows k = Some r -> nn_interpolate grid (Rows shape rows) p g = Ok (shape, r).
Proof. exact c55_at_grid_point. Qed.
Print Assumptions C55_at_grid_point.
(** a norm_ord that is not a positive integer is rejected (with ValueError, not the documented TypeError) *)
Theorem C55_norm_ord : check_norm_ord PNotNumber = Err ValueError /\
  (forall k, check_norm_ord (PNum (Fin (INR (S k)))) = Ok (Fin (INR (S k)))) /\
  (forall v, (forall k, v <> Fin (INR (S k))) -> check_norm_ord (PNum v) = Err ValueError).
Proof. exact c55_norm_ord. Qed.
Print Assumptions C55_norm_ord.
(** one value per grid point (params of shape (n_points,)): no result *)
Theorem C55_one_dimensional_refuted : forall grid l p target,
  grid <> [] -> nn_interpolate grid (Flat l) p target = Err IndexError.
Proof. exact c55_flat. Qed.
Print Assumptions C55_one_dimensional_refuted.
Example C55_example : p_distance 2 [3; 0] [0; 4] 5 /\ p_distance 1 [3; 0] [0; 4] 7 /\
  nn_interpolate [[0]; [2]; [4]] (Rows [2%nat] [[1; 1]; [2; 3]; [5; 5]]) 1 [2] = Ok ([2%nat], [2; 3]).
Proof.
  split; [|split].
  - unfold p_distance. split; [lra|]. cbn [combine map fst snd]. unfold total. cbn. rewrite !Rabs_right by lra. rewrite Rabs_left by lra. ring.
  - unfold p_distance. split; [lra|]. cbn [combine map fst snd]. unfold total. cbn. rewrite Rabs_right by lra. rewrite Rabs_left by lra. ring.
  - apply c55_at_grid_point with (k := 1%nat); try reflexivity; [lia| |intros x [<-|[<-|[<-|[]]]]; reflexivity].
    repeat constructor; cbn; intros H; repeat destruct H as [H|H]; try (injection H; lra); auto.
Qed.

(** ** C56 *)
(** [weights]: the weights of the grid points chosen by scipy.interpolate.griddata, none outside of the hull *)
Theorem C56_density : forall m edges templates nq weights,
  usable_edges m edges -> (3 <= nq)%nat -> (forall h, In h templates -> histogram_of (List.length edges - 1) h) ->
  (weights = [] \/ mean_weights (List.length templates) weights) ->
  exists out, quantile_interpolate edges templates (nz m) nq weights = Ok out /\ histogram_of (List.length edges - 1)%nat out /\
  (integral_over (measure m) edges out = 1 \/ forall x, In x out -> x = 0) /\
  (weights = [] \/ (exists i c h, In (i, c) weights /\ nth_error templates i = Some h /\ total h = 0) -> forall x, In x out -> x = 0).
Proof. intros; apply c56_density; auto. Qed.
Print Assumptions C56_density.
(** the normalisation of the templates does not matter *)
Theorem C56_scale : forall edges templates ks n nq weights,
  List.length ks = List.length templates -> (forall k, In k ks -> 0 < k) ->
  quantile_interpolate edges (map (fun kh => map (Rmult (fst kh)) (snd kh)) (combine ks templates)) n nq weights = quantile_interpolate edges templates n nq weights.
Proof. exact c56_scale. Qed.
Print Assumptions C56_scale.
Theorem C56_mismatch : forall edges templates n nq weights,
  (exists h, In h templates /\ List.length h <> (List.length edges - 1)%nat) ->
  quantile_interpolate edges templates n nq weights = Err ValueError.
Proof. exact c56_mismatch. Qed.
Print Assumptions C56_mismatch.
(** two filled templates, half way between their grid points: the result is empty *)
Theorem C56_filled_templates_refuted : forall nq,
  (3 <= nq)%nat ->
  quantile_interpolate [0; 1; 2; 3] [[0; 1; 0]; [0; 0; 1]] AREA nq [(0%nat, 1/2); (1%nat, 1/2)] = Ok [0; 0; 0].
Proof. exact c56_empty_refuted. Qed.
Print Assumptions C56_filled_templates_refuted.
(** at a grid point the uniform template [1/3; 1/3] on bins of width 1 and 2 is not returned *)
Theorem C56_at_grid_point_refuted : quantile_interpolate [0; 1; 3] [[1/3; 1/3]] AREA 7 [(0%nat, 1)] = Ok [3/7; 2/7].
Proof. exact c56_grid_refuted. Qed.
Print Assumptions C56_at_grid_point_refuted.
Example C56_example : usable_edges ByWidth [0; 1; 2; 3] /\ mean_weights 2 [(0%nat, 1 / 2); (1%nat, 1 / 2)] /\
  histogram_of 3 [0; 1; 0] /\ histogram_of 3 [0; 0; 1].
Proof.
  split; [split; [inc|split; [cbn; lia|discriminate]]|]. split; [split|].
  - intros i c [E|[E|[]]]; inversion E; subst; split; try lia; lra.
  - unfold total. cbn. lra.
  - split; split; auto; intros x H; repeat destruct H as [<-|H]; try lra; destruct H.
Qed.
