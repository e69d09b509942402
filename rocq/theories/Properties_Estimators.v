(** * Properties of pyirf/interpolation/component_estimators.py (C48, C57-C59).
    scipy's triangulation and linear interpolation are arguments with the contracts of SpecEstimators.v. *)
From Coq Require Import String Reals List Bool ZArith Permutation Lia Lra.
From Verif Require Import Num Numpy Sort Table Binning SpecBinning Utils SpecSimulations SpecIRF Morph SpecInterp Geometry Quantile QuantileProofs2 Estimators SpecEstimators
  EstimatorProofs EstimatorProofs2 EstimatorProofs3 EstimatorProofs4 EstimatorProofs5.
Import ListNotations.
Open Scope R_scope.
Ltac inc := intros [|[|[|[|?]]]] a b Ha Hb; cbn in Ha, Hb; try discriminate; inversion Ha; inversion Hb; subst; lra.

(** ** C48 *)
(** interpolation inside of the hull of the grid points, outside extrapolation with a warning or ValueError *)
Theorem C48_dispatch : forall (T O : Type) inside g d pts (tm : list T) (interp : method T O),
  hull_test d pts inside -> float_grid g d pts -> (1 <= d)%nat -> (d + 1 <= List.length pts)%nat -> List.length tm = List.length pts -> is_interpolator interp = true ->
  exists pts' tm', arranged d pts tm pts' tm' /\
  (forall x extrap, create interp pts' tm' = Err x -> parametrized_init g (Some tm) interp extrap = Err x) /\
  (forall f, create interp pts' tm' = Ok f ->
    (exists est, parametrized_init g (Some tm) interp None = Ok est /\ forall t, List.length t = d ->
       (in_hull d pts t -> estimator_call inside est (TFlat t) = (do o <- f t; Ok (false, o))) /\
       (~ in_hull d pts t -> estimator_call inside est (TFlat t) = Err ValueError)) /\
    (forall e, is_extrapolator e = false -> parametrized_init g (Some tm) interp (Some e) = Err TypeError) /\
    (forall e h, is_extrapolator e = true -> create e pts' tm' = Ok h ->
       exists est, parametrized_init g (Some tm) interp (Some e) = Ok est /\ forall t, List.length t = d ->
         (in_hull d pts t -> estimator_call inside est (TFlat t) = (do o <- f t; Ok (false, o))) /\
         (~ in_hull d pts t -> estimator_call inside est (TFlat t) = (do o <- h t; Ok (true, o))))).
Proof. intros. apply c48_dispatch; auto. Qed.
Print Assumptions C48_dispatch.
(** the estimators of histograms: the same with the edges as further argument *)
Theorem C48_discrete : forall {T O} g edges n_bins (tm : list T) (interp : list R -> method T O) extrap,
  (List.length edges = n_bins + 1)%nat ->
  discrete_init g (Some edges) (Some (n_bins, tm)) interp extrap = parametrized_init g (Some tm) (interp edges) (match extrap with Some e => Some (e edges) | None => None end).
Proof. intros; apply c48_discrete; auto. Qed.
Print Assumptions C48_discrete.
(** not an array of floats: TypeError *)
Theorem C48_grid_type : forall {T O} g edges pdf (tm : option (list T)) (interp : method T O) extrap interp' extrap',
  not_a_float_array g ->
  parametrized_init g tm interp extrap = Err TypeError /\ @discrete_init T O g edges pdf interp' extrap' = Err TypeError.
Proof. intros; apply c48_bad_grid; auto. Qed.
Print Assumptions C48_grid_type.
Theorem C48_few_points : forall {T O} g d pts edges pdf (tm : option (list T)) (interp : method T O) extrap interp' extrap',
  float_grid g d pts -> (List.length pts < d + 1)%nat ->
  parametrized_init g tm interp extrap = Err ValueError /\ @discrete_init T O g edges pdf interp' extrap' = Err ValueError.
Proof. intros; eapply c48_few_points; eauto. Qed.
Print Assumptions C48_few_points.
(** templates that do not match the grid or the edges; a class that is no interpolator *)
Theorem C48_templates : forall {T O} g d pts (interp : method T O) extrap interp' extrap',
  float_grid g d pts -> (d + 1 <= List.length pts)%nat ->
  parametrized_init g None interp extrap = Err TypeError /\
  (forall edges, @discrete_init T O g edges None interp' extrap' = Err TypeError) /\
  (forall tm, List.length tm <> List.length pts -> parametrized_init g (Some tm) interp extrap = Err ValueError /\
     forall edges n_bins, discrete_init g edges (Some (n_bins, tm)) interp' extrap' = Err ValueError) /\
  (forall tm n_bins, List.length tm = List.length pts -> discrete_init g None (Some (n_bins, tm)) interp' extrap' = Err TypeError /\
     forall edges, (List.length edges <> n_bins + 1)%nat -> discrete_init g (Some edges) (Some (n_bins, tm)) interp' extrap' = Err ValueError) /\
  (forall tm, List.length tm = List.length pts -> is_interpolator interp = false -> parametrized_init g (Some tm) interp extrap = Err TypeError).
Proof. intros; eapply c48_templates; eauto. Qed.
Print Assumptions C48_templates.
Theorem C48_target : forall {O} inside (est : estimator O),
  estimator_call inside est TNotArray = Err TypeError /\
  (forall t, estimator_call inside est (TRows [t]) = estimator_call inside est (TFlat t)) /\
  (forall l, List.length l <> 1%nat -> estimator_call inside est (TRows l) = Err ValueError) /\
  (forall t, List.length t <> grid_dim est -> estimator_call inside est (TFlat t) = Err ValueError).
Proof. intros; apply c48_target. Qed.
Print Assumptions C48_target.
(** one dimension: the order of the grid points does not matter *)
Theorem C48_order : forall {T O} g g' pts pts' (tm tm' : list T) (interp : method T O) extrap,
  float_grid g 1 pts -> float_grid g' 1 pts' -> (2 <= List.length pts)%nat ->
  List.length tm = List.length pts -> List.length tm' = List.length pts' -> NoDup pts -> Permutation (combine pts tm) (combine pts' tm') ->
  parametrized_init g (Some tm) interp extrap = parametrized_init g' (Some tm') interp extrap.
Proof. intros; eapply c48_order; eauto. Qed.
Print Assumptions C48_order.
(** a grid with one and one with two dimensions *)
Example C48_example : float_grid (G1 [2; 0; 1]) 1 [[2]; [0]; [1]] /\ hull_test 1 [[2]; [0]; [1]] (fun _ _ => false) /\
  in_hull 1 [[2]; [0]; [1]] [1/2] /\ ~ in_hull 1 [[2]; [0]; [1]] [3] /\
  float_grid (G2 2 triangle) 2 triangle /\ hull_test 2 triangle inside_triangle /\ in_hull 2 triangle [1/4; 1/4] /\ ~ in_hull 2 triangle [1; 1] /\
  is_interpolator (griddata_method choose_1D 1) = true /\ is_extrapolator (nearest_method 2) = true /\ is_extrapolator (griddata_method choose_1D 1) = false.
Proof.
  assert (D : of_dimension 1 [[2]; [0]; [1]]) by (intros p [<-|[<-|[<-|[]]]]; auto).
  split; [left; eauto|]. split; [intros H; lia|]. split; [|split; [|split; [|split; [|split; [|split; [|auto]]]]]].
  - apply hull_1d; auto. exists [0], [1]. cbn. repeat split; auto; lra.
  - intros H. apply hull_1d in H; auto. destruct H as (p & q & _ & Hq & _ & H). destruct Hq as [<-|[<-|[<-|[]]]]; cbn in H; lra.
  - right. split; auto. intros p [<-|[<-|[<-|[]]]]; auto.
  - apply triangle_test.
  - apply triangle_hull; auto. cbn. lra.
  - intros H. apply triangle_hull in H; auto. cbn in H. lra.
Qed.

(** ** C57 *)
(** inside of the grid, linear interpolation of the logarithms: between the areas of the templates, not below the minimum, at a grid point the template *)
Theorem C57_inside : forall inside choose g d n pts areas mn extrap est,
  hull_test d pts inside -> served d pts choose -> float_grid g d pts -> (1 <= d)%nat -> (d + 1 <= List.length pts)%nat -> NoDup pts ->
  List.length areas = List.length pts -> tables n areas -> 0 < mn ->
  aeff_init g areas mn (griddata_method choose n) extrap = Ok est ->
  forall t,
  List.length t = d -> in_hull d pts t -> exists out, aeff_call inside est mn (TFlat t) = Ok (false, out) /\ List.length out = n /\
  forall j v, nth_error out j = Some v ->
    mn <= v /\
    (forall lo, (forall i, (i < List.length pts)%nat -> lo <= Rmax mn (entry areas i j)) -> lo <= v) /\
    (forall hi, (forall i, (i < List.length pts)%nat -> Rmax mn (entry areas i j) <= hi) -> v <= hi) /\
    (forall k, nth_error pts k = Some t -> v = Rmax mn (entry areas k j)).
Proof. exact c57_inside. Qed.
Print Assumptions C57_inside.
(** any target, any classes: 0 or not below the minimum *)
Theorem C57_any_interpolator : forall inside est mn t b out,
  0 < mn -> aeff_call inside est mn t = Ok (b, out) -> forall v, In v out -> v = 0 \/ mn <= v.
Proof. exact c57_any. Qed.
Print Assumptions C57_any_interpolator.
(** documented: areas below the minimum give 0.  The minimum is returned *)
Theorem C57_small_areas_refuted : forall inside choose g d n pts areas mn extrap est,
  hull_test d pts inside -> served d pts choose -> float_grid g d pts -> (1 <= d)%nat -> (d + 1 <= List.length pts)%nat -> NoDup pts ->
  List.length areas = List.length pts -> tables n areas -> 0 < mn ->
  aeff_init g areas mn (griddata_method choose n) extrap = Ok est ->
  forall t,
  List.length t = d -> in_hull d pts t -> exists out, aeff_call inside est mn (TFlat t) = Ok (false, out) /\
  forall j v, nth_error out j = Some v -> (forall i, (i < List.length pts)%nat -> entry areas i j <= mn) -> v = mn.
Proof. exact c57_small. Qed.
Print Assumptions C57_small_areas_refuted.
(** the array of the caller is changed if it is in m2 and has an entry below the minimum *)
Theorem C57_caller_refuted : forall mn areas,
  caller_areas false mn areas = areas /\
  ((exists r a, In r areas /\ In a r /\ a < mn) -> caller_areas true mn areas <> areas) /\
  ((forall r a, In r areas -> In a r -> mn <= a) -> caller_areas true mn areas = areas).
Proof. exact c57_caller. Qed.
Print Assumptions C57_caller_refuted.
Example C57_example : exists est, hull_test 1 [[0]; [1]] (fun _ _ => false) /\ served 1 [[0]; [1]] choose_1D /\ float_grid (G1 [0; 1]) 1 [[0]; [1]] /\ NoDup [[0]; [1]] /\
  tables 2 [[5; 0]; [7; 8]] /\ aeff_init (G1 [0; 1]) [[5; 0]; [7; 8]] 1 (griddata_method choose_1D 2) None = Ok est /\ in_hull 1 [[0]; [1]] [1/3] /\
  served 2 triangle choose_triangle.
Proof.
  assert (D : of_dimension 1 [[0]; [1]]) by (intros p [<-|[<-|[]]]; auto).
  assert (S1 : forall T (a b : T), sort_points 1 [[0]; [1]] [a; b] = [([0], a); ([1], b)]) by (intros; unfold sort_points; cbn; rsolve; auto).
  eexists. split; [intros H; lia|]. split; [split; [intros _ pts' P I; apply choose_1D_ok; auto|lia]|].
  - intros p Hp. apply D. eapply Permutation_in; [symmetry; eauto|auto].
  - apply Permutation_length in P. cbn in P. lia.
  - split; [left; eauto|]. split; [repeat constructor; cbn; intros H; repeat destruct H as [H|H]; try (injection H; lra); auto|]. split; [intros r [<-|[<-|[]]]; auto|]. split; [|split; [|apply triangle_served]].
    + unfold aeff_init, parametrized_init, make_methods. cbn [base_init rbind fst snd map List.length Nat.ltb Nat.leb Nat.add Nat.eqb griddata_method is_interpolator create]. rewrite S1. reflexivity.
    + apply hull_1d; auto. exists [0], [1]. cbn. repeat split; auto; lra.
Qed.

(** ** C58 *)
(** [est] is the estimator without fill value, [raw] its result; the grid points are in increasing order *)
Theorem C58_one_dimension : forall inside g d pts rm n fa f interp extrap est E,
  float_grid g d pts -> (d + 1 <= List.length pts)%nat -> List.length rm = List.length pts -> tables n rm -> fill_used fa rm f -> 0 < f ->
  rad_max_init g rm fa interp extrap = Ok E -> parametrized_init g (Some rm) interp extrap = Ok est ->
  forall tri find tgt x k w raw,
  d = 1%nat -> in_order pts -> one_target tgt [x] -> left_neighbour (map (fun p => nth 0 p 0) pts) x k ->
  is_nearest interp = false -> ((forall e, extrap = Some e -> is_nearest e = false) \/ in_hull 1 pts [x]) ->
  estimator_call inside est tgt = Ok (w, raw) -> List.length raw = n ->
  exists out, rad_max_call inside tri find true E tgt = Ok (w, out) /\ List.length out = n /\
    forall j v, nth_error out j = Some v -> fill_rule_1 f (entry rm k j) (entry rm (S k) j) (Rmax 0 (nth j raw 0)) v /\ 0 <= v <= f.
Proof. exact c58_1D. Qed.
Print Assumptions C58_one_dimension.
(** [find]: scipy's find_simplex; [s]: the simplex of the target, outside of the grid the nearest one *)
Theorem C58_two_dimensions : forall inside g d pts rm n fa f interp extrap est E,
  float_grid g d pts -> (d + 1 <= List.length pts)%nat -> List.length rm = List.length pts -> tables n rm -> fill_used fa rm f -> 0 < f ->
  rad_max_init g rm fa interp extrap = Ok E -> parametrized_init g (Some rm) interp extrap = Ok est ->
  forall tri find tgt t s p q r w raw,
  d = 2%nat -> (forall row v, In row rm -> In v row -> 0 <= v) -> one_target tgt t -> List.length t = 2%nat ->
  (find t = Some s \/ (find t = None /\ tgt = TFlat t /\ find_nearest_simplex tri (nth 0 t 0, nth 1 t 0) = Ok s /\ (forall e, extrap = Some e -> is_nearest e = false))) ->
  nth_error (simplices tri) s = Some (p, q, r) -> (p < List.length pts)%nat -> (q < List.length pts)%nat -> (r < List.length pts)%nat ->
  is_nearest interp = false -> estimator_call inside est tgt = Ok (w, raw) -> List.length raw = n ->
  exists out, rad_max_call inside tri find true E tgt = Ok (w, out) /\ List.length out = n /\
    forall j v, nth_error out j = Some v -> fill_rule_2 f (entry rm p j) (entry rm q j) (entry rm r j) (Rmax 0 (nth j raw 0)) v /\ 0 <= v <= f.
Proof. exact c58_2D. Qed.
Print Assumptions C58_two_dimensions.
Theorem C58_nearest : forall inside g d pts rm fa f interp extrap est E,
  float_grid g d pts -> (d + 1 <= List.length pts)%nat -> List.length rm = List.length pts -> fill_used fa rm f -> 0 < f ->
  rad_max_init g rm fa interp extrap = Ok E -> parametrized_init g (Some rm) interp extrap = Ok est ->
  forall tri find two tgt t w raw,
  (d = 1 \/ d = 2)%nat -> one_target tgt t -> List.length t = d -> is_nearest interp = true ->
  estimator_call inside est tgt = Ok (w, raw) -> rad_max_call inside tri find two E tgt = Ok (w, map (Rmax 0) raw).
Proof. intros; eapply c58_nearest; eauto. Qed.
Print Assumptions C58_nearest.
(** no fill value: the estimate, negative values replaced by 0; the same with a fill value of 0 *)
Theorem C58_no_fill : forall inside g rm fa interp extrap est E tri find two tgt w raw,
  parametrized_init g (Some rm) interp extrap = Ok est ->
  rad_max_init g rm fa interp extrap = Ok E -> fa = FillNone \/ fill_used fa rm 0 ->
  estimator_call inside est tgt = Ok (w, raw) -> rad_max_call inside tri find two E tgt = Ok (w, map (Rmax 0) raw).
Proof. exact c58_no_fill. Qed.
Print Assumptions C58_no_fill.
Theorem C58_dimensions : forall g d pts rm fa f interp extrap est,
  float_grid g d pts -> (d + 1 <= List.length pts)%nat -> List.length rm = List.length pts -> fill_used fa rm f -> 0 < f -> (3 <= d)%nat ->
  parametrized_init g (Some rm) interp extrap = Ok est -> rad_max_init g rm fa interp extrap = Err ValueError.
Proof. exact c58_dims. Qed.
Print Assumptions C58_dimensions.
(** at the largest grid point: IndexError *)
Theorem C58_last_point_refuted : forall inside g pts rm fa f interp extrap est E tri find two tgt x w raw,
  float_grid g 1 pts -> (2 <= List.length pts)%nat -> List.length rm = List.length pts -> fill_used fa rm f -> 0 < f ->
  rad_max_init g rm fa interp extrap = Ok E -> parametrized_init g (Some rm) interp extrap = Ok est -> NoDup pts -> is_nearest interp = false ->
  one_target tgt [x] -> In [x] pts -> (forall y, In y pts -> nth 0 y 0 <= x) -> estimator_call inside est tgt = Ok (w, raw) ->
  rad_max_call inside tri find two E tgt = Err IndexError.
Proof. exact c58_last_point. Qed.
Print Assumptions C58_last_point_refuted.
(** outside of a two-dimensional grid, target of the documented shape (1, 2): ValueError *)
Theorem C58_row_target_refuted : forall inside g pts rm fa f interp extrap est E tri find two t w raw,
  float_grid g 2 pts -> (3 <= List.length pts)%nat -> List.length rm = List.length pts -> fill_used fa rm f -> 0 < f ->
  rad_max_init g rm fa interp extrap = Ok E -> parametrized_init g (Some rm) interp extrap = Ok est -> is_nearest interp = false -> (forall e, extrap = Some e -> is_nearest e = false) ->
  List.length t = 2%nat -> find t = None -> estimator_call inside est (TRows [t]) = Ok (w, raw) ->
  rad_max_call inside tri find two E (TRows [t]) = Err ValueError.
Proof. exact c58_row_target. Qed.
Print Assumptions C58_row_target_refuted.
(** the same tables in another order: 3 instead of 1 *)
Theorem C58_order_refuted : forall tri find inside,
  exists E E', rad_max_init (G1 [0; 2; 1]) [[1]; [3]; [1]] (FillValue 3) (griddata_method choose_1D 1) None = Ok E /\
    rad_max_init (G1 [0; 1; 2]) [[1]; [1]; [3]] (FillValue 3) (griddata_method choose_1D 1) None = Ok E' /\
    rad_max_call inside tri find true E (TFlat [1/2]) = Ok (false, [3]) /\
    rad_max_call inside tri find true E' (TFlat [1/2]) = Ok (false, [1]).
Proof. exact rm_order_witness. Qed.
Print Assumptions C58_order_refuted.
(** fill value 2 (the largest entry), result 4 *)
Theorem C58_fill_exceeded_refuted : forall tri find inside,
  exists E, rad_max_init (G1 [0; 1]) [[1]; [2]] FillInfer (nearest_method 2) (Some (simplex_method_1D 1)) = Ok E /\
    exists v, rad_max_call inside tri find true E (TFlat [3]) = Ok (true, [v]) /\ v = 4.
Proof. exact rm_mixed_witness. Qed.
Print Assumptions C58_fill_exceeded_refuted.
Example C58_example : exists E est, float_grid (G1 [0; 1]) 1 [[0]; [1]] /\ tables 2 [[1; 3]; [2; 1]] /\ fill_used FillInfer [[1; 3]; [2; 1]] 3 /\
  rad_max_init (G1 [0; 1]) [[1; 3]; [2; 1]] FillInfer (griddata_method choose_1D 2) None = Ok E /\
  parametrized_init (G1 [0; 1]) (Some [[1; 3]; [2; 1]]) (griddata_method choose_1D 2) None = Ok est /\ in_order [[0]; [1]] /\ left_neighbour [0; 1] (1/4) 0.
Proof.
  assert (S1 : sort_points 1 [[0]; [1]] [[1; 3]; [2; 1]] = [([0], [1; 3]); ([1], [2; 1])]) by (unfold sort_points; cbn; rsolve; auto).
  assert (F : fill_used FillInfer [[1; 3]; [2; 1]] 3).
  { right. split; auto. split; [exists [1; 3]; cbn; auto|]. intros r v [<-|[<-|[]]] H; repeat destruct H as [<-|H]; try lra; destruct H. }
  eexists. eexists. split; [left; eauto|]. split; [intros r [<-|[<-|[]]]; auto|]. split; [auto|]. split; [|split; [|split]].
  - unfold rad_max_init, parametrized_init, make_methods. cbn [base_init rbind fst snd map List.length Nat.ltb Nat.leb Nat.add Nat.eqb griddata_method is_interpolator create]. rewrite S1.
    cbn [map fst snd rbind grid_dim]. rewrite (fill_active FillInfer [[1; 3]; [2; 1]] 3 F ltac:(lra) : active_fill (Some (list_max (concat [[1; 3]; [2; 1]]))) = Some 3). reflexivity.
  - unfold parametrized_init, make_methods. cbn [base_init rbind fst snd map List.length Nat.ltb Nat.leb Nat.add Nat.eqb griddata_method is_interpolator create]. rewrite S1. reflexivity.
  - unfold in_order. cbn. inc.
  - right. right. exists 0, 1. cbn. repeat split; auto; lra.
Qed.
Example C58_example_two_dimensions : exists E est w raw, float_grid (G2 2 triangle) 2 triangle /\ tables 1 [[1]; [2]; [3]] /\ fill_used (FillValue 3) [[1]; [2]; [3]] 3 /\
  rad_max_init (G2 2 triangle) [[1]; [2]; [3]] (FillValue 3) (griddata_method choose_triangle 1) None = Ok E /\
  parametrized_init (G2 2 triangle) (Some [[1]; [2]; [3]]) (griddata_method choose_triangle 1) None = Ok est /\
  estimator_call inside_triangle est (TFlat [1/4; 1/4]) = Ok (w, raw) /\ List.length raw = 1%nat /\
  nth_error (simplices (mkTri [(0, 0); (1, 0); (0, 1)] [(0, 1, 2)%nat] [(0, 1)%nat; (1, 2)%nat; (2, 0)%nat])) 0 = Some (0, 1, 2)%nat.
Proof.
  assert (F : fill_used (FillValue 3) [[1]; [2]; [3]] 3) by (left; auto).
  eexists. eexists. exists false. eexists. split; [right; split; auto; intros p [<-|[<-|[<-|[]]]]; auto|]. split; [intros r [<-|[<-|[<-|[]]]]; auto|]. split; [auto|]. split; [|split; [reflexivity|split]].
  - unfold rad_max_init, parametrized_init, make_methods. cbn [base_init rbind fst snd map List.length Nat.ltb Nat.leb Nat.add Nat.eqb griddata_method is_interpolator create sort_points triangle combine grid_dim].
    rewrite (fill_active _ _ 3 F ltac:(lra) : active_fill (Some 3) = Some 3). reflexivity.
  - unfold estimator_call, check_target. cbn [grid_dim grid interpolator rbind List.length Nat.eqb fst snd]. unfold target_in_grid, inside_triangle. cbn [Nat.eqb nth]. rsolve. reflexivity.
  - split; reflexivity.
Qed.

(** ** C59 *)
(** the histogram of the result along the axis is the interpolation of the histograms of the grid points along this axis at the same indices ([slice]: e.g. C56) *)
Theorem C59_layout : forall slice axis k a,
  (2 <= List.length (ashape a))%nat -> axis_at (List.length (ashape a)) axis k -> (1 <= k)%nat ->
  (forall hs, List.length hs = hd 0%nat (ashape a) -> tables (nth k (ashape a) 0%nat) hs -> List.length (slice hs) = nth k (ashape a) 0%nat) ->
  exists out, along_axis (interpolate_slices slice) axis a = Ok out /\ ashape out = 1%nat :: tl (ashape a) /\
  forall ix, index_of (ashape out) ix -> histogram_along out k ix 0 = slice (map (histogram_along a k ix) (seq 0 (hd 0%nat (ashape a)))).
Proof. exact c59_histogram. Qed.
Print Assumptions C59_layout.
(** the same for the entries, for any [slice] *)
Theorem C59_entries : forall slice axis k a,
  (2 <= List.length (ashape a))%nat -> axis_at (List.length (ashape a)) axis k -> (1 <= k)%nat ->
  exists out, along_axis (interpolate_slices slice) axis a = Ok out /\ ashape out = 1%nat :: tl (ashape a) /\
  forall ix, index_of (ashape out) ix -> aat out ix = nth (nth k ix 0%nat) (slice (map (histogram_along a k ix) (seq 0 (hd 0%nat (ashape a))))) 0.
Proof. exact c59_layout. Qed.
Print Assumptions C59_entries.
Theorem C59_kwargs : forall d,
  used_normalization (psf_kwargs None) = CONE_SOLID_ANGLE /\
  (kwget "normalization" d = None -> used_normalization (psf_kwargs (Some d)) = CONE_SOLID_ANGLE) /\
  (forall v, kwget "normalization" d = Some v -> psf_kwargs (Some d) = d) /\
  (forall k, k <> "normalization"%string -> kwget k (psf_kwargs (Some d)) = kwget k d).
Proof. exact c59_kwargs. Qed.
Print Assumptions C59_kwargs.
(** quantile interpolation and moment morphing take the keyword arguments *)
Theorem C59_classes : forall d,
  (accepts quantile_parameters d = Ok d -> accepts quantile_parameters (psf_kwargs (Some d)) = Ok (psf_kwargs (Some d))) /\
  (accepts morph_parameters d = Ok d -> accepts morph_parameters (psf_kwargs (Some d)) = Ok (psf_kwargs (Some d))).
Proof. exact c59_classes. Qed.
Print Assumptions C59_classes.
(** a nearest neighbour searcher in PSFTableEstimator: TypeError for every keyword arguments *)
Theorem C59_nearest_refuted : forall d,
  accepts nearest_parameters (psf_kwargs d) = Err TypeError.
Proof. exact c59_nearest. Qed.
Print Assumptions C59_nearest_refuted.
(** the dict of the caller is changed; used again for an EnergyDispersionEstimator it selects another normalisation *)
Theorem C59_shared_kwargs_refuted : forall d,
  kwget "normalization" d = None -> psf_kwargs (Some d) <> d /\ used_normalization d = AREA /\ used_normalization (psf_kwargs (Some d)) = CONE_SOLID_ANGLE.
Proof. exact c59_shared. Qed.
Print Assumptions C59_shared_kwargs_refuted.
(** a nearest neighbour searcher with a positive axis: the axes of the result are in another order *)
Theorem C59_nearest_axis_refuted : exists a p axis out, axis_at (List.length (ashape a)) axis 1 /\ along_axis (nearest_slice p) axis a = Ok out /\
  ashape a = [2; 3; 4]%nat /\ ashape out <> [3; 4]%nat /\
  exists out', along_axis (nearest_slice p) (-2)%Z a = Ok out' /\ ashape out' = [3; 4]%nat.
Proof.
  exists (mkA [2; 3; 4]%nat (fun _ => 0)), 0%nat, 1%Z. eexists. split; [split; [cbn; lia|auto]|]. split; [reflexivity|]. split; [reflexivity|]. split; [discriminate|].
  eexists. split; reflexivity.
Qed.
Print Assumptions C59_nearest_axis_refuted.
Example C59_example : axis_at 3 (-2) 1 /\ index_of [1; 3; 4]%nat [0; 2; 1]%nat /\
  histogram_along (mkA [2; 3; 4]%nat (fun ix => INR (nth 1 ix 0%nat))) 1 [0; 2; 1]%nat 1 = [0; 1; 1 + 1].
Proof. split; [split; [lia|right; reflexivity]|]. split; [repeat constructor|]. reflexivity. Qed.
