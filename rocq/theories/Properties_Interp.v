(** * Properties of pyirf/interpolation: weights, moment morphing, simplex extrapolation (C49-C54).
    [nz ByWidth] = AREA, [nz BySolidAngle] = CONE_SOLID_ANGLE (MorphProofs.v). *)
From Coq Require Import String Reals List Bool ZArith Permutation Lia Lra.
From Verif Require Import Num Numpy Sort Table Binning SpecBinning Utils SpecSimulations SpecIRF Morph SpecInterp MorphProofs MorphProofs2 Geometry
  GeometryProofs GeometryProofs2 GeometryProofs3 GeometryProofs4.
Import ListNotations.
Open Scope R_scope.
Ltac inc := intros [|[|[|[|?]]]] a b Ha Hb; cbn in Ha, Hb; try discriminate; inversion Ha; inversion Hb; subst; lra.

(** ** C49 *)
Theorem C49_weights : forall g0 g1 t,
  g0 <> g1 ->
  linesegment_1D_interpolation_coefficients g0 g1 t = Ok [(g1 - t) / (g1 - g0); (t - g0) / (g1 - g0)].
Proof. exact c49_weights. Qed.
Print Assumptions C49_weights.
(** sum 1, reproduce the target, unit vectors at the grid points, >= 0 exactly between the grid points *)
Theorem C49_sum : forall g0 g1 t c,
  linesegment_1D_interpolation_coefficients g0 g1 t = Ok c ->
  total c = 1 /\ weighted c [g0; g1] = t /\ (t = g0 -> unit_weights 0 c) /\ (t = g1 -> unit_weights 1 c) /\
  ((forall x, In x c -> 0 <= x) <-> Rmin g0 g1 <= t <= Rmax g0 g1).
Proof. exact c49_sum. Qed.
Print Assumptions C49_sum.
Theorem C49_equal_points : forall g t,
  linesegment_1D_interpolation_coefficients g g t = Err LinAlgError.
Proof. exact c49_degenerate. Qed.
Print Assumptions C49_equal_points.
(** between two neighbours of the grid the templates of these are morphed with the weights above *)
Theorem C49_segment : forall grid edges templates n t k a b ta tb,
  increasing grid ->
  nth_error grid k = Some a -> nth_error grid (S k) = Some b -> nth_error templates k = Some ta -> nth_error templates (S k) = Some tb ->
  a <= t < b ->
  interpolate1D grid edges templates n t = moment_morph_slice edges [ta; tb] [(b - t) / (b - a); (t - a) / (b - a)] n.
Proof. exact c49_segment. Qed.
Print Assumptions C49_segment.
(** a target equal to the largest grid point is inside the grid, but: IndexError *)
Theorem C49_largest_grid_point_refuted : forall grid edges templates n t b,
  increasing grid -> nth_error grid (List.length grid - 1) = Some b -> b <= t ->
  interpolate1D grid edges templates n t = Err IndexError.
Proof. exact c49_last. Qed.
Print Assumptions C49_largest_grid_point_refuted.
(** the order in which the grid points are given does not matter *)
Theorem C49_order : forall grid grid' edges tm tm' n t,
  List.length grid = List.length tm -> NoDup grid -> Permutation (combine grid tm) (combine grid' tm') ->
  morph_estimate_1D grid edges tm n t = morph_estimate_1D grid' edges tm' n t.
Proof. exact c49_order. Qed.
Print Assumptions C49_order.
Example C49_example : increasing [1; 2; 4] /\ linesegment_1D_interpolation_coefficients 2 4 3 = Ok [1 / 2; 1 / 2] /\
  Permutation (combine [2; 1; 4] [[1]; [2]; [3]]) (combine [1; 2; 4] [[2]; [1]; [3]]).
Proof. split; [inc|]. split; [rewrite c49_weights by lra; do 2 f_equal; [|f_equal]; field|]. cbn. apply perm_swap. Qed.

(** ** C50 *)
Theorem C50_weights : forall p1 p2 p3 t c,
  (fst p1 - fst p3) * (snd p2 - snd p3) <> (fst p2 - fst p3) * (snd p1 - snd p3) ->
  barycentric_2D_interpolation_coefficients p1 p2 p3 t = c ->
  List.length c = 3%nat /\ total c = 1 /\ weighted c [fst p1; fst p2; fst p3] = fst t /\ weighted c [snd p1; snd p2; snd p3] = snd t.
Proof. exact c50_weights. Qed.
Print Assumptions C50_weights.
(** these equations have one solution only *)
Theorem C50_unique : forall x1 y1 x2 y2 x3 y3 a1 a2 a3 b1 b2 b3,
  (x1 - x3) * (y2 - y3) <> (x2 - x3) * (y1 - y3) ->
  a1 + a2 + a3 = b1 + b2 + b3 ->
  a1 * x1 + a2 * x2 + a3 * x3 = b1 * x1 + b2 * x2 + b3 * x3 ->
  a1 * y1 + a2 * y2 + a3 * y3 = b1 * y1 + b2 * y2 + b3 * y3 -> a1 = b1 /\ a2 = b2 /\ a3 = b3.
Proof. exact c50_unique. Qed.
Print Assumptions C50_unique.
Theorem C50_vertices : forall p1 p2 p3,
  (fst p1 - fst p3) * (snd p2 - snd p3) <> (fst p2 - fst p3) * (snd p1 - snd p3) ->
  barycentric_2D_interpolation_coefficients p1 p2 p3 p1 = [1; 0; 0] /\
  barycentric_2D_interpolation_coefficients p1 p2 p3 p2 = [0; 1; 0] /\
  barycentric_2D_interpolation_coefficients p1 p2 p3 p3 = [0; 0; 1].
Proof. exact c50_vertices. Qed.
Print Assumptions C50_vertices.
Theorem C50_inside : forall p1 p2 p3 t,
  (fst p1 - fst p3) * (snd p2 - snd p3) <> (fst p2 - fst p3) * (snd p1 - snd p3) ->
  ((forall x, In x (barycentric_2D_interpolation_coefficients p1 p2 p3 t) -> 0 <= x) <-> in_triangle p1 p2 p3 t).
Proof. exact c50_inside. Qed.
Print Assumptions C50_inside.
(** independent of shifts, rotations and scalings of the plane *)
Theorem C50_affine_map : forall p1 p2 p3 t (f : R * R -> R * R),
  (fst p1 - fst p3) * (snd p2 - snd p3) <> (fst p2 - fst p3) * (snd p1 - snd p3) ->
  (exists a b c d u v, a * d <> b * c /\ forall x y, f (x, y) = (a * x + b * y + u, c * x + d * y + v)) ->
  barycentric_2D_interpolation_coefficients (f p1) (f p2) (f p3) (f t) = barycentric_2D_interpolation_coefficients p1 p2 p3 t.
Proof. exact c50_affine. Qed.
Print Assumptions C50_affine_map.
(** independent of the order of the corners *)
Theorem C50_relabel : forall p1 p2 p3 t a b c,
  (fst p1 - fst p3) * (snd p2 - snd p3) <> (fst p2 - fst p3) * (snd p1 - snd p3) ->
  barycentric_2D_interpolation_coefficients p1 p2 p3 t = [a; b; c] ->
  barycentric_2D_interpolation_coefficients p2 p1 p3 t = [b; a; c] /\ barycentric_2D_interpolation_coefficients p2 p3 p1 t = [b; c; a].
Proof. exact c50_relabel. Qed.
Print Assumptions C50_relabel.
Example C50_example : proper_triangle (0, 0) (2, 0) (0, 2) /\ in_triangle (0, 0) (2, 0) (0, 2) (1 / 2, 1 / 2) /\
  barycentric_2D_interpolation_coefficients (0, 0) (2, 0) (0, 2) (1 / 2, 1 / 2) = [1 / 2; 1 / 4; 1 / 4].
Proof.
  split; [unfold proper_triangle, doubled_area; cbn; lra|]. split.
  - exists (1 / 2), (1 / 4), (1 / 4). cbn. repeat split; lra.
  - apply bary_value; cbn; lra.
Qed.

(** ** C51 *)
(** every choice of weights (also negative ones): density, 0, or NaN if the spreads cancel; 0 if one template is empty *)
Theorem C51_slice : forall m edges (pdfs : list (list R)) (cs : list R),
  usable_edges m edges -> List.length cs = List.length pdfs ->
  (forall h, In h pdfs -> histogram_of (List.length edges - 1) h) ->
  exists out, moment_morph_slice edges pdfs cs (nz m) = Ok out /\ List.length out = (List.length edges - 1)%nat /\
    (integrates_to_one m edges out \/ all_zero out \/ (all_nan out /\ cancelling m edges pdfs cs)) /\
    ((exists h, In h pdfs /\ ~ filled h) -> all_zero out).
Proof. exact slice_any. Qed.
Print Assumptions C51_slice.
(** weights >= 0 (not all 0) give a non-negative result, never NaN *)
Theorem C51_nonnegative : forall m edges pdfs cs,
  usable_edges m edges -> List.length cs = List.length pdfs -> (forall h, In h pdfs -> histogram_of (List.length edges - 1) h /\ filled h) ->
  exists out, moment_morph_slice edges pdfs cs (nz m) = Ok out /\
  (integrates_to_one m edges out \/ all_zero out \/ all_nan out) /\
  ((forall c, In c cs -> 0 <= c) -> (exists c, In c cs /\ 0 < c) -> nonnegative out).
Proof. intros; apply slice_normalised; auto. Qed.
Print Assumptions C51_nonnegative.
(** if all templates with a weight <> 0 agree, they are returned (normalised) *)
Theorem C51_equal_templates : forall m edges pdfs cs,
  usable_edges m edges -> List.length cs = List.length pdfs -> (forall h, In h pdfs -> histogram_of (List.length edges - 1) h /\ filled h) ->
  forall h,
  rsum cs = 1 -> In h pdfs ->
  (forall i c t, nth_error cs i = Some c -> nth_error pdfs i = Some t -> c <> 0 -> t = h) ->
  exists out, moment_morph_slice edges pdfs cs (nz m) = Ok out /\ normalised m edges h out.
Proof. intros; apply slice_same; auto. Qed.
Print Assumptions C51_equal_templates.
(** cancelling spreads: NaN, not a histogram *)
Theorem C51_nan_refuted : forall m edges (pdfs : list (list R)) (cs : list R),
  usable_edges m edges -> List.length cs = List.length pdfs ->
  (forall h, In h pdfs -> histogram_of (List.length edges - 1) h /\ filled h) -> cancelling m edges pdfs cs ->
  moment_morph_slice edges pdfs cs (nz m) = Ok (repeat NaN (List.length edges - 1)).
Proof. exact c52_nan. Qed.
Print Assumptions C51_nan_refuted.
(** a template with negative entries whose integral is 0: an error (the templates before it are histograms) *)
Theorem C51_zero_division : forall m edges before h after cs, usable_edges m edges ->
  (forall b, In b before -> histogram_of (List.length edges - 1) b /\ filled b) ->
  (forall b, In b (h :: after) -> 1/100000000 < Rabs (total b)) ->
  List.length h = (List.length edges - 1)%nat -> integral_over (measure m) edges h = 0 ->
  moment_morph_slice edges (before ++ h :: after) cs (nz m) = Err ZeroDivisionError.
Proof. exact c51_zero_division. Qed.
Print Assumptions C51_zero_division.
Example C51_zero_division_case : usable_edges ByWidth [0; 1; 3] /\ integral_over (measure ByWidth) [0; 1; 3] [2; -1] = 0 /\ 1/100000000 < Rabs (total [2; -1]).
Proof.
  split; [|split].
  - split; [inc|]. split; [cbn; Lia.lia|discriminate].
  - cbn. unfold width. lra.
  - cbn. rewrite Rabs_pos_eq; lra.
Qed.
(** interpolation inside a one-dimensional grid *)
Theorem C51_inside : forall m edges grid templates,
  usable_edges m edges -> increasing grid -> List.length templates = List.length grid ->
  (forall h, In h templates -> histogram_of (List.length edges - 1) h /\ filled h) ->
  forall t,
  (exists a, nth_error grid 0 = Some a /\ a <= t) -> (exists b, nth_error grid (List.length grid - 1) = Some b /\ t < b) ->
  exists out, interpolate1D grid edges templates (nz m) t = Ok out /\ nonnegative out /\ (integrates_to_one m edges out \/ all_zero out).
Proof. intros; apply c51_inside; auto. Qed.
Print Assumptions C51_inside.
Theorem C51_at_grid_point : forall m edges grid templates,
  usable_edges m edges -> increasing grid -> List.length templates = List.length grid ->
  (forall h, In h templates -> histogram_of (List.length edges - 1) h /\ filled h) ->
  forall k h t,
  nth_error grid k = Some t -> (S k < List.length grid)%nat -> nth_error templates k = Some h ->
  exists out, interpolate1D grid edges templates (nz m) t = Ok out /\ normalised m edges h out.
Proof. intros; eapply c51_at_grid_point; eauto. Qed.
Print Assumptions C51_at_grid_point.
Theorem C51_inside_2d : forall m edges (grid : list point) templates i j k (p1 p2 p3 : point) t1 t2 t3 (target : point),
  usable_edges m edges ->
  nth_error grid i = Some p1 -> nth_error grid j = Some p2 -> nth_error grid k = Some p3 ->
  nth_error templates i = Some t1 -> nth_error templates j = Some t2 -> nth_error templates k = Some t3 ->
  (forall h, In h [t1; t2; t3] -> histogram_of (List.length edges - 1) h /\ filled h) ->
  proper_triangle p1 p2 p3 -> in_triangle p1 p2 p3 target ->
  exists out, interpolate2D grid edges templates (nz m) (i, j, k) target = Ok out /\ nonnegative out /\ (integrates_to_one m edges out \/ all_zero out).
Proof. exact c51_inside_2d. Qed.
Print Assumptions C51_inside_2d.
Theorem C51_at_vertex : forall m edges (grid : list point) templates i j k (p1 p2 p3 : point) t1 t2 t3,
  usable_edges m edges ->
  nth_error grid i = Some p1 -> nth_error grid j = Some p2 -> nth_error grid k = Some p3 ->
  nth_error templates i = Some t1 -> nth_error templates j = Some t2 -> nth_error templates k = Some t3 ->
  (forall h, In h [t1; t2; t3] -> histogram_of (List.length edges - 1) h /\ filled h) -> proper_triangle p1 p2 p3 ->
  (exists out, interpolate2D grid edges templates (nz m) (i, j, k) p1 = Ok out /\ normalised m edges t1 out) /\
  (exists out, interpolate2D grid edges templates (nz m) (i, j, k) p2 = Ok out /\ normalised m edges t2 out) /\
  (exists out, interpolate2D grid edges templates (nz m) (i, j, k) p3 = Ok out /\ normalised m edges t3 out).
Proof. exact c51_at_vertex. Qed.
Print Assumptions C51_at_vertex.
(** an empty template of the neighbour makes the result 0 even at a grid point with a filled template *)
Theorem C51_at_grid_point_empty_neighbour_refuted : forall m edges grid templates k t a h h',
  usable_edges m edges -> increasing grid -> nth_error grid k = Some t -> nth_error grid (S k) = Some a ->
  nth_error templates k = Some h -> nth_error templates (S k) = Some h' -> histogram_of (List.length edges - 1) h -> histogram_of (List.length edges - 1) h' ->
  ~ filled h' ->
  exists out, interpolate1D grid edges templates (nz m) t = Ok out /\ List.length out = (List.length edges - 1)%nat /\ all_zero out.
Proof.
  intros m edges grid templates k t a h h' He Hg Hk Ha Ht Ht' Hh Hh' Hn. pose proof (Hg _ _ _ Hk Ha) as Hlt.
  rewrite (c49_segment grid edges templates (nz m) t k t a h h'); auto; [|lra].
  destruct (slice_any m edges [h; h'] [(a - t) / (a - t); (t - t) / (a - t)] He eq_refl) as (out & E & L & _ & Z).
  - intros x [<-|[<-|[]]]; auto.
  - exists out. split; [exact E|]. split; [exact L|]. apply Z. exists h'. split; [right; left|]; auto.
Qed.
Print Assumptions C51_at_grid_point_empty_neighbour_refuted.
Lemma edges013 m : usable_edges m [0; 1; 3].
Proof.
  pose proof PI2_3_2 as P. assert (3 < PI) by (unfold PI2 in P; lra).
  split; [inc|]. split; [cbn; lia|]. intros _ x [<-|[<-|[<-|[]]]]; lra.
Qed.
Lemma hist013 a b : 0 <= a -> 0 <= b -> histogram_of (List.length [0; 1; 3] - 1) [a; b].
Proof. split; auto. intros x [<-|[<-|[]]]; auto. Qed.
Example C51_example : usable_edges ByWidth [0; 1; 3] /\ increasing [1; 2] /\ histogram_of 2 [1 / 2; 1 / 4] /\ filled [1 / 2; 1 / 4] /\ ~ filled [0; 0].
Proof.
  split; [apply edges013|]. split; [inc|]. split; [apply hist013; lra|]. unfold filled, total. split; lra.
Qed.
(** content in one bin each, the second bin twice as wide: extrapolation to -1 from 0 and 1 *)
Example C51_cancelling_example : cancelling ByWidth [0; 1; 3] [[1; 0]; [0; 1]] [2; -1] /\ filled [1; 0] /\ filled [0; 1] /\
  linesegment_1D_interpolation_coefficients 0 1 (-1) = Ok [2; -1].
Proof.
  assert (0 < sqrt 12) by (apply sqrt_lt_R0; lra).
  split; [|split; [|split]]; try (unfold filled, total; lra).
  - exists [1 / sqrt 12; 2 / sqrt 12]. split; [auto|]. split; [unfold weighted; cbn; field; lra|].
    intros [|[|i]] h s Hh Hs; cbn in Hh, Hs; try (destruct i; discriminate); injection Hh as <-; injection Hs as <-.
    + exists (1 / 2). cbn. unfold width. split; [lra|]. right. split; [lra|]. exists 0%nat, 0, 1, 1. cbn. repeat split; auto; lra.
    + exists 2. cbn. unfold width. split; [lra|]. right. split; [lra|]. exists 1%nat, 1, 3, 1. cbn. repeat split; auto; try lra; f_equal; lra.
  - rewrite c49_weights by lra. do 2 f_equal; [|f_equal]; field.
Qed.

(** ** C52 *)
(** one dimension: the first two grid points are used below the grid, the last two otherwise *)
Theorem C52_segment : forall n grid params target,
  NoDup grid -> (2 <= List.length grid)%nat -> List.length params = List.length grid ->
  exists k a b ra rb c out,
    nth_error grid k = Some a /\ nth_error grid (S k) = Some b /\ nth_error params k = Some ra /\ nth_error params (S k) = Some rb /\
    (((forall x, In x grid -> target < x) /\ k = 0%nat) \/ ((exists x, In x grid /\ x <= target) /\ k = (List.length grid - 2)%nat)) /\
    extrapolate1D n grid params target = Ok out /\ total c = 1 /\ weighted c [a; b] = target /\ List.length c = 2%nat /\
    weighted_columns n c [ra; rb] out.
Proof. exact c52_segment. Qed.
Print Assumptions C52_segment.
Theorem C52_affine_1d : forall n f grid params target,
  NoDup grid -> (2 <= List.length grid)%nat -> samples n f grid params -> (forall j, affine_line (f j)) ->
  extrapolate1D n grid params target = Ok (map (fun j => f j target) (seq 0 n)).
Proof. exact c52_affine_1d. Qed.
Print Assumptions C52_affine_1d.
(** two dimensions: a simplex with a side that is (up to the tolerance of plumb_point_dist) a nearest facet of the hull *)
Theorem C52_nearest : forall (pts : list point) sx hl,
  good_mesh pts sx hl ->
  forall n params target,
  exists k s t h f c out,
  find_nearest_simplex (mkTri pts sx hl) target = Ok k /\ nth_error sx k = Some s /\ triangle_of pts s t /\
  In h hl /\ side_of pts h (fst f) (snd f) /\ is_corner (fst f) t /\ is_corner (snd f) t /\
  (forall h' f' d d', In h' hl -> side_of pts h' (fst f') (snd f') ->
     distance_to_segment (fst f) (snd f) target d -> distance_to_segment (fst f') (snd f') target d' ->
     d <= d' + 1/100000 * (distance (fst f) (snd f) + distance (fst f') (snd f'))) /\
  extrapolate2D n (mkTri pts sx hl) params target = Ok out /\ barycentric t target c /\
  weighted_columns n c [nth (fst (fst s)) params []; nth (snd (fst s)) params []; nth (snd s) params []] out.
Proof. exact c52_nearest. Qed.
Print Assumptions C52_nearest.
Theorem C52_affine_2d : forall (pts : list point) sx hl,
  good_mesh pts sx hl ->
  forall n f params target,
  samples n f pts params -> (forall j, affine_plane (f j)) ->
  extrapolate2D n (mkTri pts sx hl) params target = Ok (map (fun j => f j target) (seq 0 n)).
Proof. exact c52_affine_2d. Qed.
Print Assumptions C52_affine_2d.
Theorem C52_morph_1d : forall m edges n grid templates target,
  usable_edges m edges -> NoDup grid -> (2 <= List.length grid)%nat -> List.length templates = List.length grid ->
  templates_of n edges templates ->
  exists k a b ta tb c out,
    nth_error grid k = Some a /\ nth_error grid (S k) = Some b /\ nth_error templates k = Some ta /\ nth_error templates (S k) = Some tb /\
    (((forall x, In x grid -> target < x) /\ k = 0%nat) \/ ((exists x, In x grid /\ x <= target) /\ k = (List.length grid - 2)%nat)) /\
    total c = 1 /\ weighted c [a; b] = target /\
    morph_extrapolate1D grid edges n templates (nz m) target = Ok out /\ List.length out = n /\
    forall q o ha hb, nth_error out q = Some o -> nth_error ta q = Some ha -> nth_error tb q = Some hb -> slice_result m edges [ha; hb] c o.
Proof. exact c52_morph_1d. Qed.
Print Assumptions C52_morph_1d.
Theorem C52_morph_2d : forall m edges n pts sx hl templates target,
  usable_edges m edges -> good_mesh pts sx hl -> List.length templates = List.length pts ->
  templates_of n edges templates ->
  exists k s t c t1 t2 t3 out, find_nearest_simplex (mkTri pts sx hl) target = Ok k /\ nth_error sx k = Some s /\ triangle_of pts s t /\ barycentric t target c /\
    nth_error templates (fst (fst s)) = Some t1 /\ nth_error templates (snd (fst s)) = Some t2 /\ nth_error templates (snd s) = Some t3 /\
    morph_extrapolate2D (mkTri pts sx hl) edges n templates (nz m) target = Ok out /\ List.length out = n /\
    forall q o h1 h2 h3, nth_error out q = Some o -> nth_error t1 q = Some h1 -> nth_error t2 q = Some h2 -> nth_error t3 q = Some h3 ->
      slice_result m edges [h1; h2; h3] c o.
Proof. exact c52_morph_2d. Qed.
Print Assumptions C52_morph_2d.
(** NaN instead of a histogram, from two filled templates *)
Theorem C52_morph_nan_refuted :
  morph_extrapolate1D [0; 1] [0; 1; 3] 1 [[[1; 0]]; [[0; 1]]] AREA (-1) = Ok [[NaN; NaN]].
Proof.
  unfold morph_extrapolate1D, segment_inds. cbn [list_min fold_left]. assert (E : Rltb (-1) (Rmin 0 1) = true) by (rcmp; unfold Rmin; destruct (Rle_dec 0 1); lra). rewrite E.
  change (pyget [0; 1] 0) with (Ok 0). change (pyget [0; 1] 1) with (Ok 1).
  change (pyget [[[1; 0]]; [[0; 1]]] 0) with (Ok [[1; 0]]). change (pyget [[[1; 0]]; [[0; 1]]] 1) with (Ok [[0; 1]]). cbn [rbind].
  destruct C51_cancelling_example as (C & F1 & F2 & L). rewrite L. cbn [rbind].
  unfold morph_rows, moment_morph_estimation. cbn [seq map column flat_map nth_error app rmap].
  assert (Hh : forall h, In h [[1; 0]; [0; 1]] -> histogram_of (List.length [0; 1; 3] - 1) h /\ filled h) by (intros h [<-|[<-|[]]]; (split; [apply hist013; lra|auto])).
  pose proof (c52_nan ByWidth [0; 1; 3] [[1; 0]; [0; 1]] [2; -1] (edges013 _) eq_refl Hh C) as E1. cbn [nz] in E1. rewrite E1. cbn [rbind List.length Nat.sub repeat].
  unfold clip_negative. cbn [forallb nonneg_entry nle andb]. change AREA with (nz ByWidth). rewrite get_width. cbn. auto.
Qed.
Print Assumptions C52_morph_nan_refuted.
Definition square_points : list point := [(0, 0); (1, 0); (0, 1); (1, 1)].
Definition square_simplices : list (nat * nat * nat) := [(0, 1, 2); (1, 2, 3)]%nat.
Definition square_hull : list (nat * nat) := [(0, 1); (1, 3); (3, 2); (2, 0)]%nat.
Lemma square_mesh : good_mesh square_points square_simplices square_hull.
Proof.
  assert (X : forall (a b c d : R), a <> c \/ b <> d -> (a, b) <> (c, d)) by (intros a b c d [H|H] E; injection E; intros; auto).
  split; [discriminate|]. split.
  - intros s [<-|[<-|[]]]; [exists ((0, 0), (1, 0), (0, 1))|exists ((1, 0), (0, 1), (1, 1))]; (split; [repeat split|unfold proper_triangle, doubled_area; cbn; lra]).
  - intros f [<-|[<-|[<-|[<-|[]]]]].
    + exists (0, 0), (1, 0), (0, 1, 2)%nat, ((0, 0), (1, 0), (0, 1)). unfold side_of, triangle_of, is_corner. cbn. repeat split; auto; apply X; lra.
    + exists (1, 0), (1, 1), (1, 2, 3)%nat, ((1, 0), (0, 1), (1, 1)). unfold side_of, triangle_of, is_corner. cbn. repeat split; auto; apply X; lra.
    + exists (1, 1), (0, 1), (1, 2, 3)%nat, ((1, 0), (0, 1), (1, 1)). unfold side_of, triangle_of, is_corner. cbn. repeat split; auto; apply X; lra.
    + exists (0, 1), (0, 0), (0, 1, 2)%nat, ((0, 0), (1, 0), (0, 1)). unfold side_of, triangle_of, is_corner. cbn. repeat split; auto; apply X; lra.
Qed.
Example C52_example : samples 1 (fun _ p => 2 * fst p + 3 * snd p + 1) square_points [[1]; [3]; [4]; [6]] /\
  affine_plane (fun p => 2 * fst p + 3 * snd p + 1) /\ NoDup [0; 1; 4] /\ samples 1 (fun _ x => 2 * x + 1) [0; 1; 4] [[1]; [3]; [9]] /\
  templates_of 1 [0; 1; 3] [[[1; 0]]; [[0; 1]]].
Proof.
  split; [|split; [exists 2, 3, 1; auto|split; [|split]]].
  - split; auto. intros [|[|[|[|i]]]] p row Hp Hr; cbn in Hp, Hr; try (destruct i; discriminate); injection Hp as <-; injection Hr as <-; cbn; f_equal; lra.
  - repeat constructor; cbn; lra.
  - split; auto. intros [|[|[|i]]] p row Hp Hr; cbn in Hp, Hr; try (destruct i; discriminate); injection Hp as <-; injection Hr as <-; cbn; f_equal; lra.
  - intros t [<-|[<-|[]]]; (split; [auto|]); intros h [<-|[]]; apply hist013; lra.
Qed.

(** ** C53 *)
(** every facet taken from the simplices of the second triangulation spans a proper triangle with the target *)
Theorem C53_visible_facets : forall (full : list triple) (target p q : point),
  (forall s, In s full -> proper_triangle (fst (fst s)) (snd (fst s)) (snd s)) ->
  In (p, q) (find_visible_facets full target) ->
  proper_triangle p q target /\ exists s, In s full /\ is_corner target s /\ is_corner p s /\ is_corner q s.
Proof. exact c53_visible. Qed.
Print Assumptions C53_visible_facets.
Theorem C53_weights : forall (visible : list (point * point)) (target : point) m,
  visible <> [] ->
  (forall f, In f visible -> proper_triangle (fst f) (snd f) target) ->
  let c := compute_extrapolation_weights visible target m in
  List.length c = List.length visible /\ (forall w, In w c -> 0 < w <= 1) /\ total c = 1.
Proof. exact c53_weights. Qed.
Print Assumptions C53_weights.
Theorem C53_blend : forall (pts : list point) sx hl,
  good_mesh pts sx hl ->
  forall n pshape params m visible target,
  (2 <= List.length visible)%nat -> ~ In 1%nat pshape ->
  (forall f, In f visible -> proper_triangle (fst f) (snd f) target) ->
  exists w ext out, visible_edges_extrapolate n pshape (mkTri pts sx hl) params m visible target = Ok (1%nat :: pshape, out) /\
    List.length w = List.length visible /\ List.length ext = List.length visible /\ (forall x, In x w -> 0 < x <= 1) /\ total w = 1 /\
    weighted_columns n w ext out /\
    forall i f e, nth_error visible i = Some f -> nth_error ext i = Some e -> exists s t c,
      In s sx /\ triangle_of pts s t /\ barycentric t target c /\
      weighted_columns n c [nth (fst (fst s)) params []; nth (snd (fst s)) params []; nth (snd s) params []] e /\
      ((exists s' t', In s' sx /\ triangle_of pts s' t' /\ is_corner (fst f) t' /\ is_corner (snd f) t') -> is_corner (fst f) t /\ is_corner (snd f) t).
Proof. exact c53_blend. Qed.
Print Assumptions C53_blend.
Theorem C53_affine : forall (pts : list point) sx hl,
  good_mesh pts sx hl ->
  forall n f pshape params m visible target,
  (2 <= List.length visible)%nat -> ~ In 1%nat pshape ->
  (forall g, In g visible -> proper_triangle (fst g) (snd g) target) -> samples n f pts params -> (forall j, affine_plane (f j)) ->
  visible_edges_extrapolate n pshape (mkTri pts sx hl) params m visible target = Ok (1%nat :: pshape, map (fun j => f j target) (seq 0 n)).
Proof. exact c53_affine. Qed.
Print Assumptions C53_affine.
(** one visible facet: the nearest simplex extrapolation *)
Theorem C53_one_visible : forall (pts : list point) sx hl,
  forall n pshape params m g target,
  visible_edges_extrapolate n pshape (mkTri pts sx hl) params m [g] target =
  (do e <- extrapolate2D n (mkTri pts sx hl) params target; Ok (1%nat :: pshape, e)).
Proof. exact c53_one. Qed.
Print Assumptions C53_one_visible.
(** parameters with an axis of length 1 and several visible facets: wrong shape, the extrapolations of all facets are returned without blending *)
Theorem C53_axis_of_length_one_refuted : forall (pts : list point) sx hl,
  good_mesh pts sx hl ->
  forall n pshape params m visible target,
  (2 <= List.length visible)%nat -> In 1%nat pshape ->
  (forall f, In f visible -> proper_triangle (fst f) (snd f) target) ->
  exists ext sh, visible_edges_extrapolate n pshape (mkTri pts sx hl) params m visible target = Ok (sh, concat ext) /\ sh <> 1%nat :: pshape /\
    List.length ext = List.length visible /\ forall e, In e ext -> List.length e = n.
Proof. exact c53_axis. Qed.
Print Assumptions C53_axis_of_length_one_refuted.
(** [m]: numbers other than 1, 2, 3, ... are rejected with ValueError, other objects with TypeError *)
Theorem C53_m : check_m PNotNumber = Err TypeError /\
  (forall k, check_m (PNum (Fin (INR (S k)))) = Ok (Fin (INR (S k)))) /\
  (forall v, (forall k, v <> Fin (INR (S k))) -> check_m (PNum v) = Err ValueError).
Proof.
  split; [auto|]. split.
  - intros k. unfold check_m. rewrite (proj2 (positive_integer_spec (Fin (INR (S k))))); eauto.
  - intros v Hv. unfold check_m. destruct (positive_integer v) eqn:E; auto. apply positive_integer_spec in E. destruct E as (k & E). exfalso. eapply Hv; eauto.
Qed.
Print Assumptions C53_m.
(** two facets of the square are visible from (2, 2) *)
Example C53_example : (forall f, In f (find_visible_facets [((1, 0), (1, 1), (2, 2)); ((2, 2), (1, 1), (0, 1)); ((0, 0), (1, 0), (0, 1))] (2, 2)) ->
    proper_triangle (fst f) (snd f) (2, 2)) /\
  find_visible_facets [((1, 0), (1, 1), (2, 2)); ((2, 2), (1, 1), (0, 1)); ((0, 0), (1, 0), (0, 1))] (2, 2) = [((1, 0), (1, 1)); ((1, 1), (0, 1))].
Proof.
  assert (E : find_visible_facets [((1, 0), (1, 1), (2, 2)); ((2, 2), (1, 1), (0, 1)); ((0, 0), (1, 0), (0, 1))] (2, 2) = [((1, 0), (1, 1)); ((1, 1), (0, 1))]).
  { unfold find_visible_facets, corners, peqb. cbn. rsolve. auto. }
  split; [|exact E]. rewrite E. intros f [<-|[<-|[]]]; unfold proper_triangle, doubled_area; cbn; lra.
Qed.

(** ** C54 *)
Theorem C54_distance_tolerance : forall (A B P : point) d,
  A <> B -> distance_to_segment A B P d ->
  Rabs (plumb_point_dist (A, B) P - d) <= 1/100000 * distance A B.
Proof. exact c54_close. Qed.
Print Assumptions C54_distance_tolerance.
Theorem C54_distance_exact : forall (A B P : point) s,
  A <> B -> foot_at A B P s -> foot_clear s -> distance_to_segment A B P (plumb_point_dist (A, B) P).
Proof. exact c54_exact. Qed.
Print Assumptions C54_distance_exact.
(** the cosine of the angle under which the facet is seen *)
Theorem C54_angle : forall (A B P : point),
  A <> P -> B <> P ->
  point_facet_angle (A, B) P * distance P A * distance P B = (fst A - fst P) * (fst B - fst P) + (snd A - snd P) * (snd B - snd P) /\
  -1 <= point_facet_angle (A, B) P <= 1 /\ (proper_triangle A B P -> -1 < point_facet_angle (A, B) P < 1).
Proof. exact c54_angle. Qed.
Print Assumptions C54_angle.
Theorem C54_nearest_facet : forall (facets : list (point * point)) (target : point),
  facets <> [] -> (forall f, In f facets -> fst f <> snd f) ->
  exists k f, find_nearest_facet facets target = Ok k /\ nth_error facets k = Some f /\
    forall g df dg, In g facets -> distance_to_segment (fst f) (snd f) target df -> distance_to_segment (fst g) (snd g) target dg ->
      df <= dg + 1/100000 * (distance (fst f) (snd f) + distance (fst g) (snd g)).
Proof. exact c54_nearest. Qed.
Print Assumptions C54_nearest_facet.
(** if no foot falls within the tolerance of an end point: exactly minimal, ties to the smallest cosine (largest angle) *)
Theorem C54_nearest_facet_exact : forall (facets : list (point * point)) (target : point),
  facets <> [] -> (forall f, In f facets -> fst f <> snd f) ->
  (forall f, In f facets -> exists s, foot_at (fst f) (snd f) target s /\ foot_clear s) ->
  exists k f, find_nearest_facet facets target = Ok k /\ nth_error facets k = Some f /\
    forall g df dg, In g facets -> distance_to_segment (fst f) (snd f) target df -> distance_to_segment (fst g) (snd g) target dg ->
      df <= dg /\ (df = dg -> point_facet_angle f target <= point_facet_angle g target).
Proof. exact c54_nearest_exact. Qed.
Print Assumptions C54_nearest_facet_exact.
Theorem C54_no_facet : forall target,
  find_nearest_facet [] target = Err IndexError.
Proof. exact c54_no_facet. Qed.
Print Assumptions C54_no_facet.
Theorem C54_bin_width : forall m edges, get_bin_width edges (nz m) = Ok (map (fun p => measure m (fst p) (snd p)) (combine (but_last edges) (tl edges))) /\
  get_bin_width edges Invalid = Err ValueError.
Proof.
  intros m edges. split; [|reflexivity]. rewrite get_width. unfold ws. f_equal. generalize (but_last edges) (tl edges).
  induction l as [|a l IH]; intros [|b l']; cbn; auto. f_equal. apply IH.
Qed.
Print Assumptions C54_bin_width.
(** not exact in general: the target is 1/10^9 beyond the end of the segment at height 0, the returned distance is 0 *)
Theorem C54_distance_refuted : exists (A B P : point) d, A <> B /\ distance_to_segment A B P d /\ plumb_point_dist (A, B) P <> d.
Proof.
  exists (0, 0), (1, 0), (1 + 2/1000000, 0), (2/1000000).
  assert (Hne : ((0, 0) : point) <> (1, 0)) by (intros E; injection E; lra). split; [auto|].
  assert (Hd : distance_to_segment (0, 0) (1, 0) (1 + 2/1000000, 0) (2/1000000)).
  { split.
    - exists 1. split; [lra|]. unfold distance, on_segment. cbn. replace ((1 + 2/1000000 - (0 + 1 * (1 - 0))) * (1 + 2/1000000 - (0 + 1 * (1 - 0))) + (0 - (0 + 1 * (0 - 0))) * (0 - (0 + 1 * (0 - 0)))) with ((2/1000000) * (2/1000000)) by field.
      apply sqrt_square. lra.
    - intros s Hs. unfold distance, on_segment. cbn. rewrite <- (sqrt_square (2/1000000)) at 1 by lra. apply sqrt_le_1; nra. }
  split; [exact Hd|]. rewrite (plumb_eq _ _ _ Hne). cbn [fst snd].
  set (r := ((1 + 2 / 1000000 - 0) * (1 - 0) + (0 - 0) * (0 - 0)) / ((1 - 0) * (1 - 0) + (0 - 0) * (0 - 0))).
  assert (Er : r = 1 + 2/1000000) by (unfold r; field). rewrite Er.
  assert (E : isclose1 (Rabs (1 + 2 / 1000000) + Rabs (1 - (1 + 2 / 1000000))) && negb (isclose0 (1 + 2 / 1000000) || isclose0 (1 - (1 + 2 / 1000000))) = true).
  { unfold isclose1, isclose0. rewrite (Rabs_right (1 + 2/1000000)) by lra. replace (1 - (1 + 2/1000000)) with (- (2/1000000)) by ring. rewrite Rabs_Ropp, (Rabs_right (2/1000000)), (Rabs_right 1) by lra.
    replace (1 + 2/1000000 + 2/1000000 - 1) with (4/1000000) by field. rewrite (Rabs_right (4/1000000)) by lra. rsolve. auto. }
  rewrite E. replace ((1 + 2 / 1000000 - 0) * (0 - 0) - (0 - 0) * (1 - 0)) with 0 by ring. rewrite Rabs_R0. unfold Rdiv at 1. lra.
Qed.
Print Assumptions C54_distance_refuted.
Example C54_example : ((0, 0) : point) <> (1, 0) /\ foot_at (0, 0) (1, 0) (1 / 2, -1) (1 / 2) /\ foot_clear (1 / 2) /\ proper_triangle (0, 0) (1, 0) (1 / 2, -1).
Proof. split; [intros E; injection E; lra|]. split; [unfold foot_at, on_segment; cbn; lra|]. split; [unfold foot_clear; lra|]. unfold proper_triangle, doubled_area; cbn; lra. Qed.
