(** * C92: estimates follow their templates *)
From Coq Require Import String Reals List Bool ZArith Arith Lia Lra Permutation.
From Verif Require Import Num Numpy Morph Geometry Quantile Estimators PDFEstimators GridMethods
  SpecIRF SpecInterp SpecEstimators SpecMoved SpecBlend EstimatorProofs2 EstimatorProofs5 MovedWitness BlendProofs.
Import ListNotations.
Open Scope R_scope.

(** the estimate from the templates a * X + b * Y + k is a * x + b * y + k, for the estimates x and y from the
    templates X and Y, with the same warning; or all three raise the same exception *)
Theorem C92_parametrized : forall inside g d pts n a b k X Y m e tgt, (1 <= d)%nat -> float_grid g d pts -> NoDup pts -> hull_test d pts inside ->
  List.length X = List.length Y -> tables n X -> tables n Y -> follows d n (in_hull d) pts m ->
  match e with Some e => follows d n (outside_hull d) pts e | None => True end ->
  combined_estimates a b k (do est <- parametrized_init g (Some X) m e; estimator_call inside est tgt) (do est <- parametrized_init g (Some Y) m e; estimator_call inside est tgt)
    (do est <- parametrized_init g (Some (blend_tables a b k X Y)) m e; estimator_call inside est tgt).
Proof. exact estimators_follow. Qed.
Print Assumptions C92_parametrized.
(** templates that are the same everywhere: this is the estimate *)
Theorem C92_constant : forall inside g d pts n k X m e tgt, (1 <= d)%nat -> float_grid g d pts -> NoDup pts -> hull_test d pts inside ->
  tables n X -> (forall r v, In r X -> In v r -> v = k) -> follows d n (in_hull d) pts m ->
  match e with Some e => follows d n (outside_hull d) pts e | None => True end ->
  match (do est <- parametrized_init g (Some X) m e; estimator_call inside est tgt) with Ok (_, x) => forall v, In v x -> v = k | Err _ => True end.
Proof. exact c92_constant. Qed.
Print Assumptions C92_constant.
(** effective areas and the minimal effective area in other units *)
Theorem C92_effective_area : forall inside g d pts n c areas min_area m e tgt, 0 < c -> 0 < min_area -> (1 <= d)%nat -> float_grid g d pts -> NoDup pts -> hull_test d pts inside ->
  tables n areas -> follows d n (in_hull d) pts m -> match e with Some e => follows d n (outside_hull d) pts e | None => True end ->
  (do est <- aeff_init g (map (times c) areas) (c * min_area) m e; aeff_call inside est (c * min_area) tgt) =
  times_result c (do est <- aeff_init g areas min_area m e; aeff_call inside est min_area tgt).
Proof. exact c92_effective_area. Qed.
Print Assumptions C92_effective_area.
(** the cuts of the rad max tables and the fill value in other units *)
Theorem C92_rad_max : forall inside tri find two_axes g d pts n c rad_max fill m e tgt, 0 < c -> (1 <= d)%nat -> float_grid g d pts -> NoDup pts -> hull_test d pts inside ->
  tables n rad_max -> follows d n (in_hull d) pts m -> match e with Some e => follows d n (outside_hull d) pts e | None => True end ->
  (do est <- rad_max_init g (map (times c) rad_max) (times_fill c fill) m e; rad_max_call inside tri find two_axes est tgt) =
  times_result c (do est <- rad_max_init g rad_max fill m e; rad_max_call inside tri find two_axes est tgt).
Proof. exact c92_rad_max. Qed.
Print Assumptions C92_rad_max.
(** the classes of pyirf *)
Theorem C92_nearest : forall d n pts norm_ord, follows d n everywhere_ pts (nearest_method norm_ord).
Proof. exact nearest_follows. Qed.
Print Assumptions C92_nearest.
Theorem C92_griddata : forall d n pts choose, served d pts choose -> follows d n (in_hull d) pts (griddata_method choose n).
Proof. exact griddata_follows. Qed.
Print Assumptions C92_griddata.
Theorem C92_nearest_simplex : forall d n pts tri, (1 <= d)%nat -> of_dimension d pts -> pts <> [] -> (d = 2%nat -> meshed pts tri) ->
  follows d n everywhere_ pts (simplex_method tri n).
Proof. exact simplex_follows. Qed.
Print Assumptions C92_nearest_simplex.
Theorem C92_visible_edges : forall d n pts tri full pshape m, (1 <= d)%nat -> of_dimension d pts -> pts <> [] -> (d = 2%nat -> meshed pts tri /\ in_view pts full) ->
  follows d n (outside_hull d) pts (visible_method tri full n pshape m).
Proof. exact visible_follows. Qed.
Print Assumptions C92_visible_edges.
(** a class that fulfils the hypotheses in the whole hull does so in a part of the space, e.g. everywhere: outside of it *)
Theorem C92_everywhere : forall d n (region : list (list R) -> list R -> Prop) pts m, follows d n everywhere_ pts m -> follows d n region pts m.
Proof.
  intros d n region pts m H pts' P a b k X Y L1 L2 T1 T2. specialize (H pts' P a b k X Y L1 L2 T1 T2).
  destruct (create m pts' X), (create m pts' Y), (create m pts' (blend_tables a b k X Y)); auto. intros t Lt _. apply H; auto. exact I.
Qed.
Print Assumptions C92_everywhere.

(** the hypotheses hold for a grid of three points, the classes of pyirf and sensible answers of scipy *)
Example C92_example : (1 <= 2)%nat /\ float_grid (G2 2 triangle) 2 triangle /\ NoDup triangle /\ hull_test 2 triangle inside3 /\
  tables 2 [[1; 2]; [3; 4]; [5; 6]] /\ follows 2 2 (in_hull 2) triangle (griddata_method choose_triangle 2) /\
  follows 2 2 (outside_hull 2) triangle (visible_method tri3 full_fan 2 [2%nat] 1) /\ meshed triangle tri3 /\ in_view triangle full_fan /\
  blend_tables 2 3 10 [[1; 2]] [[5; 7]] = [[27; 35]].
Proof.
  destruct witness_2d as (H1 & H2 & H3 & _ & (H5 & H6 & _) & _).
  assert (M : meshed triangle tri3) by (split; auto).
  assert (V : in_view triangle full_fan).
  { apply fan_in_view. unfold plane, SpecInterp.proper_triangle, SpecInterp.doubled_area. cbn. lra. }
  split; [lia|]. split; [auto|]. split.
  { unfold triangle. repeat constructor; cbn; intuition; match goal with H : _ = _ |- _ => injection H; intros; lra end. }
  split; [auto|]. split; [intros r [<-|[<-|[<-|[]]]]; auto|]. split; [apply griddata_follows, triangle_served|]. split; [apply visible_follows; auto; discriminate|].
  split; [auto|]. split; [auto|]. unfold blend_tables, blend. cbn. repeat f_equal; lra.
Qed.
(** one dimension: nothing but the definition of linear interpolation is assumed; a target inside and one outside *)
Example C92_example_1d : follows 1 1 (in_hull 1) [[0]; [1]] (griddata_method choose_1D 1) /\
  (forall tri, follows 1 1 (outside_hull 1) [[0]; [1]] (simplex_method tri 1)) /\
  combined_estimates 2 3 10 (Ok (true, [1; 2])) (Ok (true, [5; 7])) (Ok (true, [27; 35])) /\
  ~ combined_estimates 2 3 10 (Ok (true, [1; 2])) (Ok (true, [5; 7])) (Ok (true, [27; 36])) /\
  ~ combined_estimates 2 3 10 (Ok (true, [1; 2])) (Err ValueError) (Ok (true, [27; 35])).
Proof.
  split; [|split; [|split; [|split]]].
  - apply griddata_follows, served_1D; [intros p [<-|[<-|[]]]; auto|cbn; lia].
  - intros tri. apply C92_everywhere, simplex_follows; [lia|intros p [<-|[<-|[]]]; auto|discriminate|discriminate].
  - cbn. split; [auto|]. split; [auto|]. split; [auto|]. unfold blend. cbn. f_equal; [lra|f_equal; lra].
  - cbn. intros (_ & _ & _ & E). unfold blend in E. cbn in E. injection E. intros. lra.
  - cbn. auto.
Qed.
