(** * Concrete cases for the properties of the estimators *)
From Coq Require Import String Reals List Bool ZArith Arith Lia Lra Permutation Sorting.Sorted.
From Verif Require Import Num Numpy Sort Table Binning SpecBinning BinningProofs Lists CutsProofs CutsProofs2 Utils SpecSimulations SpecIRF IRFProofs IRFProofs2 Morph SpecInterp MorphProofs MorphProofs2 Geometry GeometryProofs GeometryProofs2 GeometryProofs3 Quantile QuantileProofs2 QuantileProofs3 Estimators SpecEstimators EstimatorProofs EstimatorProofs2 EstimatorProofs3 EstimatorProofs4.
Import ListNotations.
Open Scope R_scope.

(** a triangle *)
Definition triangle : list (list R) := [[0; 0]; [1; 0]; [0; 1]].
Definition inside_triangle (_ : list coords) (t : coords) : bool := Rleb 0 (nth 0 t 0) && Rleb 0 (nth 1 t 0) && Rleb (nth 0 t 0 + nth 1 t 0) 1.
Definition choose_triangle (_ : list coords) (t : coords) : list (nat * R) := [(0%nat, 1 - nth 0 t 0 - nth 1 t 0); (1%nat, nth 0 t 0); (2%nat, nth 1 t 0)].
Lemma triangle_hull t : length t = 2%nat -> (in_hull 2 triangle t <-> 0 <= nth 0 t 0 /\ 0 <= nth 1 t 0 /\ nth 0 t 0 + nth 1 t 0 <= 1).
Proof.
  intros Ht. split.
  - intros (c & Lc & Hc & Tc & Hw). destruct c as [|a [|b [|c [|]]]]; cbn in Lc; try lia. pose proof (Hw 0%nat ltac:(lia)) as H0. pose proof (Hw 1%nat ltac:(lia)) as H1.
    pose proof (Hc a ltac:(cbn; auto)). pose proof (Hc b ltac:(cbn; auto)). pose proof (Hc c ltac:(cbn; auto)).
    unfold weighted, total in *. cbn in *. lra.
  - intros (H0 & H1 & H2). exists [1 - nth 0 t 0 - nth 1 t 0; nth 0 t 0; nth 1 t 0]. split; [auto|]. split; [|split].
    + intros x [<-|[<-|[<-|[]]]]; lra.
    + unfold total. cbn. lra.
    + intros j Hj. unfold weighted, total. destruct j as [|[|j]]; [| |lia]; cbn; lra.
Qed.
Lemma triangle_test : hull_test 2 triangle inside_triangle.
Proof.
  intros _ t Ht. rewrite triangle_hull by auto. unfold inside_triangle. rewrite !andb_true_iff, !Rleb_true. tauto.
Qed.
Lemma triangle_linear : linear_interpolation 2 triangle choose_triangle.
Proof.
  intros t Ht Hin. apply triangle_hull in Hin; auto. unfold choose_triangle. split; [split|split].
  - intros i c [E|[E|[E|[]]]]; inversion E; subst; cbn; split; try lia; lra.
  - unfold total. cbn. lra.
  - intros j Hj. unfold total. destruct j as [|[|j]]; [| |lia]; cbn; lra.
  - intros [<-|[<-|[<-|[]]]] i c; cbn; intros [E|[E|[E|[]]]] Hc; inversion E; subst; cbn; auto; lra.
Qed.
Lemma triangle_served : served 2 triangle choose_triangle.
Proof. split; [lia|]. intros _. apply triangle_linear. Qed.

Ltac rset := repeat match goal with
  | |- context [Rmin ?a ?b] => first [rewrite (Rmin_left a b) by lra | rewrite (Rmin_right a b) by lra]
  | |- context [Rmax ?a ?b] => first [rewrite (Rmax_left a b) by lra | rewrite (Rmax_right a b) by lra]
  end.
Lemma rm_order_witness tri find inside :
  exists E E', rad_max_init (G1 [0; 2; 1]) [[1]; [3]; [1]] (FillValue 3) (griddata_method choose_1D 1) None = Ok E /\
    rad_max_init (G1 [0; 1; 2]) [[1]; [1]; [3]] (FillValue 3) (griddata_method choose_1D 1) None = Ok E' /\
    rad_max_call inside tri find true E (TFlat [1/2]) = Ok (false, [3]) /\
    rad_max_call inside tri find true E' (TFlat [1/2]) = Ok (false, [1]).
Proof.
  assert (Ea : active_fill (Some 3) = Some 3) by (unfold active_fill; rsolve; auto).
  assert (S1 : sort_points 1 [[0]; [2]; [1]] [[1]; [3]; [1]] = [([0], [1]); ([1], [1]); ([2], [3])]) by (unfold sort_points; cbn; rsolve; cbn; rsolve; auto).
  assert (S2 : sort_points 1 [[0]; [1]; [2]] [[1]; [1]; [3]] = [([0], [1]); ([1], [1]); ([2], [3])]) by (unfold sort_points; cbn; rsolve; cbn; rsolve; auto).
  set (est := mkEst 1 [[0]; [1]; [2]] (fun t => Ok (weighted_templates 1 (choose_1D [[0]; [1]; [2]] t) [[1]; [1]; [3]])) None : estimator (list R)).
  exists (mkRM est [[1]; [3]; [1]] (Some 3) false false), (mkRM est [[1]; [1]; [3]] (Some 3) false false).
  assert (I1 : parametrized_init (G1 [0; 2; 1]) (Some [[1]; [3]; [1]]) (griddata_method choose_1D 1) None = Ok est).
  { unfold parametrized_init, make_methods. cbn [base_init rbind fst snd map length Nat.ltb Nat.leb Nat.add Nat.eqb griddata_method is_interpolator create]. rewrite S1. reflexivity. }
  assert (I2 : parametrized_init (G1 [0; 1; 2]) (Some [[1]; [1]; [3]]) (griddata_method choose_1D 1) None = Ok est).
  { unfold parametrized_init, make_methods. cbn [base_init rbind fst snd map length Nat.ltb Nat.leb Nat.add Nat.eqb griddata_method is_interpolator create]. rewrite S2. reflexivity. }
  assert (Mn : list_min [0; 1; 2] = 0) by (unfold list_min; cbn [fold_left]; rset; auto). assert (Mx : list_max [0; 1; 2] = 2) by (unfold list_max; cbn [fold_left]; rset; auto).
  assert (Ch : choose_1D [[0]; [1]; [2]] [1/2] = [(0%nat, 1 - (1/2 - 0) / (1 - 0)); (1%nat, (1/2 - 0) / (1 - 0))]).
  { unfold choose_1D. cbn [concat app hd]. rewrite !count_cons, count_nil. rsolve. reflexivity. }
  assert (C : forall P : Prop, P -> P) by auto.
  assert (Est : exists v, estimator_call inside est (TFlat [1/2]) = Ok (false, [v]) /\ v = 1).
  { eexists. split.
    - unfold estimator_call, check_target, est. cbn [grid_dim grid interpolator rbind length Nat.eqb]. unfold target_in_grid. cbn [Nat.eqb concat app hd]. rewrite Mn, Mx. rsolve. cbn [andb rbind]. rewrite Ch. reflexivity.
    - cbn. unfold rsum. cbn. lra. }
  destruct Est as (v & Est & ->).
  assert (Sg : rm_segment [0; 1; 2] (1/2) = Ok (Z.of_nat 0, Z.of_nat 1)).
  { unfold rm_segment. rewrite Mn, Mx. rsolve. rewrite (digitize_inside [0; 1; 2] (1/2) 0 0 1); auto; [|lra]. intros [|[|[|]]] a b Ha Hb; cbn in Ha, Hb; try discriminate; inversion Ha; inversion Hb; subst; lra. }
  split; [unfold rad_max_init; rewrite I1; cbn [rbind]; rewrite Ea; reflexivity|].
  split; [unfold rad_max_init; rewrite I2; cbn [rbind]; rewrite Ea; reflexivity|].
  assert (Cc : concat (grid est) = [0; 1; 2]) by reflexivity.
  split; unfold rad_max_call; cbn [rm_est fill_val rm_params extrap_nearest interp_nearest]; rewrite Est, Ea; unfold check_target; cbn [est grid_dim rbind length Nat.eqb hd fst snd]; fold est; rewrite Cc, Sg, andb_false_r; cbn [orb rbind fst snd];
    [rewrite (pyget_nat _ 0 [1]), (pyget_nat _ 1 [3]) by auto|rewrite (pyget_nat _ 0 [1]), (pyget_nat _ 1 [1]) by auto];
    cbn [rbind zip3 map]; unfold fill_1D, cap, min_entry; rsolve; cbn [orb]; rsolve; reflexivity.
Qed.
(** nearest neighbours inside, extrapolation outside of the grid: twice the largest entry *)
Lemma rm_mixed_witness tri find inside :
  exists E, rad_max_init (G1 [0; 1]) [[1]; [2]] FillInfer (nearest_method 2) (Some (simplex_method_1D 1)) = Ok E /\
    exists v, rad_max_call inside tri find true E (TFlat [3]) = Ok (true, [v]) /\ v = 4.
Proof.
  assert (M : list_max [1; 2] = 2) by (unfold list_max; cbn [fold_left]; rset; auto). assert (Mx : list_max [0; 1] = 1) by (unfold list_max; cbn [fold_left]; rset; auto). assert (Mn : list_min [0; 1] = 0) by (unfold list_min; cbn [fold_left]; rset; auto).
  assert (Ea : active_fill (Some 2) = Some 2) by (unfold active_fill; rsolve; auto).
  assert (S1 : sort_points 1 [[0]; [1]] [[1]; [2]] = [([0], [1]); ([1], [2])]) by (unfold sort_points; cbn; rsolve; auto).
  eexists. split.
  - unfold rad_max_init, parametrized_init, make_methods. cbn [base_init rbind fst snd map length Nat.ltb Nat.leb Nat.add Nat.eqb nearest_method simplex_method_1D is_interpolator is_extrapolator create]. rewrite S1. cbn [map fst snd rbind grid_dim concat app]. rewrite M, Ea. reflexivity.
  - eexists. split.
    + unfold rad_max_call, estimator_call, check_target. cbn [rm_est fill_val rm_params extrap_nearest interp_nearest grid_dim grid interpolator extrapolator rbind length Nat.eqb]. unfold target_in_grid. cbn [Nat.eqb concat app hd]. rewrite Mn, Mx. rsolve. cbn [andb].
      assert (X : extrapolate1D 1 [0; 1] [[1]; [2]] 3 = Ok [4]).
      { unfold extrapolate1D, segment_inds. rewrite Mn. rsolve. change (-2)%Z with (- Z.of_nat 2)%Z. change (-1)%Z with (- Z.of_nat 1)%Z.
          rewrite (pyget_end [0; 1] 2 0), (pyget_end [0; 1] 1 1), (pyget_end [[1]; [2]] 2 [1]), (pyget_end [[1]; [2]] 1 [2]) by (cbn; auto). cbn [rbind]. rewrite c49_weights by lra. cbn [rbind]. f_equal.
          cbn. unfold rsum. cbn. f_equal. lra. }
      rewrite X. cbn [rbind fst snd map]. rewrite Ea. unfold min_entry. rsolve. reflexivity.
    + lra.
Qed.
