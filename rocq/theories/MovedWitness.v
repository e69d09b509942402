(** * Witnesses for C89 *)
From Coq Require Import String Reals List Bool ZArith Arith Lia Lra Permutation.
From Verif Require Import Num Numpy Morph Geometry Quantile Estimators PDFEstimators GridMethods
  SpecIRF SpecInterp SpecEstimators SpecMoved MovedProofs MovedProofs2 MorphProofs2 QuantileProofs EstimatorProofs5.
Import ListNotations.
Open Scope R_scope.

Definition inside3 (pts : list coords) (t : coords) : bool :=
  match pts with
  | p :: q :: r :: _ => forallb (Rleb 0) (barycentric_2D_interpolation_coefficients (plane p) (plane q) (plane r) (plane t))
  | _ => false
  end.
Lemma inside3_test p q r : (fst (plane p) - fst (plane r)) * (snd (plane q) - snd (plane r)) <> (fst (plane q) - fst (plane r)) * (snd (plane p) - snd (plane r)) ->
  hull_test 2 [p; q; r] inside3.
Proof.
  intros P _ t L. unfold inside3. rewrite forallb_forall.
  assert (E : (forall x, In x (barycentric_2D_interpolation_coefficients (plane p) (plane q) (plane r) (plane t)) -> Rleb 0 x = true) <->
    in_triangle (plane p) (plane q) (plane r) (plane t)).
  { rewrite <- c50_inside by auto. split; intros H x Hx; specialize (H x Hx); rewrite Rleb_true in *; auto. }
  rewrite E. unfold in_triangle, in_hull, plane. cbn [fst snd map List.length]. split.
  - intros (a & b & c & Ha & Hb & Hc & T & X & Y). exists [a; b; c]. split; [auto|]. split; [intros x [<-|[<-|[<-|[]]]]; auto|].
    unfold weighted, total. cbn. split; [lra|]. intros [|[|j]] Hj; [| |lia]; cbn; lra.
  - intros (l & Ll & Hl & T & W). destruct l as [|a [|b [|c [|]]]]; cbn in Ll; try lia. exists a, b, c.
    pose proof (W 0%nat ltac:(lia)) as W0. pose proof (W 1%nat ltac:(lia)) as W1. unfold weighted, total in *. cbn in *.
    repeat split; try (apply Hl; auto); lra.
Qed.
Definition tri3 (pts : list coords) : triangulation := mkTri (map plane pts) [(0, 1, 2)]%nat [(0, 1); (1, 2); (2, 0)]%nat.
Definition full3 (pts : list coords) (t : coords) : list triple := [(plane (nth 1 pts []), plane (nth 2 pts []), plane t)].
Definition find3 (_ : list coords) (_ : coords) : nat * nat * nat := (0, 1, 2)%nat.
Definition shift3 : nat -> R := fun j => match j with 0%nat => 5 | _ => -1 end.
Lemma witness_2d : of_dimension 2 triangle /\ float_grid (G2 2 triangle) 2 triangle /\ hull_test 2 triangle inside3 /\
  hull_test 2 (map (moved 60 shift3) triangle) inside3 /\ same_mesh 60 shift3 triangle tri3 /\ same_view 60 shift3 triangle full3 /\
  same_choice 60 shift3 2 triangle find3.
Proof.
  assert (Dm : of_dimension 2 triangle) by (intros p [<-|[<-|[<-|[]]]]; auto).
  split; [auto|]. split; [right; auto|]. split; [apply inside3_test; cbn; lra|]. split; [apply inside3_test; cbn; lra|]. split; [|split].
  - split; [reflexivity|]. split.
    + assert (X : forall (a b c d : R), a <> c \/ b <> d -> (a, b) <> (c, d)) by (intros a b c d [H|H] E; injection E; intros; auto).
      assert (P : proper_triangle (0, 0) (1, 0) (0, 1)) by (unfold proper_triangle, doubled_area; cbn; lra).
      assert (Q : triangle_of (points (tri3 triangle)) (0, 1, 2)%nat (0, 0, (1, 0), (0, 1))) by (repeat split).
      split; [discriminate|]. split; [intros s [<-|[]]; exists ((0, 0), (1, 0), (0, 1)); auto|].
      intros f [<-|[<-|[<-|[]]]].
      * exists (0, 0), (1, 0), (0, 1, 2)%nat, ((0, 0), (1, 0), (0, 1)). unfold side_of, is_corner. cbn [fst snd]. split; [auto|]. split; [apply X; lra|]. split; [cbn; auto|]. split; auto.
      * exists (1, 0), (0, 1), (0, 1, 2)%nat, ((0, 0), (1, 0), (0, 1)). unfold side_of, is_corner. cbn [fst snd]. split; [auto|]. split; [apply X; lra|]. split; [cbn; auto|]. split; auto.
      * exists (0, 1), (0, 0), (0, 1, 2)%nat, ((0, 0), (1, 0), (0, 1)). unfold side_of, is_corner. cbn [fst snd]. split; [auto|]. split; [apply X; lra|]. split; [cbn; auto|]. split; auto.
    + unfold tri3, moved_triangulation. cbn [points simplices hull]. f_equal.
  - intros t L. unfold full3, moved_triangle. cbn [map fst snd]. rewrite moved_plane by auto. reflexivity.
  - intros t L. reflexivity.
Qed.
(** another unit on one axis only: another point is the nearest *)
Definition stretched (p : coords) : coords := [nth 0 p 0; 10 * nth 1 p 0].
Lemma one_axis : exists f f', let pts := [[0; 0]; [1; 1/2]] in
  create (nearest_method 1) pts [[7]; [8]] = Ok f /\ create (nearest_method 1) (map stretched pts) [[7]; [8]] = Ok f' /\
  f [1; 0] = Ok [8] /\ f' (stretched [1; 0]) = Ok [7].
Proof.
  assert (R1 : forall x, 0 <= x -> root 1 x = x).
  { intros x Hx. destruct (root_spec 1 x ltac:(lia) Hx) as (_ & E). cbn in E. lra. }
  eexists _, _. cbv zeta. split; [reflexivity|]. split; [reflexivity|].
  unfold nn_index, pnorm, stretched. cbn [map zipwith nth Rmult]. unfold rsum. cbn [fold_right pow].
  split.
  - assert (A0 : Rabs (0 - 1) = 1) by (rewrite Rabs_left; lra). assert (A1 : Rabs (0 - 0) = 0) by (rewrite Rabs_pos_eq; lra).
    assert (A2 : Rabs (1 - 1) = 0) by (rewrite Rabs_pos_eq; lra). assert (A3 : Rabs (1 / 2 - 0) = 1/2) by (rewrite Rabs_pos_eq; lra).
    rewrite A0, A1, A2, A3. rewrite !R1 by lra. cbn [argbest first_best fst snd rbind]. destruct (Rltb_spec (0 * 1 + (1 / 2 * 1 + 0)) (1 * 1 + (0 * 1 + 0))); [reflexivity|lra].
  - assert (A0 : Rabs (0 - 1) = 1) by (rewrite Rabs_left; lra). assert (A1 : Rabs (10 * 0 - 10 * 0) = 0) by (rewrite Rabs_pos_eq; lra).
    assert (A2 : Rabs (1 - 1) = 0) by (rewrite Rabs_pos_eq; lra). assert (A3 : Rabs (10 * (1 / 2) - 10 * 0) = 5) by (rewrite Rabs_pos_eq; lra).
    rewrite A0, A1, A2, A3. rewrite !R1 by lra. cbn [argbest first_best fst snd rbind]. destruct (Rltb_spec (0 * 1 + (5 * 1 + 0)) (1 * 1 + (0 * 1 + 0))); [lra|reflexivity].
Qed.
