(** * Specifications for C89: the unit and the origin of the grid coordinates *)
From Coq Require Import Reals List Bool ZArith Arith Permutation.
From Verif Require Import Num Morph Geometry Estimators SpecIRF SpecInterp SpecEstimators.
Import ListNotations.
Open Scope R_scope.

(** a point in other coordinates: all axes in a unit that is [1 / s] times the old one, axis [j] shifted by [v j] *)
Definition moved (s : R) (v : nat -> R) (p : list R) : list R := map (fun j => s * nth j p 0 + v j) (seq 0 (List.length p)).
Definition moved_xy (s : R) (v : nat -> R) (p : R * R) : R * R := (s * fst p + v 0%nat, s * snd p + v 1%nat).
(** the same for the arguments of the estimators *)
Definition moved_grid (s : R) (v : nat -> R) (g : grid_arg) : grid_arg :=
  match g with
  | G1 l => G1 (map (fun x => s * x + v 0%nat) l)
  | G2 d l => G2 d (map (moved s v) l)
  | g => g
  end.
Definition moved_target (s : R) (v : nat -> R) (t : target_arg) : target_arg :=
  match t with TNotArray => TNotArray | TFlat t => TFlat (moved s v t) | TRows l => TRows (map (moved s v) l) end.
(** a triangulation of the same points in other coordinates: the same triangles and sides *)
Definition moved_triangulation (s : R) (v : nat -> R) (t : triangulation) : triangulation :=
  mkTri (map (moved_xy s v) (points t)) (simplices t) (hull t).
Definition moved_triangle (s : R) (v : nat -> R) (t : (R * R) * (R * R) * (R * R)) : (R * R) * (R * R) * (R * R) :=
  (moved_xy s v (fst (fst t)), moved_xy s v (snd (fst t)), moved_xy s v (snd t)).
(** a class gives for the grid points [pts] and all templates the same answers in both coordinates *)
Definition same_answers {T O} (s : R) (v : nat -> R) (d : nat) (m : method T O) (pts : list (list R)) : Prop :=
  forall templates,
    match create m pts templates, create m (map (moved s v) pts) templates with
    | Ok f, Ok f' => forall t, List.length t = d -> f' (moved s v t) = f t
    | Err e, Err e' => e = e'
    | _, _ => False
    end.
(** the points as they may be passed to the class: in any order in one dimension (they are sorted) *)
Definition passed {P} (d : nat) (pts pts' : list P) : Prop := Permutation pts pts' /\ (d <> 1%nat -> pts' = pts).
Definition indifferent {T O} (s : R) (v : nat -> R) (d : nat) (pts : list (list R)) (m : method T O) : Prop :=
  forall pts', passed d pts pts' -> same_answers s v d m pts'.
Definition indifferent_option {T O} (s : R) (v : nat -> R) (d : nat) (pts : list (list R)) (m : option (method T O)) : Prop :=
  match m with Some m => indifferent s v d pts m | None => True end.
(** scipy's triangulation of the points in the other coordinates has the same triangles and sides *)
Definition same_mesh (s : R) (v : nat -> R) (pts : list (list R)) (tri : list (list R) -> triangulation) : Prop :=
  points (tri pts) = map (fun p => (nth 0 p 0, nth 1 p 0)) pts /\
  good_mesh (points (tri pts)) (simplices (tri pts)) (hull (tri pts)) /\
  tri (map (moved s v) pts) = moved_triangulation s v (tri pts).
(** scipy's triangulation of the points and the target, which is a corner of a triangle at most once *)
Definition same_view (s : R) (v : nat -> R) (pts : list (list R)) (full : list (list R) -> list R -> list ((R * R) * (R * R) * (R * R))) : Prop :=
  forall t, List.length t = 2%nat -> full (map (moved s v) pts) (moved s v t) = map (moved_triangle s v) (full pts t).
(** scipy's answers in terms of positions of grid points *)
Definition same_choice {A} (s : R) (v : nat -> R) (d : nat) (pts : list (list R)) (f : list (list R) -> list R -> A) : Prop :=
  forall t, List.length t = d -> f (map (moved s v) pts) (moved s v t) = f pts t.
