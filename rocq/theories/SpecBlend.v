(** * SpecBlend: estimates for combined templates (C92) *)
From Coq Require Import Reals List Bool ZArith Arith Permutation.
From Verif Require Import Num Geometry Estimators SpecInterp SpecEstimators.
Import ListNotations.
Open Scope R_scope.

(** a * x + b * y + k, entry by entry; for all grid points *)
Definition blend (a b k : R) (x y : list R) : list R := map (fun p => a * fst p + b * snd p + k) (combine x y).
Definition blend_tables (a b k : R) (X Y : list (list R)) : list (list R) := map (fun p => blend a b k (fst p) (snd p)) (combine X Y).
(** the third of three results is the same combination of the first two; or all three raise the same exception *)
Definition combined (a b k : R) (rx ry rz : res (list R)) : Prop :=
  match rx, ry, rz with
  | Ok x, Ok y, Ok z => List.length x = List.length y /\ z = blend a b k x y
  | Err e, Err e', Err e'' => e = e' /\ e' = e''
  | _, _, _ => False
  end.
Definition combined_estimates (a b k : R) (rx ry rz : res (bool * list R)) : Prop :=
  match rx, ry, rz with
  | Ok (w, x), Ok (w', y), Ok (w'', z) => w = w' /\ w' = w'' /\ List.length x = List.length y /\ z = blend a b k x y
  | Err e, Err e', Err e'' => e = e' /\ e' = e''
  | _, _, _ => False
  end.
(** the points in the order in which the classes get them: sorted in one dimension *)
Definition as_passed (d : nat) (pts pts' : list (list R)) : Prop :=
  Permutation pts pts' /\ (d <> 1%nat -> pts' = pts) /\ (d = 1%nat -> in_order pts').
(** the results of the class for targets in [region] follow its templates (tables of [n] entries) *)
Definition follows (d n : nat) (region : list (list R) -> list R -> Prop) (pts : list (list R)) (m : method (list R) (list R)) : Prop :=
  forall pts', as_passed d pts pts' -> forall a b k X Y,
  List.length X = List.length pts' -> List.length Y = List.length pts' -> tables n X -> tables n Y ->
  match create m pts' X, create m pts' Y, create m pts' (blend_tables a b k X Y) with
  | Ok f, Ok g, Ok h => forall t, List.length t = d -> region pts' t -> combined a b k (f t) (g t) (h t)
  | Err e, Err e', Err e'' => e = e' /\ e' = e''
  | _, _, _ => False
  end.
Definition outside_hull (d : nat) (pts : list (list R)) (t : list R) : Prop := ~ in_hull d pts t.
Definition everywhere_ (pts : list (list R)) (t : list R) : Prop := True.
(** all entries multiplied by [c] *)
Definition times (c : R) (l : list R) : list R := map (Rmult c) l.
Definition times_fill (c : R) (f : fill_arg) : fill_arg := match f with FillValue v => FillValue (c * v) | f => f end.
(** the same result up to the factor [c] *)
Definition times_result (c : R) (r : res (bool * list R)) : res (bool * list R) :=
  match r with Ok (w, x) => Ok (w, times c x) | Err e => Err e end.
(** scipy's triangulation of the grid points: proper triangles of grid points *)
Definition meshed (pts : list (list R)) (tri : list (list R) -> triangulation) : Prop :=
  points (tri pts) = map (fun p => (nth 0 p 0, nth 1 p 0)) pts /\ good_mesh (points (tri pts)) (simplices (tri pts)) (hull (tri pts)).
(** scipy's triangulation of the grid points and a target outside of their hull: proper triangles, the target is a corner
    of one of them *)
Definition in_view (pts : list (list R)) (full : list (list R) -> list R -> list ((R * R) * (R * R) * (R * R))) : Prop :=
  forall t, List.length t = 2%nat -> ~ in_hull 2 pts t ->
    (forall s, In s (full pts t) -> proper_triangle (fst (fst s)) (snd (fst s)) (snd s)) /\
    exists s, In s (full pts t) /\ is_corner (nth 0 t 0, nth 1 t 0) s.
