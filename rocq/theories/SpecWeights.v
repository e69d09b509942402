(** * SpecWeights: weights of grid points in double precision *)
From Coq Require Import Reals List.
From Verif Require Import Num SpecDouble.
Import ListNotations.
Open Scope R_scope.

(** coordinates that are doubles, not beyond 10^60 *)
Definition coordinate (x : R) : Prop := double x /\ Rabs x <= 10 ^ 60.
Definition location (p : R * R) : Prop := coordinate (fst p) /\ coordinate (snd p).
Definition fin (p : R * R) : num * num := (Fin (fst p), Fin (snd p)).
(** twice the signed area of a triangle, and the size of the two products that it is the difference of *)
Definition area2 (a b c : R * R) : R := (snd b - snd c) * (fst a - fst c) - (fst b - fst c) * (snd a - snd c).
Definition products (a b c : R * R) : R := Rabs ((snd b - snd c) * (fst a - fst c)) + Rabs ((fst b - fst c) * (snd a - snd c)).
(** a triangle that is neither tiny nor very thin *)
Definition fat (a b c : R * R) : Prop := / 10 ^ 60 <= Rabs (area2 a b c) /\ products a b c <= 10 ^ 9 * Rabs (area2 a b c).
(** [w] is the weight [x / a] up to rounding; [sx], [sa]: the size of the products that [x] and [a] are computed from *)
Definition close_weight (w x sx a sa : R) : Prop :=
  Rabs (w - x / a) <= 10 * eps53 * ((sx + Rabs (x / a) * sa) / Rabs a) + / 10 ^ 100.
(** numpy's inverse of the matrix with the rows (1, 0) and (1, d): its second row (-1/d, 1/d) up to rounding *)
Definition accurate_inverse (inverse : num -> num * num) : Prop :=
  forall d, double d -> / 10 ^ 61 <= Rabs d <= 10 ^ 61 -> exists a b, inverse (Fin d) = (Fin a, Fin b) /\
    Rabs (a + / d) <= 2 * eps53 * Rabs (/ d) /\ Rabs (b - / d) <= 2 * eps53 * Rabs (/ d).
(** parameters of one grid point: [n] doubles that are not huge *)
Definition row_of (n : nat) (row : list R) : Prop := List.length row = n /\ forall x, In x row -> double x /\ Rabs x <= 10 ^ 100.
(** bin [j] of the combination of the rows with the coefficients, and the size of its terms *)
Fixpoint combination (coefficients : list R) (rows : list (list R)) (j : nat) : R :=
  match coefficients, rows with c :: cs, row :: rs => c * nth j row 0 + combination cs rs j | _, _ => 0 end.
Fixpoint magnitude (coefficients : list R) (rows : list (list R)) (j : nat) : R :=
  match coefficients, rows with c :: cs, row :: rs => Rabs (c * nth j row 0) + magnitude cs rs j | _, _ => 0 end.
