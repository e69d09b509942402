(** * SpecConvert: edges in the unit of the data *)
From Coq Require Import Reals List.
From Verif Require Import Num SpecDouble.
Import ListNotations.
Open Scope R_scope.

(** the edges in the other unit without rounding *)
Definition exact_edges (s : R) (bins : list num) : list num := map (fun e => nmul e (Fin s)) bins.
(** a value that is below an edge but not distinguishable from it: the distance is at most one rounding *)
Definition just_below_an_edge (s : R) (bins : list num) (x : R) : Prop :=
  exists e, In (Fin e) bins /\ x < e * s /\ e * s - x <= eps53 * Rabs (e * s) + / 2 ^ 1075.
Definition values (data : list R) : Prop := forall x, In x data -> double x.
