(** * Specifications used in the properties of pyirf/gammapy.py *)
From Coq Require Import String Reals List Bool ZArith Lia Lra.
From Verif Require Import Num Numpy Table Tensor SpecCuts Benchmarks Gadf Gammapy.
Import ListNotations.
Open Scope R_scope.
Open Scope string_scope.

(** the only axis with this name *)
Definition the_axis (r : gp_irf) (name : string) (edges : arr) : Prop :=
  In (mkAxis name (a_val edges) (a_unit edges)) (irf_axes r) /\ forall a, In a (irf_axes r) -> ax_name a = name -> a = mkAxis name (a_val edges) (a_unit edges).
(** the number stored for a bin of each axis, given by name *)
Definition stored_for (r : gp_irf) (bin : string -> nat) : num := at_ (irf_data r) (map (fun a => bin (ax_name a)) (irf_axes r)).
(** edges that go up, or down *)
Definition steadily (lt : R -> R -> Prop) (edges : list num) : Prop :=
  forall i a b, nth_error edges i = Some a -> nth_error edges (S i) = Some b ->
    match a, b with
    | Fin x, Fin y => lt x y
    | _, _ => False end.
Definition good_edges (edges : list num) : Prop := steadily Rlt edges \/ steadily Rgt edges.
Definition n_bins (a : arr) : nat := (List.length (a_val a) - 1)%nat.
