(** * Specifications used in C80: invalid arguments *)
From Coq Require Import String Reals List Bool ZArith.
From Verif Require Import Num Numpy Table.
Import ListNotations.
Open Scope R_scope.

(** some edge is larger than the next one *)
Definition falling (edges : list num) : Prop :=
  exists k a b, nth_error edges k = Some a /\ nth_error edges (S k) = Some b /\ nlt b a = true.
(** one of the axes of a histogram has an edge that is larger than the next one *)
Definition some_falling (axes : list (list num)) : Prop := exists edges, In edges axes /\ falling edges.
(** one of the axes has no edges *)
Definition some_empty (axes : list (list num)) : Prop := In [] axes.
(** numbers of a header without unit, or with one that can be converted into [u]; with another unit *)
Definition fits_unit (x : list R * option unit_) (u : unit_) : Prop := forall w, snd x = Some w -> u_dim w = u_dim u.
Definition wrong_unit (x : list R * option unit_) (u : unit_) : Prop := exists w, snd x = Some w /\ u_dim w <> u_dim u.
