(** * SpecLocal: lists of events that differ outside of a region only *)
From Coq Require Import List.
From Verif Require Import Num Tensor.
Import ListNotations.

(** the same events in the same order, except that events without property [P] may be added or left out anywhere *)
Inductive same_on {A} (P : A -> Prop) : list A -> list A -> Prop :=
| so_nil : same_on P [] []
| so_both e l l' : same_on P l l' -> same_on P (e :: l) (e :: l')
| so_left e l l' : ~ P e -> same_on P l l' -> same_on P (e :: l) l'
| so_right e l l' : ~ P e -> same_on P l l' -> same_on P l (e :: l').
(** the same exception, or arrays of the same shape with the same entry [ix] *)
Definition same_entry (ix : list nat) (r r' : res tensor) : Prop :=
  match r, r' with
  | Ok a, Ok a' => shape a = shape a' /\ at_ a ix = at_ a' ix
  | Err e, Err e' => e = e'
  | _, _ => False
  end.
