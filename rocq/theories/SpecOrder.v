(** * SpecOrder: events in another order *)
From Coq Require Import String List Permutation.
From Verif Require Import Num Table.
Import ListNotations.

(** the same rows of a table of columns in another order: [p] lists the old positions of the rows *)
Definition reordered (events events' : list (string * arr)) : Prop := exists n p,
  Permutation p (seq 0 n) /\ (forall c, In c events -> List.length (a_val (snd c)) = n) /\
  events' = map (fun c => (fst c, mkArr (map (fun i => nth i (a_val (snd c)) NaN) p) (a_unit (snd c)))) events.
(** a function of a list that does not depend on its order *)
Definition symmetric {A B} (f : list A -> B) : Prop := forall l l', Permutation l l' -> f l = f l'.
(** the same exception, or a mark for each row that stays with it *)
Definition same_marks {A} (rows rows' : list A) (m m' : res (list bool)) : Prop :=
  match m, m' with
  | Ok m, Ok m' => List.length m = List.length rows /\ List.length m' = List.length rows' /\ Permutation (combine rows m) (combine rows' m')
  | Err e, Err e' => e = e'
  | _, _ => False
  end.
