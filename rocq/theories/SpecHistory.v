(** * SpecHistory: programs that use an estimator *)
From Coq Require Import List Reals.
From Verif Require Import Num Estimators Aliasing.
Import ListNotations.

(** the targets of the calls of a program, in order *)
Fixpoint targets (p : list action) : list target_arg :=
  match p with
  | [] => []
  | Call t :: p' => t :: targets p'
  | SetResult _ _ :: p' => targets p'
  | SetInput _ _ :: p' => targets p'
  end.
Definition only_calls (p : list action) : Prop := forall a, In a p -> exists t, a = Call t.
(** the caller does not change the array that was given to the constructor *)
Definition input_untouched (p : list action) : Prop := forall a, In a p -> forall i c, a <> SetInput i c.
Definition searcher (c : cls) : Prop := exists p, c = Searcher p.
Definition no_searcher (i : cls) (e : option cls) : Prop := ~ searcher i /\ (forall e', e = Some e' -> ~ searcher e').
(** all numbers of an array are >= 0 *)
Definition non_negative (r : list (list R)) : Prop := forall l x, In l r -> In x l -> (0 <= x)%R.
(** the content of the arrays of the outcomes *)
Definition content (o : res (bool * list R)) : option (list R) := match o with Ok (_, l) => Some l | Err _ => None end.
(** a class that only uses the templates in its constructor *)
Definition eager (c : cls) : Prop := exists i e f, c = Eager i e f.
Definition all_eager (i : cls) (e : option cls) : Prop := eager i /\ (forall e', e = Some e' -> eager e').
(** the areas in m2, given in a unit of [s] m2 (None: in m2) *)
Definition in_m2 (unit : option R) (areas : list (list R)) : list (list R) :=
  match unit with None => areas | Some s => map (map (fun a => (a * s)%R)) areas end.
