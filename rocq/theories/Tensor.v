(** * Tensor: n-dimensional numpy arrays, broadcasting, [np.histogramdd] *)
From Coq Require Import Reals List Bool ZArith Arith Lia Lra.
From Verif Require Import Num Numpy.
Import ListNotations.
Open Scope R_scope.

(** shape and value at every index *)
Record tensor := mkT { shape : list nat; at_ : list nat -> num }.
(** numpy broadcasting: shapes are aligned at the last axis; two lengths must agree unless
    one of them is 1 *)
Definition bdim (n m : nat) : option nat :=
  if Nat.eqb n m then Some n else if Nat.eqb n 1 then Some m else if Nat.eqb m 1 then Some n else None.
Fixpoint bshape_rev (s t : list nat) : option (list nat) :=
  match s, t with
  | [], t => Some t
  | s, [] => Some s
  | n :: s', m :: t' =>
      match bdim n m, bshape_rev s' t' with Some d, Some r => Some (d :: r) | _, _ => None end
  end.
Definition bshape (s t : list nat) : option (list nat) :=
  match bshape_rev (rev s) (rev t) with Some r => Some (rev r) | None => None end.
(** index into an operand: drop leading axes, axes of length 1 are repeated *)
Definition bidx (s ix : list nat) : list nat :=
  zipwith (fun d i => if Nat.eqb d 1 then 0%nat else i) s (skipn (length ix - length s) ix).
Definition tbin (f : num -> num -> num) (a b : tensor) : res tensor :=
  match bshape (shape a) (shape b) with
  | Some s => Ok (mkT s (fun ix => f (at_ a (bidx (shape a) ix)) (at_ b (bidx (shape b) ix))))
  | None => Err ValueError
  end.
Definition tmap (f : num -> num) (a : tensor) : tensor := mkT (shape a) (fun ix => f (at_ a ix)).
(** arrays of one dimension, [a.T] of two, [a[:, np.newaxis, :]] *)
Definition vec (l : list num) : tensor :=
  mkT [length l] (fun ix => match ix with [i] => nth i l NaN | _ => NaN end).
Definition transpose2 (a : tensor) : tensor :=
  mkT (rev (shape a)) (fun ix => at_ a (rev ix)).
Fixpoint remove_at {A} (k : nat) (l : list A) : list A :=
  match l, k with [], _ => [] | _ :: l', O => l' | a :: l', S k' => a :: remove_at k' l' end.
Fixpoint insert_at {A} (k : nat) (x : A) (l : list A) : list A :=
  match k, l with O, _ => x :: l | S k', a :: l' => a :: insert_at k' x l' | S _, [] => [x] end.
Definition newaxis (k : nat) (a : tensor) : tensor :=
  mkT (insert_at k 1%nat (shape a)) (fun ix => at_ a (remove_at k ix)).
(** [a.sum(axis=k)] *)
Definition tsum (k : nat) (a : tensor) : tensor :=
  mkT (remove_at k (shape a)) (fun ix => nsum (map (fun j => at_ a (insert_at k j ix)) (seq 0 (nth k (shape a) 0%nat)))).
(** nested lists as arrays *)
Definition of_lists2 (l : list (list num)) : tensor :=
  mkT [length l; length (hd [] l)]
    (fun ix => match ix with [i; j] => nth j (nth i l []) NaN | _ => NaN end).
Definition of_lists3 (l : list (list (list num))) : tensor :=
  mkT [length l; length (hd [] l); length (hd [] (hd [] l))]
    (fun ix => match ix with [i; j; k] => nth k (nth j (nth i l []) []) NaN | _ => NaN end).
(** [np.diff] *)
Definition ndiff (l : list num) : list num := zipwith (fun a b => nsub b a) (but_last l) (tl l).

(** [np.histogramdd(sample, bins=edges, weights)] (numpy/lib/histograms.py), also used by
    [np.histogram2d]: per axis [searchsorted(edges, x, side='right')], values on the last edge
    are moved into the last bin; bin number 0 and the one after the last are dropped; raises
    ValueError if some edge is larger than the next one *)
Definition hdd_index (edges : list num) (x : num) : nat :=
  let n := searchsorted_right edges x in
  if neqb x (last edges NaN) then (n - 1)%nat else n.
Fixpoint hdd_match {A} (dims : list ((A -> num) * list num)) (ix : list nat) (e : A) : bool :=
  match dims, ix with
  | [], [] => true
  | (x, edges) :: dims', i :: ix' => Nat.eqb (hdd_index edges (x e)) (S i) && hdd_match dims' ix' e
  | _, _ => false
  end.
Definition histogramdd {A} (dims : list ((A -> num) * list num)) (w : A -> R) (evs : list A) : res tensor :=
  if existsb (fun d => decreases (snd d)) dims then Err ValueError
  else if existsb (fun d => match snd d with [] => true | _ => false end) dims then Err IndexError
  else Ok (mkT (map (fun d => (length (snd d) - 1)%nat) dims)
               (fun ix => Fin (wsum w (hdd_match dims ix) evs))).
