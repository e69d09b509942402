(** * Statistics: model of pyirf/statistics.py *)
From Coq Require Import Reals List Bool ZArith Lia Lra.
From Verif Require Import Num Numpy.
Import ListNotations.
Open Scope R_scope.

(** [np.log]: -inf at 0, NaN below *)
Definition nln (x : num) : num :=
  match x with
  | Fin r => if Rltb 0 r then Fin (ln r) else if Reqb r 0 then NInf else NaN
  | PInf => PInf | NInf => NaN | NaN => NaN
  end.
(** [np.sqrt]: NaN for negative values *)
Definition nsqrt (x : num) : num :=
  match x with
  | Fin r => if Rltb r 0 then NaN else Fin (sqrt r)
  | PInf => PInf | NInf => NaN | NaN => NaN
  end.

(** statistics.py:42-57, one element of the arrays.  Line numbers of the steps:
    p_on 43, p_off 44, t1 46, t2 47, replacement at 0 50-51, ts 53,
    significance 55, deficit set to zero 57. *)
Definition li_ma1 (n_on n_off alpha : num) : num :=
  let p_on := ndiv n_on (nadd n_on n_off) in
  let p_off := ndiv n_off (nadd n_on n_off) in
  let t1 := nmul n_on (nln (nmul (ndiv (nadd (Fin 1) alpha) alpha) p_on)) in
  let t2 := nmul n_off (nln (nmul (nadd (Fin 1) alpha) p_off)) in
  let t1 := if neqb n_on (Fin 0) then Fin 0 else t1 in
  let t2 := if neqb n_off (Fin 0) then Fin 0 else t2 in
  let ts := nadd t1 t2 in
  let significance := nsqrt (nmul ts (Fin 2)) in
  if nlt n_on (nmul alpha n_off) then Fin 0 else significance.

(** scalar or one-dimensional array-like arguments *)
Inductive array_like := Sc (x : num) | Ar (l : list num).
(** [np.array(x, ndmin=1)] *)
Definition atleast_1d (a : array_like) : list num := match a with Sc x => [x] | Ar l => l end.
(** utils.py:20-34 [is_scalar] *)
Definition is_scalar (a : array_like) : bool := match a with Sc _ => true | Ar _ => false end.

(** statistics.py:9-62 [li_ma_significance].  Arrays of different lengths do not
    broadcast (ValueError at line 43), except that a length-1 array does; then the
    boolean mask of line 50, 51 has length 1 but the array has not: IndexError.
    Line 59: only [n_on] decides whether a scalar is returned, [significance[0]]
    raises IndexError on an empty array. *)
Definition li_ma_significance (n_on n_off : array_like) (alpha : num) : res array_like :=
  let on := atleast_1d n_on in
  let off := atleast_1d n_off in
  if Nat.eqb (length on) (length off) then
    let significance := zipwith (fun a b => li_ma1 a b alpha) on off in
    if is_scalar n_on then
      match significance with s :: _ => Ok (Sc s) | [] => Err IndexError end
    else Ok (Ar significance)
  else if (Nat.eqb (length on) 1 || Nat.eqb (length off) 1)%bool then Err IndexError
  else Err ValueError.
