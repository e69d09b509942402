(** * Double: double precision arithmetic (IEEE 754 binary64, round to nearest, ties to even), and code of pyirf with
    every operation rounded.  The sign of zero is not modelled *)
From Coq Require Import Reals List Bool ZArith Lia Lra.
From Flocq Require Import Core.
From Verif Require Import Num Numpy Binning Statistics.
Import ListNotations.
Open Scope R_scope.

(** rounding to 53 binary digits, multiples of 2^-1074, exponents without upper limit *)
Definition round64 (x : R) : R := round radix2 (FLT_exp (-1074) 53) ZnearestE x.
(** the double nearest to a real number; infinity beyond the largest double [fmax] *)
Definition fl (x : R) : num :=
  let r := round64 x in
  if Rltb fmax (Rabs r) then (if Rltb 0 r then PInf else NInf) else Fin r.
Definition fl_num (x : num) : num := match x with Fin r => fl r | _ => x end.
(** one rounded operation *)
Definition fadd (x y : num) : num := fl_num (nadd x y).
Definition fsub (x y : num) : num := fl_num (nsub x y).
Definition fmul (x y : num) : num := fl_num (nmul x y).
Definition fdiv (x y : num) : num := fl_num (ndiv x y).
Definition fsqrt (x : num) : num :=
  match x with
  | Fin r => if Rltb r 0 then NaN else fl (sqrt r)
  | PInf => PInf | NInf => NaN | NaN => NaN
  end.

(** statistics.py:42-57 for one element, as [Statistics.li_ma1], in double precision; [log]: numpy's [np.log] *)
Definition li_ma_double (log : num -> num) (n_on n_off alpha : num) : num :=
  let p_on := fdiv n_on (fadd n_on n_off) in
  let p_off := fdiv n_off (fadd n_on n_off) in
  let t1 := fmul n_on (log (fmul (fdiv (fadd (Fin 1) alpha) alpha) p_on)) in
  let t2 := fmul n_off (log (fmul (fadd (Fin 1) alpha) p_off)) in
  let t1 := if neqb n_on (Fin 0) then Fin 0 else t1 in
  let t2 := if neqb n_off (Fin 0) then Fin 0 else t2 in
  let ts := fadd t1 t2 in
  let significance := fsqrt (fmul ts (Fin 2)) in
  if nlt n_on (fmul alpha n_off) then Fin 0 else significance.
(** statistics.py:9-62, as [Statistics.li_ma_significance], in double precision *)
Definition li_ma_significance_double (log : num -> num) (n_on n_off : array_like) (alpha : num) : res array_like :=
  let on := atleast_1d n_on in
  let off := atleast_1d n_off in
  if Nat.eqb (length on) (length off) then
    let significance := zipwith (fun a b => li_ma_double log a b alpha) on off in
    if is_scalar n_on then
      match significance with s :: _ => Ok (Sc s) | [] => Err IndexError end
    else Ok (Ar significance)
  else if (Nat.eqb (length on) 1 || Nat.eqb (length off) 1)%bool then Err IndexError
  else Err ValueError.
