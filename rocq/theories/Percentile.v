(** * Percentile: numpy's percentile family (method 'linear'), used by cuts.py and benchmarks/ *)
From Coq Require Import String Reals List Bool ZArith Lia Lra Permutation Sorted.
From Verif Require Import Num Numpy Sort.
Import ListNotations.
Open Scope R_scope.

(** order of [np.sort]: NaN last *)
Definition np_le (a b : num) : bool := is_nan b || nle a b.
Definition nsort : list num -> list num := isort np_le.

(** floor of a real as an integer *)
Definition Rfloor (x : R) : Z := (up x - 1)%Z.

(** numpy's [_lerp]: a + (b - a) * t, evaluated from the nearer end *)
Definition nlerp (a b : num) (t : R) : num :=
  let diff := nsub b a in
  if Rltb t (1/2) then nadd a (nmul diff (Fin t)) else nsub b (nmul diff (Fin (1 - t))).

(** [np.percentile(l, p)] of a non-empty array without NaN: virtual index p/100*(n-1) *)
Definition np_percentile (l : list num) (p : R) : num :=
  let s := nsort l in
  let n := length s in
  let v := p / 100 * INR (n - 1) in
  let i := Z.to_nat (Rfloor v) in
  if Rleb (INR (n - 1)) v then last s NaN
  else nlerp (nth i s NaN) (nth (S i) s NaN) (v - INR i).

Definition drop_nan (l : list num) : list num := filter (fun x => negb (is_nan x)) l.

(** [np.nanpercentile(l, p)]: NaN entries are dropped; NaN if nothing is left;
    ValueError unless 0 <= p <= 100. *)
Definition nanpercentile (l : list num) (p : R) : res num :=
  if Rltb p 0 || Rltb 100 p then Err ValueError else
  match drop_nan l with
  | [] => Ok NaN
  | l' => Ok (np_percentile l' p)
  end.
