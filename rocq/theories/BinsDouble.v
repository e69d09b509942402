(** * BinsDouble: bin edges, bin centres and percentiles with every operation rounded to double precision *)
From Coq Require Import Reals List Bool ZArith Lia Lra.
From Verif Require Import Num Numpy Binning Percentile Double.
Import ListNotations.
Open Scope R_scope.

(** [np.arange(start, stop, step)] for doubles, step > 0 (numpy's [_calc_length] and [DOUBLE_fill]): the length is
    ceil((stop - start) / step), or 1 if that quotient underflows; the first two entries are start and start + step, and the
    others are start + i * (second - first).  Not modelled: lengths above 2^63 (also a ValueError) and memory *)
Definition arange_double (start stop step : num) : res (list num) :=
  let span := fsub stop start in
  match fdiv span step with
  | Fin v =>
      let len := if (Reqb v 0 && negb (neqb span (Fin 0)))%bool then (if nlt (Fin 0) span then 1%nat else 0%nat)
                 else Z.to_nat (Rceil v) in
      let next := fadd start step in
      let delta := fsub next start in
      Ok (map (fun i => match i with
                        | O => start
                        | S O => next
                        | _ => fadd start (fmul (Fin (INR i)) delta)
                        end) (seq 0 len))
  | _ => Err ValueError
  end.
(** binning.py:121-130, as [Binning.create_bins_per_decade], in double precision; [hi] is e_max in the unit of e_min;
    [log10f], [powf]: numpy's [np.log10] and [10 ** x] *)
Definition create_bins_per_decade_double (log10f powf : num -> num) (lo hi : num) (n : nat) : res (list num) :=
  match n with
  | O => Err ZeroDivisionError
  | _ =>
      let log_lower := log10f lo in
      let log_upper := log10f hi in
      let step := fdiv (Fin 1) (Fin (INR n)) in
      let eps := fdiv step (Fin 10000) in
      do x <- arange_double log_lower (fadd log_upper eps) step;
      Ok (map powf x)
  end.
(** binning.py:19-20, as [Binning.bin_center], in double precision *)
Definition bin_center_double (edges : list num) : list num :=
  zipwith (fun a b => fmul (Fin (1 / 2)) (fadd a b)) (but_last edges) (tl edges).

(** numpy's [_lerp], as [Percentile.nlerp], in double precision *)
Definition lerp_double (a b t : num) : num :=
  let diff := fsub b a in
  if nlt t (Fin (1 / 2)) then fadd a (fmul diff t) else fsub b (fmul diff (fsub (Fin 1) t)).
(** [np.percentile(l, p)] of an array without NaN, as [Percentile.np_percentile], in double precision: position
    (n - 1) * (p / 100) in the sorted array; ValueError unless 0 <= p / 100 <= 1 *)
Definition percentile_double (l : list num) (p : num) : res num :=
  let q := fdiv p (Fin 100) in
  if (nle (Fin 0) q && nle q (Fin 1))%bool then
    match l with
    | [] => Ok NaN
    | _ =>
        let s := nsort l in
        let n := length s in
        match fmul (Fin (INR (n - 1))) q with
        | Fin v =>
            if Rleb (INR (n - 1)) v then Ok (last s NaN)
            else let i := Z.to_nat (Rfloor v) in
                 Ok (lerp_double (nth i s NaN) (nth (S i) s NaN) (fsub (Fin v) (Fin (INR i))))
        | _ => Ok NaN
        end
    end
  else Err ValueError.
(** [np.nanpercentile(l, p)], as [Percentile.nanpercentile], in double precision *)
Definition nanpercentile_double (l : list num) (p : num) : res num := percentile_double (drop_nan l) p.
