(** * SpecDouble: double precision *)
From Coq Require Import Reals ZArith List Permutation.
From Verif Require Import Num SpecBinning.
Open Scope R_scope.

(** the relative precision 2^-53 *)
Definition eps53 : R := / 2 ^ 53.
(** a double: an integer of at most 53 bits times a power of two from 2^-1074 to 2^971 *)
Definition double (x : R) : Prop := exists (m e : Z), (Z.abs m < 2 ^ 53)%Z /\ (-1074 <= e <= 971)%Z /\ x = IZR m * powerRZ 2 e.
(** a logarithm for doubles that is accurate to two units of relative precision *)
Definition accurate_log (log : num -> num) : Prop :=
  forall x, 0 < x -> double x -> exists l, log (Fin x) = Fin l /\ Rabs (l - ln x) <= 2 * eps53 * Rabs (ln x).
(** neither tiny nor huge *)
Definition moderate (x : R) : Prop := / 10 ^ 60 <= x <= 10 ^ 60.
(** the size of the two terms of the Li & Ma formula, before they cancel *)
Definition lima_terms (n_on n_off alpha : R) : R :=
  n_on * (1 + Rabs (ln ((1 + alpha) / alpha * (n_on / (n_on + n_off))))) + n_off * (1 + Rabs (ln ((1 + alpha) * (n_off / (n_on + n_off))))).
(** bins whose widths are neither tiny nor huge *)
Definition moderate_widths (edges : list R) : Prop :=
  forall i a b, nth_error edges i = Some a -> nth_error edges (S i) = Some b -> moderate (b - a).
(** a cosine for doubles from 0 to 5 that is accurate to two units of precision *)
Definition accurate_cos (cosine : num -> num) : Prop :=
  forall x, 0 <= x <= 5 -> double x -> exists c, cosine (Fin x) = Fin c /\ Rabs (c - cos x) <= 2 * eps53.
(** the elements in the order of a sorting algorithm, NaN last; the order of equal values is not determined *)
Definition sorting {A} (x : A -> num) (argsort : list A -> list A) : Prop :=
  forall l, Permutation l (argsort l) /\
    forall i j a b, (i < j)%nat -> nth_error (argsort l) i = Some a -> nth_error (argsort l) j = Some b ->
      is_nan (x b) = true \/ nle (x a) (x b) = true.
(** not beyond the upper edge of bin [k]: below it, or on it if it is the last *)
Definition up_to_bin (edges : list num) (k : nat) (x : num) : Prop :=
  exists hi, nth_error edges (S k) = Some hi /\ (nlt x hi = true \/ ((S (S k) = List.length edges)%nat /\ x = hi)).
(** [h] is the weighted histogram up to rounding: never negative, exactly 0 without events, and the error of a bin is small
    compared with the weights of all events up to the upper edge of that bin *)
Definition close_histogram {A} (x : A -> num) (w : A -> R) (evs : list A) (edges : list num) (h : list num) : Prop :=
  List.length h = (List.length edges - 1)%nat /\
  forall k y, nth_error h k = Some y -> exists v, y = Fin v /\ 0 <= v /\
    ((forall e, In e evs -> ~ in_hist_bin edges k (x e)) -> v = 0) /\
    forall c t, weight_of w (fun e => in_hist_bin edges k (x e)) evs c -> weight_of w (fun e => up_to_bin edges k (x e)) evs t ->
      Rabs (v - c) <= 6 * eps53 * (Rmin (INR (List.length evs)) 65536 + INR (List.length evs) / 65536 + 1) * t.
(** usable weights: doubles, not negative, with a total of at most 10^300 *)
Definition usable_weights {A} (w : A -> R) (evs : list A) : Prop :=
  (forall e, In e evs -> 0 <= w e /\ double (w e)) /\ (forall t, weight_of w (fun _ => True) evs t -> t <= 10 ^ 300).
