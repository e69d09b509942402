(** * SpecSensitivity: detection requirements and the contract of scipy's brentq. *)
From Coq Require Import String Reals List Bool ZArith Lia Lra.
From Verif Require Import Num Table SpecStatistics.
Import ListNotations.
Open Scope R_scope.

(** the three detection requirements for a source [r] times as bright as the reference *)
Definition detectable (n_signal n_off alpha min_significance min_signal_events min_excess r : R) : Prop :=
  min_significance <= lima (n_signal * r + alpha * n_off) n_off alpha /\
  min_signal_events <= n_signal * r /\
  min_excess * (alpha * n_off) <= n_signal * r.

(** scipy's default tolerances: xtol = 2e-12, rtol = 4 * 2^-52 *)
Definition brentq_tol (x : R) : R := 2 / 1000000000000 + / 2 ^ 50 * Rabs x.
(** when brentq returns [x], then [x] is in the bracket and within the tolerance of a
    sign change of [f] (its final bracket) *)
Definition brentq_sound (brentq : (R -> num) -> R -> R -> res R) : Prop :=
  forall f a b x, a <= b -> brentq f a b = Ok x ->
    a <= x <= b /\
    exists y z, a <= y <= b /\ a <= z <= b /\ Rabs (y - x) <= brentq_tol x /\ Rabs (z - x) <= brentq_tol x /\
      nle (f y) (Fin 0) = true /\ nle (Fin 0) (f z) = true.
(** no sign change at the ends of the bracket: ValueError *)
Definition brentq_checks_signs (brentq : (R -> num) -> R -> R -> res R) : Prop :=
  forall f a b, a <= b ->
    (nlt (Fin 0) (f a) = true /\ nlt (Fin 0) (f b) = true) \/
    (nlt (f a) (Fin 0) = true /\ nlt (f b) (Fin 0) = true) ->
    brentq f a b = Err ValueError.
(** a sign change and no NaN in the bracket: brentq converges *)
Definition brentq_converges (brentq : (R -> num) -> R -> R -> res R) : Prop :=
  forall f a b, a <= b -> (forall x, a <= x <= b -> is_nan (f x) = false) ->
    nle (f a) (Fin 0) = true -> nle (Fin 0) (f b) = true ->
    exists x, brentq f a b = Ok x.

(** linear interpolation between tabulated points, constant outside *)
Inductive interpolates (xs ys : list R) (x : R) : R -> Prop :=
| interp_left x0 y0 : nth_error xs 0 = Some x0 -> nth_error ys 0 = Some y0 -> x <= x0 ->
    interpolates xs ys x y0
| interp_right xn yn : nth_error xs (List.length xs - 1) = Some xn ->
    nth_error ys (List.length ys - 1) = Some yn -> xn <= x -> interpolates xs ys x yn
| interp_between i x0 x1 y0 y1 : nth_error xs i = Some x0 -> nth_error xs (S i) = Some x1 ->
    nth_error ys i = Some y0 -> nth_error ys (S i) = Some y1 -> x0 <= x <= x1 -> x0 < x1 ->
    interpolates xs ys x (y0 + (x - x0) / (x1 - x0) * (y1 - y0)).
(** the annulus [min, max) has solid angle proportional to cos min - cos max *)
Definition ring_ratio (theta min max : R) : R := (1 - cos theta) / (cos min - cos max).

(** ** tables with a binning in reconstructed energy *)
(** both tables have the three edge columns, with the same (non-NaN) values *)
Definition same_binning (t1 t2 : table) : Prop :=
  forall name, In name ["reco_energy_low"; "reco_energy_center"; "reco_energy_high"]%string ->
    exists l, getitem t1 name = Some (CN l) /\ getitem t2 name = Some (CN l) /\
      (forall x, In x l -> is_nan x = false).
(** column [name] has the values [l] (integers read as reals) *)
Definition column (t : table) (name : string) (l : list num) : Prop :=
  getitem t name = Some (CN l) \/
  exists z, getitem t name = Some (CZ z) /\ l = map (fun k => Fin (IZR k)) z.
(** names of the columns calculate_sensitivity writes itself *)
Definition reserved : list string :=
  ["n_signal"; "n_signal_weighted"; "n_background"; "n_background_weighted"]%string.
(** the theta cut that applies to an energy bin: the tabulated cuts interpolated at the
    bin centre; overflow and underflow bins take the last and the first cut *)
Inductive cut_for_bin (centers cuts : list R) : num -> num -> R -> Prop :=
| cut_finite lo hi theta : interpolates centers cuts ((lo + hi) / 2) theta ->
    cut_for_bin centers cuts (Fin lo) (Fin hi) theta
| cut_overflow lo theta : nth_error cuts (List.length cuts - 1) = Some theta ->
    cut_for_bin centers cuts (Fin lo) PInf theta
| cut_underflow hi theta : nth_error cuts 0 = Some theta ->
    cut_for_bin centers cuts NInf (Fin hi) theta.
(** a distance to the field-of-view centre in the ring: inner radius included, outer excluded *)
Definition in_annulus (min max : R) (offset : num) : Prop :=
  nle (Fin min) offset = true /\ nlt offset (Fin max) = true.
