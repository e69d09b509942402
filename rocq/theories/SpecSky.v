(** * SpecSky: event tables for C91 *)
From Coq Require Import Reals List ZArith.
From Verif Require Import Num Utils SkyUnits SpecUtils.
Import ListNotations.
Open Scope R_scope.

(** the event with all azimuth angles increased by [c] *)
Definition rotated (c : R) (e : sky_event) : sky_event :=
  mkSky (true_az e + c) (true_alt e) (reco_az e + c) (reco_alt e) (pointing_az e + c) (pointing_alt e).
(** azimuth angles that differ by full turns *)
Definition same_azimuth (a a' : R) : Prop := exists k : Z, a' = a + 2 * PI * IZR k.
Definition same_directions (e e' : sky_event) : Prop :=
  same_azimuth (true_az e) (true_az e') /\ same_azimuth (reco_az e) (reco_az e') /\ same_azimuth (pointing_az e) (pointing_az e') /\
  true_alt e' = true_alt e /\ reco_alt e' = reco_alt e /\ pointing_alt e' = pointing_alt e.
(** the same angles, in the units [u] and [u'] *)
Definition same_angles (u u' : sky_units) (e e' : sky_event) : Prop :=
  true_az e * u_true_az u = true_az e' * u_true_az u' /\ true_alt e * u_true_alt u = true_alt e' * u_true_alt u' /\
  reco_az e * u_reco_az u = reco_az e' * u_reco_az u' /\ reco_alt e * u_reco_alt u = reco_alt e' * u_reco_alt u' /\
  pointing_az e * u_pointing_az u = pointing_az e' * u_pointing_az u' /\ pointing_alt e * u_pointing_alt u = pointing_alt e' * u_pointing_alt u'.
(** each of three sides is at most the sum of the other two *)
Definition sides (a b c : R) : Prop := a <= b + c /\ b <= a + c /\ c <= a + b.
