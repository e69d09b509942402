(** * SpecUnits: physical quantities given in different units *)
From Coq Require Import Reals List Bool ZArith.
From Verif Require Import Num Simulations Spectral Quantities SpectralUnits.
Import ListNotations.
Open Scope R_scope.

(** dimensions in length, mass, time, angle *)
Definition energy_dim : dim := mkDim 2 1 (-2) 0.
Definition length_dim : dim := mkDim 1 0 0 0.
Definition time_dim : dim := mkDim 0 0 1 0.
Definition angle_dim : dim := mkDim 0 0 0 1.
(** per energy, time and area; and per solid angle *)
Definition flux_dim (k : flux_unit) : dim := match k with PointSource => mkDim (-4) (-1) 1 0 | Diffuse => mkDim (-4) (-1) 1 (-2) end.
Definition unit_of (d : dim) (u : qunit) : Prop := qu_dim u = d /\ 0 < qu_scale u.
(** one TeV in SI units; 1/(TeV s m2) (per sr) in SI units is its inverse *)
Definition tev : R := 1602176634 / 10 ^ 16.
(** the number of the energy [x u] in TeV is [y] *)
Definition in_tev (x : num) (u : qunit) (y : num) : Prop := unit_of energy_dim u /\ y = nmul x (Fin (qu_scale u / tev)).
(** the number of the flux [x u] in 1/(TeV s m2), or 1/(TeV s m2 sr), is [y] *)
Definition in_flux_unit (x : num) (u : qunit) (k : flux_unit) (y : num) : Prop := unit_of (flux_dim k) u /\ y = nmul x (Fin (qu_scale u * tev)).
(** the numbers of times, lengths, angles in s, m, rad *)
Definition in_si (d : dim) (x : R) (u : qunit) (y : R) : Prop := unit_of d u /\ y = x * qu_scale u.

(** [q] is the spectrum [s] with its normalisation and reference energy given in any units *)
Definition measures (s : spectrum) (q : qspectrum) : Prop :=
  match s, q with
  | PowerLaw p, QPowerLaw n i e =>
      in_flux_unit (q_val n) (q_unit n) (pl_unit p) (pl_norm p) /\ i = pl_index p /\ in_tev (q_val e) (q_unit e) (Fin (pl_e_ref p))
  | LogParabola norm u a b e_ref, QLogParabola n a' b' e =>
      in_flux_unit (q_val n) (q_unit n) u norm /\ a' = a /\ b' = b /\ in_tev (q_val e) (q_unit e) (Fin e_ref)
  | ExpGauss p f mu sigma, QExpGauss n i e f' mu' sigma' =>
      in_flux_unit (q_val n) (q_unit n) (pl_unit p) (pl_norm p) /\ i = pl_index p /\ in_tev (q_val e) (q_unit e) (Fin (pl_e_ref p)) /\
      f' = f /\ mu' = mu /\ sigma' = sigma
  | _, _ => False
  end.
(** [q] is the simulation [s] with energies, lengths and angles in any units *)
Definition sim_measures (s : sim_info) (q : qsim) : Prop :=
  qs_n_showers q = n_showers s /\ qs_index q = spectral_index s /\
  in_tev (Fin (fst (qs_energy_min q))) (snd (qs_energy_min q)) (Fin (energy_min s)) /\
  in_tev (Fin (fst (qs_energy_max q))) (snd (qs_energy_max q)) (Fin (energy_max s)) /\
  in_si length_dim (fst (qs_max_impact q)) (snd (qs_max_impact q)) (max_impact s) /\
  in_si angle_dim (fst (qs_viewcone_min q)) (snd (qs_viewcone_min q)) (viewcone_min s) /\
  in_si angle_dim (fst (qs_viewcone_max q)) (snd (qs_viewcone_max q)) (viewcone_max s).
(** the same physical quantity *)
Definition same_quantity (x : num) (u : qunit) (y : num) (v : qunit) : Prop :=
  qu_dim u = qu_dim v /\ nmul x (Fin (qu_scale u)) = nmul y (Fin (qu_scale v)).
Definition same_real (a : R * qunit) (b : R * qunit) : Prop := qu_dim (snd a) = qu_dim (snd b) /\ fst a * qu_scale (snd a) = fst b * qu_scale (snd b).
