(** * Gammapy: pyirf/gammapy.py, with a small model of the classes of gammapy *)
From Coq Require Import String Reals List Bool ZArith Lia Lra.
From Verif Require Import Num Numpy Table Tensor Cuts Benchmarks Gadf.
Import ListNotations.
Open Scope R_scope.
Open Scope string_scope.

(** ** gammapy *)
(** [MapAxis]: name, edges, unit *)
Record map_axis := mkAxis { ax_name : string; ax_edges : list num; ax_unit : option unit_ }.
Fixpoint strictly (lt : num -> num -> bool) (l : list num) : bool :=
  match l with a :: (b :: _) as l' => lt a b && strictly lt l' | _ => true end.
(** [MapAxis.from_edges]: the nodes must be different and sorted, up or down *)
Definition from_edges (edges : arr) (name : string) : res map_axis :=
  if strictly nlt (a_val edges) || strictly ngt (a_val edges) then Ok (mkAxis name (a_val edges) (a_unit edges)) else Err ValueError.
(** [gammapy.irf.IRF] *)
Record gp_irf := mkIRF { irf_axes : list map_axis; irf_data : tensor; irf_unit : option unit_; irf_pointlike : bool }.
Fixpoint list_eqb {A} (e : A -> A -> bool) (l m : list A) : bool :=
  match l, m with [], [] => true | a :: l', b :: m' => e a b && list_eqb e l' m' | _, _ => false end.
(** [IRF.__init__]: names of the axes, unit, shape *)
Definition make_irf (required : list string) (default_unit : unit_) (axes : list map_axis) (data : qarray) (is_pointlike : bool) : res gp_irf :=
  if list_eqb String.eqb (map ax_name axes) required then
    if (match q_unit data with None => true | Some u => Nat.eqb (u_dim u) (u_dim default_unit) end) then
      if list_eqb Nat.eqb (shape (q_data data)) (map (fun a => (List.length (ax_edges a) - 1)%nat) axes)
      then Ok (mkIRF axes (q_data data) (q_unit data) is_pointlike) else Err ValueError
    else Err ValueError
  else Err ValueError.
Definition EffectiveAreaTable2D := make_irf ["energy_true"; "offset"] u_m2.
Definition PSF3D := make_irf ["energy_true"; "offset"; "rad"] u_per_sr.
Definition EnergyDispersion2D := make_irf ["energy_true"; "migra"; "offset"] one_unit.

(** ** pyirf *)
(** gammapy.py:13-17 *)
Definition create_offset_axis (fov_offset_bins : arr) := from_edges fov_offset_bins "offset".
Definition create_energy_axis_true (true_energy_bins : arr) := from_edges true_energy_bins "energy_true".
(** gammapy.py:20-53; [is_pointlike] has its default value *)
Definition create_effective_area_table_2d (effective_area : qarray) (true_energy_bins fov_offset_bins : arr) : res gp_irf :=
  do _ <- check_unit (q_unit effective_area) u_m2; do _ <- check_unit (a_unit true_energy_bins) u_TeV; do _ <- check_unit (a_unit fov_offset_bins) u_deg;
  do offset_axis <- create_offset_axis fov_offset_bins;
  do energy_axis_true <- create_energy_axis_true true_energy_bins;
  EffectiveAreaTable2D [energy_axis_true; offset_axis] effective_area false.
(** gammapy.py:57-97 *)
Definition create_psf_3d (psf : qarray) (true_energy_bins source_offset_bins fov_offset_bins : arr) : res gp_irf :=
  do _ <- check_unit (q_unit psf) u_per_sr; do _ <- check_unit (a_unit true_energy_bins) u_TeV; do _ <- check_unit (a_unit source_offset_bins) u_deg;
  do _ <- check_unit (a_unit fov_offset_bins) u_deg;
  do offset_axis <- create_offset_axis fov_offset_bins;
  do energy_axis_true <- create_energy_axis_true true_energy_bins;
  do rad_axis <- from_edges source_offset_bins "rad";
  PSF3D [energy_axis_true; offset_axis; rad_axis] psf false.
(** gammapy.py:100-138 *)
Definition create_energy_dispersion_2d (energy_dispersion : qarray) (true_energy_bins migration_bins fov_offset_bins : arr) : res gp_irf :=
  do _ <- check_unit (a_unit true_energy_bins) u_TeV; do _ <- check_unit (a_unit fov_offset_bins) u_deg;
  do offset_axis <- create_offset_axis fov_offset_bins;
  do energy_axis_true <- create_energy_axis_true true_energy_bins;
  do migra_axis <- from_edges migration_bins "migra";
  EnergyDispersion2D [energy_axis_true; migra_axis; offset_axis] energy_dispersion false.
