(** * Properties of pyirf/gammapy.py (C65) *)
From Coq Require Import String Reals List Bool ZArith Arith Lia Lra.
From Verif Require Import Num Numpy Table Tensor Benchmarks Gadf SpecGadf Gammapy SpecGammapy GammapyProofs.
Import ListNotations.
Open Scope R_scope.
Open Scope string_scope.

(** axes by name with edges and units; the number for the bins i, j; a wrong shape *)
Theorem C65_effective_area : forall area e off,
  has_unit_of (q_unit area) u_m2 -> has_unit_of (a_unit e) u_TeV -> has_unit_of (a_unit off) u_deg -> good_edges (a_val e) -> good_edges (a_val off) ->
  (shape (q_data area) = [n_bins e; n_bins off] -> exists r, create_effective_area_table_2d area e off = Ok r /\
    map ax_name (irf_axes r) = ["energy_true"; "offset"] /\ the_axis r "energy_true" e /\ the_axis r "offset" off /\ irf_unit r = q_unit area /\ shape (irf_data r) = shape (q_data area) /\
    forall bin, stored_for r bin = at_ (q_data area) [bin "energy_true"; bin "offset"]) /\
  (shape (q_data area) <> [n_bins e; n_bins off] -> create_effective_area_table_2d area e off = Err ValueError).
Proof. exact area_irf. Qed.
Print Assumptions C65_effective_area.
Theorem C65_psf : forall psf e src off,
  has_unit_of (q_unit psf) u_per_sr -> has_unit_of (a_unit e) u_TeV -> has_unit_of (a_unit src) u_deg -> has_unit_of (a_unit off) u_deg ->
  good_edges (a_val e) -> good_edges (a_val src) -> good_edges (a_val off) ->
  (shape (q_data psf) = [n_bins e; n_bins off; n_bins src] -> exists r, create_psf_3d psf e src off = Ok r /\
    map ax_name (irf_axes r) = ["energy_true"; "offset"; "rad"] /\ the_axis r "energy_true" e /\ the_axis r "offset" off /\ the_axis r "rad" src /\ irf_unit r = q_unit psf /\ shape (irf_data r) = shape (q_data psf) /\
    forall bin, stored_for r bin = at_ (q_data psf) [bin "energy_true"; bin "offset"; bin "rad"]) /\
  (shape (q_data psf) <> [n_bins e; n_bins off; n_bins src] -> create_psf_3d psf e src off = Err ValueError).
Proof. exact psf_irf. Qed.
Print Assumptions C65_psf.
Theorem C65_energy_dispersion : forall edisp e mig off,
  (q_unit edisp = None \/ has_unit_of (q_unit edisp) one_unit) -> has_unit_of (a_unit e) u_TeV -> has_unit_of (a_unit off) u_deg ->
  good_edges (a_val e) -> good_edges (a_val mig) -> good_edges (a_val off) ->
  (shape (q_data edisp) = [n_bins e; n_bins mig; n_bins off] -> exists r, create_energy_dispersion_2d edisp e mig off = Ok r /\
    map ax_name (irf_axes r) = ["energy_true"; "migra"; "offset"] /\ the_axis r "energy_true" e /\ the_axis r "migra" mig /\ the_axis r "offset" off /\ irf_unit r = q_unit edisp /\ shape (irf_data r) = shape (q_data edisp) /\
    forall bin, stored_for r bin = at_ (q_data edisp) [bin "energy_true"; bin "migra"; bin "offset"]) /\
  (shape (q_data edisp) <> [n_bins e; n_bins mig; n_bins off] -> create_energy_dispersion_2d edisp e mig off = Err ValueError).
Proof. exact edisp_irf. Qed.
Print Assumptions C65_energy_dispersion.
Theorem C65_effective_area_units : forall area e off r,
  create_effective_area_table_2d area e off = Ok r -> has_unit_of (q_unit area) u_m2 /\ has_unit_of (a_unit e) u_TeV /\ has_unit_of (a_unit off) u_deg.
Proof. exact area_units. Qed.
Print Assumptions C65_effective_area_units.
Theorem C65_psf_units : forall psf e src off r,
  create_psf_3d psf e src off = Ok r -> has_unit_of (q_unit psf) u_per_sr /\ has_unit_of (a_unit e) u_TeV /\ has_unit_of (a_unit src) u_deg /\ has_unit_of (a_unit off) u_deg.
Proof. exact psf_units. Qed.
Print Assumptions C65_psf_units.
(** edges that neither go up nor down *)
Theorem C65_edges : forall area e off i a b j c d,
  has_unit_of (q_unit area) u_m2 -> has_unit_of (a_unit e) u_TeV -> has_unit_of (a_unit off) u_deg -> good_edges (a_val off) ->
  nth_error (a_val e) i = Some a -> nth_error (a_val e) (S i) = Some b -> nlt a b = false ->
  nth_error (a_val e) j = Some c -> nth_error (a_val e) (S j) = Some d -> ngt c d = false -> create_effective_area_table_2d area e off = Err ValueError.
Proof. exact bad_energy_edges. Qed.
Print Assumptions C65_edges.
(** expected: point-like IRFs are marked (a single offset bin is documented as appropriate for them) *)
Theorem C65_pointlike_refuted : (forall area e off r, create_effective_area_table_2d area e off = Ok r -> irf_pointlike r = false) /\
  (forall edisp e mig off r, create_energy_dispersion_2d edisp e mig off = Ok r -> irf_pointlike r = false).
Proof. split; apply never_pointlike. Qed.
Print Assumptions C65_pointlike_refuted.
Theorem C65_psf_full_enclosure : forall psf e src off r, create_psf_3d psf e src off = Ok r -> irf_pointlike r = false.
Proof. apply never_pointlike. Qed.
Print Assumptions C65_psf_full_enclosure.
Definition area65 : qarray := mkQ (mkT [2; 1]%nat (fun ix => match ix with (0 :: _)%nat => Fin 3 | _ => Fin 5 end)) (Some u_m2).
Definition e65 : arr := mkArr [Fin 1; Fin 10; Fin 100] (Some u_TeV).
Definition off65 : arr := mkArr [Fin 0; Fin 1] (Some u_deg).
(** for [C65_effective_area] *)
Example C65_example : has_unit_of (q_unit area65) u_m2 /\ has_unit_of (a_unit e65) u_TeV /\ has_unit_of (a_unit off65) u_deg /\ good_edges (a_val e65) /\ good_edges (a_val off65) /\
  shape (q_data area65) = [n_bins e65; n_bins off65] /\
  (exists r, create_effective_area_table_2d area65 e65 off65 = Ok r /\ stored_for r (fun n => if String.eqb n "energy_true" then 1%nat else 0%nat) = Fin 5).
Proof.
  assert (U1 : has_unit_of (q_unit area65) u_m2) by (eexists; split; reflexivity).
  assert (U2 : has_unit_of (a_unit e65) u_TeV) by (eexists; split; reflexivity).
  assert (U3 : has_unit_of (a_unit off65) u_deg) by (eexists; split; reflexivity).
  assert (G1 : good_edges (a_val e65)) by (left; intros [|[|[|?]]] a b Ha Hb; cbn in Ha, Hb; try discriminate; injection Ha as <-; injection Hb as <-; lra).
  assert (G2 : good_edges (a_val off65)) by (left; intros [|[|[|?]]] a b Ha Hb; cbn in Ha, Hb; try discriminate; injection Ha as <-; injection Hb as <-; lra).
  repeat (split; [assumption|]). split; [reflexivity|]. destruct (C65_effective_area area65 e65 off65 U1 U2 U3 G1 G2) as (H & _). destruct (H eq_refl) as (r & E & _ & _ & _ & _ & _ & S).
  exists r. split; [exact E|]. rewrite S. reflexivity.
Qed.
