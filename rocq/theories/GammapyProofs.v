(** * Proofs about pyirf/gammapy.py *)
From Coq Require Import String Reals List Bool ZArith Arith Lia Lra.
From Verif Require Import Num Numpy Table Tensor Cuts Benchmarks Gadf SpecGadf GadfProofs3 Gammapy SpecGammapy.
Import ListNotations.
Open Scope R_scope.
Open Scope string_scope.

Lemma steadily_ok (lt : R -> R -> Prop) (f : num -> num -> bool) l : (forall x y, lt x y -> f (Fin x) (Fin y) = true) -> steadily lt l -> strictly f l = true.
Proof.
  intros Hf. induction l as [|a l IH]; auto. intros H. destruct l as [|b l]; auto. change (strictly f (a :: b :: l)) with (f a b && strictly f (b :: l)).
  apply andb_true_iff. split.
  - specialize (H 0%nat a b eq_refl eq_refl). destruct a, b; try contradiction. auto.
  - apply IH. intros i x y Hx Hy. apply (H (S i)); auto.
Qed.
Lemma from_edges_ok edges name : good_edges (a_val edges) -> from_edges edges name = Ok (mkAxis name (a_val edges) (a_unit edges)).
Proof.
  intros [H|H]; unfold from_edges.
  - rewrite (steadily_ok Rlt nlt) by (auto; intros x y Hxy; cbn; apply Rltb_true; auto). auto.
  - rewrite (steadily_ok Rgt ngt) by (auto; intros x y Hxy; cbn; apply Rltb_true; auto). rewrite orb_true_r. auto.
Qed.
(** equal or unordered edges *)
Lemma from_edges_bad edges name i a b j c d : nth_error (a_val edges) i = Some a -> nth_error (a_val edges) (S i) = Some b -> nlt a b = false ->
  nth_error (a_val edges) j = Some c -> nth_error (a_val edges) (S j) = Some d -> ngt c d = false -> from_edges edges name = Err ValueError.
Proof.
  intros H1 H2 H3 H4 H5 H6.
  assert (S : forall f l i a b, nth_error l i = Some a -> nth_error l (S i) = Some b -> f a b = false -> strictly f l = false).
  { clear. intros f. induction l as [|x l IH]; intros i a b Ha Hb Hf; [destruct i; discriminate|]. destruct l as [|y l]; [destruct i as [|[|]]; discriminate|].
    change (strictly f (x :: y :: l)) with (f x y && strictly f (y :: l)). destruct i as [|i]; [cbn in Ha, Hb; injection Ha as ->; injection Hb as ->; rewrite Hf; auto|].
    rewrite (IH i a b) by auto. apply andb_false_r. }
  unfold from_edges. rewrite (S _ _ _ _ _ H1 H2 H3), (S _ _ _ _ _ H4 H5 H6). auto.
Qed.
Lemma nat_list_eqb l m : list_eqb Nat.eqb l m = true <-> l = m.
Proof.
  revert m. induction l as [|a l IH]; intros [|b m]; cbn; split; try discriminate; auto.
  - rewrite andb_true_iff. intros (H1 & H2). apply Nat.eqb_eq in H1. apply IH in H2. congruence.
  - intros E. injection E as -> ->. rewrite Nat.eqb_refl. apply IH. auto.
Qed.
Lemma check_has q t : has_unit_of q t -> check_unit q t = Ok tt.
Proof. apply check_inv. Qed.
Ltac one_axis := split; [cbn; tauto|]; let a := fresh in let Ha := fresh in let E := fresh in
  intros a Ha E; cbn [In irf_axes] in Ha; repeat (destruct Ha as [Ha|Ha]; [subst a; first [reflexivity|discriminate]|]); destruct Ha.

Lemma area_irf area e off : has_unit_of (q_unit area) u_m2 -> has_unit_of (a_unit e) u_TeV -> has_unit_of (a_unit off) u_deg -> good_edges (a_val e) -> good_edges (a_val off) ->
  (shape (q_data area) = [n_bins e; n_bins off] -> exists r, create_effective_area_table_2d area e off = Ok r /\
    map ax_name (irf_axes r) = ["energy_true"; "offset"] /\ the_axis r "energy_true" e /\ the_axis r "offset" off /\ irf_unit r = q_unit area /\ shape (irf_data r) = shape (q_data area) /\
    forall bin, stored_for r bin = at_ (q_data area) [bin "energy_true"; bin "offset"]) /\
  (shape (q_data area) <> [n_bins e; n_bins off] -> create_effective_area_table_2d area e off = Err ValueError).
Proof.
  intros U1 U2 U3 G1 G2. unfold create_effective_area_table_2d. rewrite !check_has by auto. cbn [rbind]. unfold create_offset_axis, create_energy_axis_true. rewrite !from_edges_ok by auto. cbn [rbind].
  unfold EffectiveAreaTable2D, make_irf. destruct U1 as (v & Ev & Ed). rewrite Ev, Ed. cbn -[n_bins]. change (List.length (a_val e) - 1)%nat with (n_bins e). change (List.length (a_val off) - 1)%nat with (n_bins off).
  destruct (list_eqb Nat.eqb (shape (q_data area)) [n_bins e; n_bins off]) eqn:E.
  - apply nat_list_eqb in E. split; [|congruence]. intros _. eexists. split; [reflexivity|]. split; [reflexivity|]. split; [one_axis|]. split; [one_axis|]. repeat split; auto.
  - split; [|auto]. intros H. apply nat_list_eqb in H. congruence.
Qed.
Lemma psf_irf psf e src off : has_unit_of (q_unit psf) u_per_sr -> has_unit_of (a_unit e) u_TeV -> has_unit_of (a_unit src) u_deg -> has_unit_of (a_unit off) u_deg ->
  good_edges (a_val e) -> good_edges (a_val src) -> good_edges (a_val off) ->
  (shape (q_data psf) = [n_bins e; n_bins off; n_bins src] -> exists r, create_psf_3d psf e src off = Ok r /\
    map ax_name (irf_axes r) = ["energy_true"; "offset"; "rad"] /\ the_axis r "energy_true" e /\ the_axis r "offset" off /\ the_axis r "rad" src /\ irf_unit r = q_unit psf /\ shape (irf_data r) = shape (q_data psf) /\
    forall bin, stored_for r bin = at_ (q_data psf) [bin "energy_true"; bin "offset"; bin "rad"]) /\
  (shape (q_data psf) <> [n_bins e; n_bins off; n_bins src] -> create_psf_3d psf e src off = Err ValueError).
Proof.
  intros U1 U2 U3 U4 G1 G2 G3. unfold create_psf_3d. rewrite !check_has by auto. cbn [rbind]. unfold create_offset_axis, create_energy_axis_true. rewrite !from_edges_ok by auto. cbn [rbind].
  unfold PSF3D, make_irf. destruct U1 as (v & Ev & Ed). rewrite Ev, Ed. cbn -[n_bins].
  change (List.length (a_val e) - 1)%nat with (n_bins e). change (List.length (a_val off) - 1)%nat with (n_bins off). change (List.length (a_val src) - 1)%nat with (n_bins src).
  destruct (list_eqb Nat.eqb (shape (q_data psf)) [n_bins e; n_bins off; n_bins src]) eqn:E.
  - apply nat_list_eqb in E. split; [|congruence]. intros _. eexists. split; [reflexivity|]. split; [reflexivity|]. split; [one_axis|]. split; [one_axis|]. split; [one_axis|]. repeat split; auto.
  - split; [|auto]. intros H. apply nat_list_eqb in H. congruence.
Qed.
Lemma edisp_irf edisp e mig off : (q_unit edisp = None \/ has_unit_of (q_unit edisp) one_unit) -> has_unit_of (a_unit e) u_TeV -> has_unit_of (a_unit off) u_deg ->
  good_edges (a_val e) -> good_edges (a_val mig) -> good_edges (a_val off) ->
  (shape (q_data edisp) = [n_bins e; n_bins mig; n_bins off] -> exists r, create_energy_dispersion_2d edisp e mig off = Ok r /\
    map ax_name (irf_axes r) = ["energy_true"; "migra"; "offset"] /\ the_axis r "energy_true" e /\ the_axis r "migra" mig /\ the_axis r "offset" off /\ irf_unit r = q_unit edisp /\ shape (irf_data r) = shape (q_data edisp) /\
    forall bin, stored_for r bin = at_ (q_data edisp) [bin "energy_true"; bin "migra"; bin "offset"]) /\
  (shape (q_data edisp) <> [n_bins e; n_bins mig; n_bins off] -> create_energy_dispersion_2d edisp e mig off = Err ValueError).
Proof.
  intros U1 U2 U3 G1 G2 G3. unfold create_energy_dispersion_2d. rewrite !check_has by auto. cbn [rbind]. unfold create_offset_axis, create_energy_axis_true. rewrite !from_edges_ok by auto. cbn [rbind].
  unfold EnergyDispersion2D, make_irf. cbn -[n_bins]. change (List.length (a_val e) - 1)%nat with (n_bins e). change (List.length (a_val off) - 1)%nat with (n_bins off). change (List.length (a_val mig) - 1)%nat with (n_bins mig).
  assert (Q : match q_unit edisp with None => true | Some u => Nat.eqb (u_dim u) dimless_dim end = true).
  { destruct U1 as [->|(v & -> & Ed)]; auto. rewrite Ed. reflexivity. }
  rewrite Q.
  destruct (list_eqb Nat.eqb (shape (q_data edisp)) [n_bins e; n_bins mig; n_bins off]) eqn:E.
  - apply nat_list_eqb in E. split; [|congruence]. intros _. eexists. split; [reflexivity|]. split; [reflexivity|]. split; [one_axis|]. split; [one_axis|]. split; [one_axis|]. repeat split; auto.
  - split; [|auto]. intros H. apply nat_list_eqb in H. congruence.
Qed.
Lemma area_units area e off r : create_effective_area_table_2d area e off = Ok r -> has_unit_of (q_unit area) u_m2 /\ has_unit_of (a_unit e) u_TeV /\ has_unit_of (a_unit off) u_deg.
Proof.
  unfold create_effective_area_table_2d. intros H. destruct (check_unit (q_unit area) u_m2) as [[]|] eqn:E1; [|discriminate]. cbn [rbind] in H.
  destruct (check_unit (a_unit e) u_TeV) as [[]|] eqn:E2; [|discriminate]. cbn [rbind] in H. destruct (check_unit (a_unit off) u_deg) as [[]|] eqn:E3; [|discriminate].
  apply check_inv in E1, E2, E3. auto.
Qed.
Lemma psf_units psf e src off r : create_psf_3d psf e src off = Ok r -> has_unit_of (q_unit psf) u_per_sr /\ has_unit_of (a_unit e) u_TeV /\ has_unit_of (a_unit src) u_deg /\ has_unit_of (a_unit off) u_deg.
Proof.
  unfold create_psf_3d. intros H. destruct (check_unit (q_unit psf) u_per_sr) as [[]|] eqn:E1; [|discriminate]. cbn [rbind] in H.
  destruct (check_unit (a_unit e) u_TeV) as [[]|] eqn:E2; [|discriminate]. cbn [rbind] in H. destruct (check_unit (a_unit src) u_deg) as [[]|] eqn:E4; [|discriminate]. cbn [rbind] in H. destruct (check_unit (a_unit off) u_deg) as [[]|] eqn:E3; [|discriminate].
  apply check_inv in E1, E2, E3, E4. auto.
Qed.
Lemma bad_energy_edges area e off i a b j c d : has_unit_of (q_unit area) u_m2 -> has_unit_of (a_unit e) u_TeV -> has_unit_of (a_unit off) u_deg -> good_edges (a_val off) ->
  nth_error (a_val e) i = Some a -> nth_error (a_val e) (S i) = Some b -> nlt a b = false ->
  nth_error (a_val e) j = Some c -> nth_error (a_val e) (S j) = Some d -> ngt c d = false -> create_effective_area_table_2d area e off = Err ValueError.
Proof.
  intros U1 U2 U3 G H1 H2 H3 H4 H5 H6. unfold create_effective_area_table_2d. rewrite !check_has by auto. cbn [rbind]. unfold create_offset_axis, create_energy_axis_true. rewrite (from_edges_ok off) by auto. cbn [rbind].
  rewrite (from_edges_bad e _ i a b j c d) by auto. reflexivity.
Qed.
(** none of the results is marked as point-like *)
Lemma never_pointlike : (forall area e off r, create_effective_area_table_2d area e off = Ok r -> irf_pointlike r = false) /\
  (forall edisp e mig off r, create_energy_dispersion_2d edisp e mig off = Ok r -> irf_pointlike r = false) /\
  (forall psf e src off r, create_psf_3d psf e src off = Ok r -> irf_pointlike r = false).
Proof.
  assert (M : forall req u axes d p r, make_irf req u axes d p = Ok r -> irf_pointlike r = p).
  { intros req u axes d p r H. unfold make_irf in H. destruct (list_eqb _ _ _); [|discriminate]. destruct (match q_unit d with None => true | Some _ => _ end); [|discriminate]. destruct (list_eqb _ _ _); [|discriminate]. injection H as <-. auto. }
  split; [|split]; intros.
  - unfold create_effective_area_table_2d in H. repeat match type of H with rbind ?x _ = _ => destruct x; [cbn [rbind] in H|discriminate] end. eapply M; exact H.
  - unfold create_energy_dispersion_2d in H. repeat match type of H with rbind ?x _ = _ => destruct x; [cbn [rbind] in H|discriminate] end. eapply M; exact H.
  - unfold create_psf_3d in H. repeat match type of H with rbind ?x _ = _ => destruct x; [cbn [rbind] in H|discriminate] end. eapply M; exact H.
Qed.
