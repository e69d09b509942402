(** * Proofs about the functions of pyirf/io/gadf.py *)
From Coq Require Import String Ascii Reals List Bool ZArith Arith Lia Lra.
From Verif Require Import Num Numpy Table Tensor Binning Cuts Benchmarks BenchmarkProofs2 Gadf SpecGadf GadfProofs.
Import ListNotations.
Open Scope R_scope.
Open Scope string_scope.

Lemma cref_lookup t h n cards user k v : no_card user k -> upper k = k -> structural k = false -> k <> "EXTNAME" -> last_card cards k v ->
  getitem (hdu_header (bin_table_hdu t (apply_cards h (cards ++ user)) n)) k = Some v.
Proof. intros H1 H2 H3 H4 H5. rewrite hdu_lookup by auto. rewrite apply_app, apply_none by auto. apply apply_last; auto. Qed.
Lemma last_last (cards : list (string * hval)) k v : upper k = k -> last_card (cards ++ [(k, v)]) k v.
Proof. intros H. exists cards, k, []. repeat split; auto. Qed.
Lemma check_ok u target : u_dim u = u_dim target -> check_unit (Some u) target = Ok tt.
Proof. intros H. unfold check_unit. rewrite H, Nat.eqb_refl. auto. Qed.
Lemma to_unit_ok t u target : u_dim u = u_dim target -> to_unit (mkQ t (Some u)) target = Ok (tmap (convert_val u target) t, Some target).
Proof. intros H. unfold to_unit. cbn. rewrite H, Nat.eqb_refl. auto. Qed.
Ltac gadf_table :=
  match goal with |- exists h, snd (with_table ?hp (Ok ?t) ?f) = Ok h /\ _ => unfold with_table end;
  match goal with |- exists h, snd (finish ?a ?b ?c ?d ?e) = Ok h /\ _ => destruct (finish_spec a b c d e) as (EF & _); rewrite EF; clear EF end;
  eexists; split; [reflexivity|]; cbn [hdu_table bin_table_hdu].
Ltac gadf_cref := let H := fresh in intros H; match goal with |- axes_keyword _ _ _ => idtac end.

Section Writers.
  Context (hp : heap) (now extname : string) (cards : list (string * hval)).

  Lemma aeff_table area ua e ue th uth pl :
    u_dim ua = u_dim u_m2 -> u_dim ue = u_dim u_TeV -> u_dim uth = u_dim u_deg -> 0 < u_scale ua -> 0 < u_scale ue -> 0 < u_scale uth ->
    exists h, snd (create_aeff2d_hdu hp now (mkQ area (Some ua)) (mkArr e (Some ue)) (mkArr th (Some uth)) extname pl cards) = Ok h /\
      colnames (hdu_table h) = ["ENERG_LO"; "ENERG_HI"; "THETA_LO"; "THETA_HI"; "EFFAREA"] /\
      axis_in (hdu_table h) "ENERG" u_TeV (mkArr e (Some ue)) /\ axis_in (hdu_table h) "THETA" u_deg (mkArr th (Some uth)) /\
      stored (hdu_table h) "EFFAREA" u_m2 ua area /\
      (no_card cards "CREF5" -> axes_keyword h "EFFAREA" ["ENERG"; "THETA"]).
  Proof.
    intros Da De Dt Pa Pe Pt. unfold create_aeff2d_hdu, row, transposed. cbn [q_unit a_unit q_data a_val]. rewrite !check_ok, !to_unit_ok by auto. cbn [rbind].
    gadf_table. repeat split.
    - apply (axis_in_of _ _ _ _ ue); auto. cbn; lra.
    - apply (axis_in_of _ _ _ _ uth); auto. cbn; lra.
    - apply stored_of; auto. cbn; lra.
    - intros Hn. exists 4%nat. split; [reflexivity|]. apply cref_lookup; auto; try discriminate. unfold clas. cbn [app]. apply (last_last [_; _; _; _; _]). reflexivity.
  Qed.
  Lemma psf_table psf up e ue s us th uth :
    u_dim up = u_dim u_per_sr -> u_dim ue = u_dim u_TeV -> u_dim us = u_dim u_deg -> u_dim uth = u_dim u_deg -> 0 < u_scale up -> 0 < u_scale ue -> 0 < u_scale us -> 0 < u_scale uth ->
    exists h, snd (create_psf_table_hdu hp now (mkQ psf (Some up)) (mkArr e (Some ue)) (mkArr s (Some us)) (mkArr th (Some uth)) extname cards) = Ok h /\
      colnames (hdu_table h) = ["ENERG_LO"; "ENERG_HI"; "THETA_LO"; "THETA_HI"; "RAD_LO"; "RAD_HI"; "RPSF"] /\
      axis_in (hdu_table h) "ENERG" u_TeV (mkArr e (Some ue)) /\ axis_in (hdu_table h) "THETA" u_deg (mkArr th (Some uth)) /\ axis_in (hdu_table h) "RAD" u_deg (mkArr s (Some us)) /\
      stored (hdu_table h) "RPSF" u_per_sr up psf /\
      (no_card cards "CREF7" -> axes_keyword h "RPSF" ["ENERG"; "THETA"; "RAD"]).
  Proof.
    intros Da De Ds Dt Pa Pe Ps Pt. unfold create_psf_table_hdu, row, transposed. cbn [q_unit a_unit q_data a_val]. rewrite !check_ok, !to_unit_ok by auto. cbn [rbind].
    gadf_table. repeat split.
    - apply (axis_in_of _ _ _ _ ue); auto. cbn; lra.
    - apply (axis_in_of _ _ _ _ uth); auto. cbn; lra.
    - apply (axis_in_of _ _ _ _ us); auto. cbn; lra.
    - apply stored_of; auto. cbn; lra.
    - intros Hn. exists 6%nat. split; [reflexivity|]. apply cref_lookup; auto; try discriminate. unfold clas. cbn [app]. apply (last_last [_; _; _; _; _]). reflexivity.
  Qed.
  Lemma edisp_table edisp ud e ue m um th uth pl :
    match ud with Some u => u_dim u = dimless_dim /\ 0 < u_scale u | None => True end -> u_dim ue = u_dim u_TeV -> u_dim uth = u_dim u_deg -> 0 < u_scale ue -> 0 < u_scale uth ->
    exists h, snd (create_energy_dispersion_hdu hp now (mkQ edisp ud) (mkArr e (Some ue)) (mkArr m um) (mkArr th (Some uth)) pl extname cards) = Ok h /\
      colnames (hdu_table h) = ["ENERG_LO"; "ENERG_HI"; "MIGRA_LO"; "MIGRA_HI"; "THETA_LO"; "THETA_HI"; "MATRIX"] /\
      axis_in (hdu_table h) "ENERG" u_TeV (mkArr e (Some ue)) /\ axis (hdu_table h) "MIGRA" um m /\ axis_in (hdu_table h) "THETA" u_deg (mkArr th (Some uth)) /\
      stored (hdu_table h) "MATRIX" one_unit (match ud with Some u => u | None => one_unit end) edisp /\
      (no_card cards "CREF7" -> axes_keyword h "MATRIX" ["ENERG"; "MIGRA"; "THETA"]).
  Proof.
    intros Dd De Dt Pe Pt. unfold create_energy_dispersion_hdu, row, transposed. cbn [q_unit a_unit q_data a_val]. rewrite !check_ok, !to_unit_ok by (destruct ud; intuition auto). cbn [rbind].
    gadf_table. repeat split.
    - apply (axis_in_of _ _ _ _ ue); auto. cbn; lra.
    - match goal with |- axis ?t _ _ _ => pose proof (axis_of t "MIGRA" um (fun x => x) m) as Q end. rewrite map_id in Q. apply Q; reflexivity.
    - apply (axis_in_of _ _ _ _ uth); auto. cbn; lra.
    - apply stored_of; [destruct ud; [intuition auto|cbn; lra]|cbn; lra|reflexivity].
    - intros Hn. exists 6%nat. split; [reflexivity|]. apply cref_lookup; auto; try discriminate. unfold clas. cbn [app]. apply (last_last [_; _; _; _; _]). reflexivity.
  Qed.
  Lemma bkg2_table bkg ub e ue th uth :
    u_dim ub = u_dim u_background -> u_dim ue = u_dim u_TeV -> u_dim uth = u_dim u_deg -> 0 < u_scale ub -> 0 < u_scale ue -> 0 < u_scale uth ->
    exists h, snd (create_background_2d_hdu hp now (mkQ bkg (Some ub)) (mkArr e (Some ue)) (mkArr th (Some uth)) extname cards) = Ok h /\
      colnames (hdu_table h) = ["ENERG_LO"; "ENERG_HI"; "THETA_LO"; "THETA_HI"; "BKG"] /\
      axis_in (hdu_table h) "ENERG" u_TeV (mkArr e (Some ue)) /\ axis_in (hdu_table h) "THETA" u_deg (mkArr th (Some uth)) /\
      stored (hdu_table h) "BKG" u_background ub bkg /\
      (no_card cards "CREF5" -> axes_keyword h "BKG" ["ENERG"; "THETA"]).
  Proof.
    intros Da De Dt Pa Pe Pt. unfold create_background_2d_hdu, row, transposed. cbn [q_unit a_unit q_data a_val]. rewrite !check_ok, !to_unit_ok by auto. cbn [rbind].
    gadf_table. repeat split.
    - apply (axis_in_of _ _ _ _ ue); auto. cbn; lra.
    - apply (axis_in_of _ _ _ _ uth); auto. cbn; lra.
    - apply stored_of; auto. cbn; lra.
    - intros Hn. exists 4%nat. split; [reflexivity|]. apply cref_lookup; auto; try discriminate. unfold clas. cbn [app]. apply (last_last [_; _; _; _; _]). reflexivity.
  Qed.
  Lemma bkg3_table bkg ub e ue x ux y uy alignment :
    u_dim ub = u_dim u_background -> u_dim ue = u_dim u_TeV -> u_dim ux = u_dim u_deg -> u_dim uy = u_dim u_deg -> 0 < u_scale ub -> 0 < u_scale ue -> 0 < u_scale ux -> 0 < u_scale uy ->
    alignment = "ALTAZ" \/ alignment = "RADEC" ->
    exists h, snd (create_background_3d_hdu hp now (mkQ bkg (Some ub)) (mkArr e (Some ue)) (mkArr x (Some ux)) (mkArr y (Some uy)) alignment extname cards) = Ok h /\
      colnames (hdu_table h) = ["ENERG_LO"; "ENERG_HI"; "DETX_LO"; "DETX_HI"; "DETY_LO"; "DETY_HI"; "BKG"] /\
      axis_in (hdu_table h) "ENERG" u_TeV (mkArr e (Some ue)) /\ axis_in (hdu_table h) "DETX" u_deg (mkArr x (Some ux)) /\ axis_in (hdu_table h) "DETY" u_deg (mkArr y (Some uy)) /\
      stored (hdu_table h) "BKG" u_background ub bkg /\ (no_card cards "FOVALIGN" -> getitem (hdu_header h) "FOVALIGN" = Some (HStr alignment)) /\
      (no_card cards "CREF7" -> axes_keyword h "BKG" ["ENERG"; "DETX"; "DETY"]).
  Proof.
    intros Da De Dx Dy Pa Pe Px Py Hal. unfold create_background_3d_hdu, row, transposed. cbn [q_unit a_unit q_data a_val]. rewrite !check_ok, !to_unit_ok by auto. cbn [rbind].
    assert (E : existsb (String.eqb alignment) ["ALTAZ"; "RADEC"] = true) by (destruct Hal; subst; reflexivity). rewrite E.
    gadf_table. repeat split.
    - apply (axis_in_of _ _ _ _ ue); auto. cbn; lra.
    - apply (axis_in_of _ _ _ _ ux); auto. cbn; lra.
    - apply (axis_in_of _ _ _ _ uy); auto. cbn; lra.
    - apply stored_of; auto. cbn; lra.
    - intros Hn. apply cref_lookup; auto; try discriminate. eexists [_; _; _; _], _, [_; _]. split; [reflexivity|]. split; [reflexivity|]. intros kv [<-|[<-|[]]] Q; vm_compute in Q; discriminate.
    - intros Hn. exists 6%nat. split; [reflexivity|]. apply cref_lookup; auto; try discriminate. unfold clas. cbn [app]. apply (last_last [_; _; _; _; _; _]). reflexivity.
  Qed.
  Lemma bkg3_alignment bkg ub e ue x ux y uy alignment :
    u_dim ub = u_dim u_background -> u_dim ue = u_dim u_TeV -> u_dim ux = u_dim u_deg -> u_dim uy = u_dim u_deg -> alignment <> "ALTAZ" -> alignment <> "RADEC" ->
    snd (create_background_3d_hdu hp now (mkQ bkg (Some ub)) (mkArr e (Some ue)) (mkArr x (Some ux)) (mkArr y (Some uy)) alignment extname cards) = Err ValueError.
  Proof.
    intros Da De Dx Dy H1 H2. unfold create_background_3d_hdu, row, transposed. cbn [q_unit a_unit q_data a_val]. rewrite !check_ok, !to_unit_ok by auto. cbn [rbind with_table existsb].
    destruct (String.eqb_spec alignment "ALTAZ"); [congruence|]. destruct (String.eqb_spec alignment "RADEC"); [congruence|]. cbn [orb]. destruct (copy_header hp DEFAULT). reflexivity.
  Qed.
  Lemma rad_max_table rad ur e ue th uth pl :
    u_dim ur = u_dim u_deg -> u_dim ue = u_dim u_TeV -> u_dim uth = u_dim u_deg -> 0 < u_scale ur -> 0 < u_scale ue -> 0 < u_scale uth ->
    exists h, snd (create_rad_max_hdu hp now (mkQ rad (Some ur)) (mkArr e (Some ue)) (mkArr th (Some uth)) pl extname cards) = Ok h /\
      colnames (hdu_table h) = ["ENERG_LO"; "ENERG_HI"; "THETA_LO"; "THETA_HI"; "RAD_MAX"] /\
      axis_in (hdu_table h) "ENERG" u_TeV (mkArr e (Some ue)) /\ axis_in (hdu_table h) "THETA" u_deg (mkArr th (Some uth)) /\
      stored (hdu_table h) "RAD_MAX" u_deg ur rad /\
      (no_card cards "CREF5" -> axes_keyword h "RAD_MAX" ["ENERG"; "THETA"]).
  Proof.
    intros Da De Dt Pa Pe Pt. unfold create_rad_max_hdu, row, transposed. cbn [q_unit a_unit q_data a_val]. rewrite !check_ok, !to_unit_ok by auto. cbn [rbind].
    gadf_table. repeat split.
    - apply (axis_in_of _ _ _ _ ue); auto. cbn; lra.
    - apply (axis_in_of _ _ _ _ uth); auto. cbn; lra.
    - apply stored_of; auto. cbn; lra.
    - intros Hn. exists 4%nat. split; [reflexivity|]. apply cref_lookup; auto; try discriminate. unfold clas. cbn [app]. apply (last_last [_; _; _; _; _]). reflexivity.
  Qed.
End Writers.
