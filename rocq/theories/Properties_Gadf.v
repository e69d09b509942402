(** * Properties of pyirf/io/gadf.py (C62, C63) *)
From Coq Require Import String Ascii Reals List Bool ZArith Arith Lia Lra.
From Verif Require Import Num Numpy Table Tensor Binning Cuts Benchmarks Gadf SpecGadf GadfProofs GadfProofs2 GadfProofs3.
From Verif Require Eventdisplay EdgeProofs.
Import ListNotations.
Open Scope R_scope.
Open Scope string_scope.

(** ** C62.  In any state of the module, for any shapes *)
(** columns, axes, data in the order of FITS, and the order of the axes in the keyword *)
Theorem C62_effective_area : forall (hp : heap) (now extname : string) (cards : list (string * hval)),
  forall area ua e ue th uth pl,
  u_dim ua = u_dim u_m2 -> u_dim ue = u_dim u_TeV -> u_dim uth = u_dim u_deg -> 0 < u_scale ua -> 0 < u_scale ue -> 0 < u_scale uth ->
    exists h, snd (create_aeff2d_hdu hp now (mkQ area (Some ua)) (mkArr e (Some ue)) (mkArr th (Some uth)) extname pl cards) = Ok h /\
      colnames (hdu_table h) = ["ENERG_LO"; "ENERG_HI"; "THETA_LO"; "THETA_HI"; "EFFAREA"] /\
      axis_in (hdu_table h) "ENERG" u_TeV (mkArr e (Some ue)) /\ axis_in (hdu_table h) "THETA" u_deg (mkArr th (Some uth)) /\
      stored (hdu_table h) "EFFAREA" u_m2 ua area /\
      (no_card cards "CREF5" -> axes_keyword h "EFFAREA" ["ENERG"; "THETA"]).
Proof. intros; eapply aeff_table; eauto. Qed.
Print Assumptions C62_effective_area.
Theorem C62_psf : forall (hp : heap) (now extname : string) (cards : list (string * hval)),
  forall psf up e ue s us th uth,
  u_dim up = u_dim u_per_sr -> u_dim ue = u_dim u_TeV -> u_dim us = u_dim u_deg -> u_dim uth = u_dim u_deg -> 0 < u_scale up -> 0 < u_scale ue -> 0 < u_scale us -> 0 < u_scale uth ->
    exists h, snd (create_psf_table_hdu hp now (mkQ psf (Some up)) (mkArr e (Some ue)) (mkArr s (Some us)) (mkArr th (Some uth)) extname cards) = Ok h /\
      colnames (hdu_table h) = ["ENERG_LO"; "ENERG_HI"; "THETA_LO"; "THETA_HI"; "RAD_LO"; "RAD_HI"; "RPSF"] /\
      axis_in (hdu_table h) "ENERG" u_TeV (mkArr e (Some ue)) /\ axis_in (hdu_table h) "THETA" u_deg (mkArr th (Some uth)) /\ axis_in (hdu_table h) "RAD" u_deg (mkArr s (Some us)) /\
      stored (hdu_table h) "RPSF" u_per_sr up psf /\
      (no_card cards "CREF7" -> axes_keyword h "RPSF" ["ENERG"; "THETA"; "RAD"]).
Proof. intros; eapply psf_table; eauto. Qed.
Print Assumptions C62_psf.
(** the migration edges keep their unit *)
Theorem C62_energy_dispersion : forall (hp : heap) (now extname : string) (cards : list (string * hval)),
  forall edisp ud e ue m um th uth pl,
  match ud with Some u => u_dim u = dimless_dim /\ 0 < u_scale u | None => True end -> u_dim ue = u_dim u_TeV -> u_dim uth = u_dim u_deg -> 0 < u_scale ue -> 0 < u_scale uth ->
    exists h, snd (create_energy_dispersion_hdu hp now (mkQ edisp ud) (mkArr e (Some ue)) (mkArr m um) (mkArr th (Some uth)) pl extname cards) = Ok h /\
      colnames (hdu_table h) = ["ENERG_LO"; "ENERG_HI"; "MIGRA_LO"; "MIGRA_HI"; "THETA_LO"; "THETA_HI"; "MATRIX"] /\
      axis_in (hdu_table h) "ENERG" u_TeV (mkArr e (Some ue)) /\ axis (hdu_table h) "MIGRA" um m /\ axis_in (hdu_table h) "THETA" u_deg (mkArr th (Some uth)) /\
      stored (hdu_table h) "MATRIX" one_unit (match ud with Some u => u | None => one_unit end) edisp /\
      (no_card cards "CREF7" -> axes_keyword h "MATRIX" ["ENERG"; "MIGRA"; "THETA"]).
Proof. intros; eapply edisp_table; eauto. Qed.
Print Assumptions C62_energy_dispersion.
Theorem C62_background_2d : forall (hp : heap) (now extname : string) (cards : list (string * hval)),
  forall bkg ub e ue th uth,
  u_dim ub = u_dim u_background -> u_dim ue = u_dim u_TeV -> u_dim uth = u_dim u_deg -> 0 < u_scale ub -> 0 < u_scale ue -> 0 < u_scale uth ->
    exists h, snd (create_background_2d_hdu hp now (mkQ bkg (Some ub)) (mkArr e (Some ue)) (mkArr th (Some uth)) extname cards) = Ok h /\
      colnames (hdu_table h) = ["ENERG_LO"; "ENERG_HI"; "THETA_LO"; "THETA_HI"; "BKG"] /\
      axis_in (hdu_table h) "ENERG" u_TeV (mkArr e (Some ue)) /\ axis_in (hdu_table h) "THETA" u_deg (mkArr th (Some uth)) /\
      stored (hdu_table h) "BKG" u_background ub bkg /\
      (no_card cards "CREF5" -> axes_keyword h "BKG" ["ENERG"; "THETA"]).
Proof. intros; eapply bkg2_table; eauto. Qed.
Print Assumptions C62_background_2d.
Theorem C62_background_3d : forall (hp : heap) (now extname : string) (cards : list (string * hval)),
  forall bkg ub e ue x ux y uy alignment,
  u_dim ub = u_dim u_background -> u_dim ue = u_dim u_TeV -> u_dim ux = u_dim u_deg -> u_dim uy = u_dim u_deg -> 0 < u_scale ub -> 0 < u_scale ue -> 0 < u_scale ux -> 0 < u_scale uy ->
    alignment = "ALTAZ" \/ alignment = "RADEC" ->
    exists h, snd (create_background_3d_hdu hp now (mkQ bkg (Some ub)) (mkArr e (Some ue)) (mkArr x (Some ux)) (mkArr y (Some uy)) alignment extname cards) = Ok h /\
      colnames (hdu_table h) = ["ENERG_LO"; "ENERG_HI"; "DETX_LO"; "DETX_HI"; "DETY_LO"; "DETY_HI"; "BKG"] /\
      axis_in (hdu_table h) "ENERG" u_TeV (mkArr e (Some ue)) /\ axis_in (hdu_table h) "DETX" u_deg (mkArr x (Some ux)) /\ axis_in (hdu_table h) "DETY" u_deg (mkArr y (Some uy)) /\
      stored (hdu_table h) "BKG" u_background ub bkg /\ (no_card cards "FOVALIGN" -> getitem (hdu_header h) "FOVALIGN" = Some (HStr alignment)) /\
      (no_card cards "CREF7" -> axes_keyword h "BKG" ["ENERG"; "DETX"; "DETY"]).
Proof. intros; eapply bkg3_table; eauto. Qed.
Print Assumptions C62_background_3d.
Theorem C62_rad_max : forall (hp : heap) (now extname : string) (cards : list (string * hval)),
  forall rad ur e ue th uth pl,
  u_dim ur = u_dim u_deg -> u_dim ue = u_dim u_TeV -> u_dim uth = u_dim u_deg -> 0 < u_scale ur -> 0 < u_scale ue -> 0 < u_scale uth ->
    exists h, snd (create_rad_max_hdu hp now (mkQ rad (Some ur)) (mkArr e (Some ue)) (mkArr th (Some uth)) pl extname cards) = Ok h /\
      colnames (hdu_table h) = ["ENERG_LO"; "ENERG_HI"; "THETA_LO"; "THETA_HI"; "RAD_MAX"] /\
      axis_in (hdu_table h) "ENERG" u_TeV (mkArr e (Some ue)) /\ axis_in (hdu_table h) "THETA" u_deg (mkArr th (Some uth)) /\
      stored (hdu_table h) "RAD_MAX" u_deg ur rad /\
      (no_card cards "CREF5" -> axes_keyword h "RAD_MAX" ["ENERG"; "THETA"]).
Proof. intros; eapply rad_max_table; eauto. Qed.
Print Assumptions C62_rad_max.
(** the edges can be read back with join_bin_lo_hi *)
Theorem C62_edges_back : forall t name unit edges lo hi,
  axis t name unit edges -> getitem t (name ++ "_LO") = Some (lo, unit) -> getitem t (name ++ "_HI") = Some (hi, unit) ->
  (2 <= List.length edges)%nat -> (forall e, In e edges -> is_nan e = false) -> join_bin_lo_hi (row_values lo) (row_values hi) = Ok edges.
Proof. exact axis_join. Qed.
Print Assumptions C62_edges_back.
(** an HDU is written exactly for the documented units (and alignment); otherwise an exception *)
Theorem C62_units : forall hp c,
  (exists h, snd (run_call hp c) = Ok h) <-> documented_units c /\ documented_alignment c.
Proof. exact units_required. Qed.
Print Assumptions C62_units.
(** none of the units converts to another one; the tables of the module are in exactly these units *)
Theorem C62_units_apart : NoDup (map u_dim [one_unit; u_TeV; u_deg; u_m2; u_per_sr; u_background; Eventdisplay.u_m]) /\ u_dim u_TeV = energy_dim /\
  Forall (fun u => u_scale u = 1) [one_unit; u_TeV; u_deg; u_m2; u_per_sr; u_background; Eventdisplay.u_m].
Proof. exact EdgeProofs.c62_units_apart. Qed.
Print Assumptions C62_units_apart.
Theorem C62_area_errors : forall hp now area e ue th uth n pl cards,
  (q_unit area = None -> snd (create_aeff2d_hdu hp now area (mkArr e (Some ue)) (mkArr th (Some uth)) n pl cards) = Err TypeError) /\
  (forall u, q_unit area = Some u -> u_dim u <> u_dim u_m2 -> snd (create_aeff2d_hdu hp now area (mkArr e (Some ue)) (mkArr th (Some uth)) n pl cards) = Err UnitsError).
Proof. exact area_error. Qed.
Print Assumptions C62_area_errors.
(** not checked by the decorator *)
Theorem C62_background_errors : forall hp now bkg e ue th uth n cards,
  u_dim ue = u_dim u_TeV -> u_dim uth = u_dim u_deg ->
  (q_unit bkg = None -> snd (create_background_2d_hdu hp now bkg (mkArr e (Some ue)) (mkArr th (Some uth)) n cards) = Err AttributeError) /\
  (forall u, q_unit bkg = Some u -> u_dim u <> u_dim u_background -> snd (create_background_2d_hdu hp now bkg (mkArr e (Some ue)) (mkArr th (Some uth)) n cards) = Err UnitConversionError).
Proof. exact background_error. Qed.
Print Assumptions C62_background_errors.
Theorem C62_alignment : forall (hp : heap) (now extname : string) (cards : list (string * hval)),
  forall bkg ub e ue x ux y uy alignment,
  u_dim ub = u_dim u_background -> u_dim ue = u_dim u_TeV -> u_dim ux = u_dim u_deg -> u_dim uy = u_dim u_deg -> alignment <> "ALTAZ" -> alignment <> "RADEC" ->
    snd (create_background_3d_hdu hp now (mkQ bkg (Some ub)) (mkArr e (Some ue)) (mkArr x (Some ux)) (mkArr y (Some uy)) alignment extname cards) = Err ValueError.
Proof. intros; eapply bkg3_alignment; eauto. Qed.
Print Assumptions C62_alignment.
(** expected: an exception if the data do not have the shape of the edges.  3 numbers for 1 energy bin *)
Theorem C62_shape_refuted : forall hp now n pl cards,
  exists h lo data,
  snd (create_aeff2d_hdu hp now (mkQ (mkT [3; 1]%nat (fun _ => Fin 1)) (Some u_m2)) (mkArr [Fin 1; Fin 10] (Some u_TeV)) (mkArr [Fin 0; Fin 1] (Some u_deg)) n pl cards) = Ok h /\
  getitem (hdu_table h) "ENERG_LO" = Some (lo, Some u_TeV) /\ shape lo = [1; 1]%nat /\
  getitem (hdu_table h) "EFFAREA" = Some (data, Some u_m2) /\ shape data = [1; 1; 3]%nat.
Proof. exact shape_not_checked. Qed.
Print Assumptions C62_shape_refuted.
Definition x62 : tensor := mkT [2; 1]%nat (fun ix => match ix with (0 :: _)%nat => Fin 30000 | _ => Fin 50000 end).
Definition cm2 : unit_ := mkUnit (1/10000) 3.
Definition gev : unit_ := mkUnit (1/1000) 1.
Definition c62 : call := CAeff "2020-01-01" (mkQ x62 (Some cm2)) (mkArr [Fin 1000; Fin 2000; Fin 4000] (Some gev)) (mkArr [Fin 0; Fin 1] (Some u_deg)) "EFFECTIVE AREA" true
  [("TELESCOP", HStr "CTA"); ("Date", HStr "today")].
(** for [C62_effective_area], [C62_units]: 3 m2 and 5 m2; edges 1, 2, 4 TeV *)
Example C62_example : documented_units c62 /\ documented_alignment c62 /\ in_range (shape x62) [1; 0]%nat /\ at_ x62 [1; 0]%nat = Fin 50000 /\
  (forall y, in_unit cm2 u_m2 (Fin 50000) y -> y = Fin 5) /\
  (forall es, Forall2 (in_unit gev u_TeV) [Fin 1000; Fin 2000; Fin 4000] es -> es = [Fin 1; Fin 2; Fin 4]) /\
  fits_position [2; 3]%nat [1; 2]%nat = 5%nat /\ fits_position [2; 3]%nat [0; 1]%nat = 2%nat /\
  cref_list ["ENERG"; "THETA"] = "ENERG_LO:ENERG_HI,THETA_LO:THETA_HI" /\ no_card [("TELESCOP", HStr "CTA")] "CREF5" /\ u_dim cm2 = u_dim u_m2 /\ 0 < u_scale cm2.
Proof.
  assert (Q : forall a b, a = b -> Fin a = Fin b) by congruence.
  split. { repeat split; eexists; split; reflexivity. }
  split; [exact I|]. split; [repeat constructor|]. split; [reflexivity|]. split. { intros y H. cbn in H. rewrite H. apply Q. field. }
  split.
  { intros es H. inversion H as [|? y1 ? l1 E1 H1]; subst. inversion H1 as [|? y2 ? l2 E2 H2]; subst. inversion H2 as [|? y3 ? l3 E3 H3]; subst. inversion H3; subst.
    cbn in E1, E2, E3. rewrite E1, E2, E3. f_equal; [apply Q; field|]. f_equal; [apply Q; field|]. f_equal. apply Q. field. }
  repeat split; try reflexivity; [|cbn; lra]. intros kv [<-|[]] H. vm_compute in H. discriminate.
Qed.

(** ** C63 *)
(** any sequence of calls, whatever their arguments, leaves DEFAULT_HEADER as it was *)
Theorem C63_default_header : forall version cs,
  nth_error (fst (run_calls [default_header version] cs)) DEFAULT = Some (default_header version).
Proof. exact default_untouched. Qed.
Print Assumptions C63_default_header.
(** so the result of a call does not depend on the calls before it *)
Theorem C63_history : forall version cs c,
  snd (run_call (fst (run_calls [default_header version] cs)) c) = snd (run_call [default_header version] c).
Proof. exact history_independent. Qed.
Print Assumptions C63_history.
(** cards of the user override the ones of pyirf, the last one wins *)
Theorem C63_user_cards : forall version c h k v,
  snd (run_call [default_header version] c) = Ok h -> last_card (call_cards c) k v -> ~ table_keyword k -> k <> "EXTNAME" ->
  getitem (hdu_header h) k = Some v.
Proof. exact header_user. Qed.
Print Assumptions C63_user_cards.
(** cards that describe the table itself are not taken from the user *)
Theorem C63_table_keywords : forall version c h k,
  snd (run_call [default_header version] c) = Ok h -> table_keyword k -> getitem (hdu_header h) k = None.
Proof. exact header_table. Qed.
Print Assumptions C63_table_keywords.
(** the name is not overridden *)
Theorem C63_extname : forall version c h,
  snd (run_call [default_header version] c) = Ok h -> call_extname c <> "" -> getitem (hdu_header h) "EXTNAME" = Some (HStr (upper (call_extname c))).
Proof. exact header_extname. Qed.
Print Assumptions C63_extname.
(** keywords of every HDU that the user did not override; HDUCLAS3 follows point_like for effective area and energy dispersion *)
Theorem C63_required : forall version c h k v,
  snd (run_call [default_header version] c) = Ok h -> gadf_keyword version c k v -> no_card (call_cards c) k -> getitem (hdu_header h) k = Some (HStr v).
Proof. exact header_required. Qed.
Print Assumptions C63_required.
(** expected: point_like=False selects FULL-ENCLOSURE *)
Theorem C63_rad_max_refuted : forall hp now x e th n cards,
  create_rad_max_hdu hp now x e th false n cards = create_rad_max_hdu hp now x e th true n cards.
Proof. exact rad_max_point_like. Qed.
Print Assumptions C63_rad_max_refuted.
(** expected: an argument point_like *)
Theorem C63_psf_refuted : forall version now x e s th n h,
  snd (create_psf_table_hdu [default_header version] now x e s th n [("point_like", HBool true)]) = Ok h ->
  getitem (hdu_header h) "POINT_LIKE" = Some (HBool true) /\ getitem (hdu_header h) "HDUCLAS3" = Some (HStr "FULL-ENCLOSURE").
Proof. exact psf_point_like. Qed.
Print Assumptions C63_psf_refuted.
(** for [C63_user_cards], [C63_required]: the user overrides the date, in any case, and adds a card *)
Example C63_example : (exists h, snd (run_call [default_header "0.8"] c62) = Ok h /\
    getitem (hdu_header h) "DATE" = Some (HStr "today") /\ getitem (hdu_header h) "TELESCOP" = Some (HStr "CTA") /\
    getitem (hdu_header h) "HDUCLAS3" = Some (HStr "POINT-LIKE") /\ getitem (hdu_header h) "EXTNAME" = Some (HStr "EFFECTIVE AREA") /\
    getitem (hdu_header h) "CREATOR" = Some (HStr "pyirf v0.8") /\ getitem (hdu_header h) "CREF5" = Some (HStr "(ENERG_LO:ENERG_HI,THETA_LO:THETA_HI)")) /\
  last_card (call_cards c62) "DATE" (HStr "today") /\ gadf_keyword "0.8" c62 "HDUCLAS3" "POINT-LIKE" /\ no_card (call_cards c62) "HDUCLAS3" /\
  (exists h1 h2, snd (run_calls [default_header "0.8"] [c62; c62]) = [Ok h1; Ok h2] /\ h1 = h2).
Proof.
  assert (L : last_card (call_cards c62) "DATE" (HStr "today")).
  { exists [("TELESCOP", HStr "CTA")], "Date", []. repeat split; try reflexivity. intros kv []. }
  assert (N : forall k, k <> "TELESCOP" -> k <> "DATE" -> no_card (call_cards c62) k).
  { intros k H1 H2 kv [<-|[<-|[]]] E; vm_compute in E; congruence. }
  assert (D : exists h, snd (run_call [default_header "0.8"] c62) = Ok h).
  { apply C62_units. split; [|exact I]. repeat split; eexists; split; reflexivity. }
  destruct D as (h & D). split.
  { exists h. split; [exact D|]. split; [apply (C63_user_cards _ _ _ _ _ D L); [unfold table_keyword; cbn; intuition discriminate|discriminate]|].
    split. { apply (C63_user_cards _ _ _ _ _ D); [|unfold table_keyword; cbn; intuition discriminate|discriminate]. exists [], "TELESCOP", [("Date", HStr "today")]. repeat split. intros kv [<-|[]] E. vm_compute in E. discriminate. }
    split. { apply (C63_required _ _ _ _ _ D); [unfold gadf_keyword; cbn [gadf_class c62]; tauto|apply N; discriminate]. }
    split. { apply (C63_extname _ _ _ D). discriminate. }
    split. { apply (C63_required _ _ _ _ _ D); [unfold gadf_keyword; cbn [gadf_class c62]; left; split; reflexivity|apply N; discriminate]. }
    destruct (C62_effective_area [default_header "0.8"] "2020-01-01" "EFFECTIVE AREA" (call_cards c62) x62 cm2 [Fin 1000; Fin 2000; Fin 4000] gev [Fin 0; Fin 1] u_deg true) as (h' & E & C & _ & _ & _ & K); try reflexivity; try (cbn; lra).
    assert (h' = h) by (change (snd (run_call [default_header "0.8"] c62) = Ok h') in E; congruence). subst h'.
    destruct K as (n & Hn & K); [apply N; discriminate|]. rewrite C in Hn. do 5 (destruct n as [|n]; [try discriminate; exact K|]). destruct n; discriminate. }
  split; [exact L|]. split; [unfold gadf_keyword; cbn [gadf_class c62]; tauto|]. split; [apply N; discriminate|].
  exists h, h. split; [|reflexivity]. cbn [run_calls].
  pose proof (C63_history "0.8" [c62] c62) as Hh. cbn [run_calls] in Hh.
  destruct (run_call [default_header "0.8"] c62) as [h1 r1]. cbn [fst snd] in *. destruct (run_call h1 c62) as [h2 r2]. cbn [snd] in *. subst. reflexivity.
Qed.
