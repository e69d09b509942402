(** * Proofs about the functions of pyirf/io/gadf.py: errors *)
From Coq Require Import String Ascii Reals List Bool ZArith Arith Lia Lra.
From Verif Require Import Num Numpy Table Tensor Binning Cuts Benchmarks BenchmarkProofs2 Gadf SpecGadf GadfProofs GadfProofs2.
Import ListNotations.
Open Scope R_scope.
Open Scope string_scope.

Lemma check_inv q target : check_unit q target = Ok tt <-> has_unit_of q target.
Proof.
  unfold check_unit, has_unit_of. split.
  - destruct q as [u|]; [|discriminate]. destruct (Nat.eqb_spec (u_dim u) (u_dim target)); [|discriminate]. eauto.
  - intros (v & -> & H). rewrite H, Nat.eqb_refl. auto.
Qed.
Lemma check_dec q target : (check_unit q target = Ok tt /\ has_unit_of q target) \/ (exists e, check_unit q target = Err e /\ ~ has_unit_of q target).
Proof.
  destruct (check_unit q target) as [[]|e] eqn:E; [left; split; auto; apply check_inv; auto|right; exists e; split; auto]. rewrite <- check_inv. congruence.
Qed.
Lemma to_unit_dec q target : (exists x, to_unit q target = Ok x /\ has_unit_of (q_unit q) target) \/ (exists e, to_unit q target = Err e /\ ~ has_unit_of (q_unit q) target).
Proof.
  unfold to_unit, has_unit_of. destruct (q_unit q) as [u|]; [|right; eexists; split; eauto; intros (v & H & _); discriminate].
  destruct (Nat.eqb_spec (u_dim u) (u_dim target)); [left; eauto|right; eexists; split; eauto]. intros (v & H & Hd). injection H as <-. auto.
Qed.
Ltac unit_step :=
  match goal with
  | |- context [check_unit ?q ?t] => let H := fresh in let N := fresh in let x := fresh in
      destruct (check_dec q t) as [[H N]|(x & H & N)]; rewrite ?H; clear H; cbn [rbind]
  | |- context [to_unit ?q ?t] => let H := fresh in let N := fresh in let x := fresh in
      destruct (to_unit_dec q t) as [(x & H & N)|(x & H & N)]; rewrite ?H; clear H; cbn [rbind]; cbn [q_unit row transposed] in N
  end.
Lemma finish_ok hp t cards n user : exists h, snd (finish hp t cards n user) = Ok h.
Proof. destruct (finish_spec hp t cards n user) as (E & _). eauto. Qed.
Ltac close_units :=
  cbn [with_table snd];
  first [ solve [split; [intros (? & ?); discriminate|tauto]]
        | split; [intros _; tauto|intros _; apply finish_ok] ].
Lemma one_or u : has_unit_of (Some match u with Some v => v | None => one_unit end) one_unit <-> u = None \/ has_unit_of u one_unit.
Proof.
  split.
  - destruct u; auto.
  - intros [->|H]; [exists one_unit; auto|]. destruct H as (v & -> & H). exists v. auto.
Qed.
Lemma units_required hp c : (exists h, snd (run_call hp c) = Ok h) <-> documented_units c /\ documented_alignment c.
Proof.
  destruct c; cbn [run_call documented_units documented_alignment].
  - unfold create_aeff2d_hdu. repeat unit_step; close_units.
  - unfold create_psf_table_hdu. repeat unit_step; close_units.
  - unfold create_energy_dispersion_hdu. rewrite <- one_or. repeat unit_step; close_units.
  - unfold create_background_2d_hdu. repeat unit_step; close_units.
  - unfold create_background_3d_hdu.
    assert (A : existsb (String.eqb alignment) ["ALTAZ"; "RADEC"] = true <-> alignment = "ALTAZ" \/ alignment = "RADEC").
    { cbn [existsb]. destruct (String.eqb_spec alignment "ALTAZ"), (String.eqb_spec alignment "RADEC"); cbn; intuition congruence. }
    repeat unit_step; cbn [with_table snd]; try solve [split; [intros (? & ?); discriminate|tauto]].
    destruct (existsb (String.eqb alignment) ["ALTAZ"; "RADEC"]).
    + split; [intros _; tauto|intros _; apply finish_ok].
    + destruct (copy_header hp DEFAULT). cbn [snd]. split; [intros (? & ?); discriminate|]. intros (_ & Q). apply A in Q. discriminate.
  - unfold create_rad_max_hdu. repeat unit_step; close_units.
Qed.
(** the kind of error, for the data of the table; the edges are alright *)
Lemma area_error hp now area e ue th uth n pl cards :
  (q_unit area = None -> snd (create_aeff2d_hdu hp now area (mkArr e (Some ue)) (mkArr th (Some uth)) n pl cards) = Err TypeError) /\
  (forall u, q_unit area = Some u -> u_dim u <> u_dim u_m2 -> snd (create_aeff2d_hdu hp now area (mkArr e (Some ue)) (mkArr th (Some uth)) n pl cards) = Err UnitsError).
Proof.
  split.
  - intros H. unfold create_aeff2d_hdu. rewrite H. reflexivity.
  - intros u H Hd. unfold create_aeff2d_hdu. rewrite H. unfold check_unit at 1. destruct (Nat.eqb_spec (u_dim u) (u_dim u_m2)); [congruence|]. reflexivity.
Qed.
Lemma background_error hp now bkg e ue th uth n cards : u_dim ue = u_dim u_TeV -> u_dim uth = u_dim u_deg ->
  (q_unit bkg = None -> snd (create_background_2d_hdu hp now bkg (mkArr e (Some ue)) (mkArr th (Some uth)) n cards) = Err AttributeError) /\
  (forall u, q_unit bkg = Some u -> u_dim u <> u_dim u_background -> snd (create_background_2d_hdu hp now bkg (mkArr e (Some ue)) (mkArr th (Some uth)) n cards) = Err UnitConversionError).
Proof.
  intros H1 H2. split.
  - intros H. unfold create_background_2d_hdu, row. cbn [a_unit a_val]. rewrite !check_ok, !to_unit_ok by auto. cbn [rbind]. unfold to_unit, transposed. cbn [q_unit]. rewrite H. reflexivity.
  - intros u H Hd. unfold create_background_2d_hdu, row. cbn [a_unit a_val]. rewrite !check_ok, !to_unit_ok by auto. cbn [rbind]. unfold to_unit, transposed. cbn [q_unit]. rewrite H.
    destruct (Nat.eqb_spec (u_dim u) (u_dim u_background)); [congruence|]. reflexivity.
Qed.
(** the shape of the data is not compared with the edges *)
Lemma shape_not_checked hp now n pl cards : exists h lo data,
  snd (create_aeff2d_hdu hp now (mkQ (mkT [3; 1]%nat (fun _ => Fin 1)) (Some u_m2)) (mkArr [Fin 1; Fin 10] (Some u_TeV)) (mkArr [Fin 0; Fin 1] (Some u_deg)) n pl cards) = Ok h /\
  getitem (hdu_table h) "ENERG_LO" = Some (lo, Some u_TeV) /\ shape lo = [1; 1]%nat /\
  getitem (hdu_table h) "EFFAREA" = Some (data, Some u_m2) /\ shape data = [1; 1; 3]%nat.
Proof.
  unfold create_aeff2d_hdu, row, transposed. cbn [q_unit a_unit q_data a_val]. rewrite !check_ok, !to_unit_ok by auto. cbn [rbind with_table].
  match goal with |- exists h lo d, snd (finish ?a ?b ?c ?d ?e) = Ok h /\ _ => destruct (finish_spec a b c d e) as (EF & _); rewrite EF; clear EF end.
  eexists. eexists. eexists. split; [reflexivity|]. repeat split.
Qed.
(** create_rad_max_hdu: the argument point_like has no effect *)
Lemma rad_max_point_like hp now x e th n cards : create_rad_max_hdu hp now x e th false n cards = create_rad_max_hdu hp now x e th true n cards.
Proof. reflexivity. Qed.
(** create_psf_table_hdu has no argument point_like: it is a card *)
Lemma psf_point_like version now x e s th n h : snd (create_psf_table_hdu [default_header version] now x e s th n [("point_like", HBool true)]) = Ok h ->
  getitem (hdu_header h) "POINT_LIKE" = Some (HBool true) /\ getitem (hdu_header h) "HDUCLAS3" = Some (HStr "FULL-ENCLOSURE").
Proof.
  intros H. change (snd (run_call [default_header version] (CPsf now x e s th n [("point_like", HBool true)])) = Ok h) in H. split.
  - eapply header_user; [exact H| |unfold table_keyword; cbn; intuition discriminate|discriminate]. exists [], "point_like", []. repeat split. intros kv [].
  - eapply header_required; [exact H| |].
    + unfold gadf_keyword. cbn [gadf_class]. tauto.
    + intros kv [<-|[]] Q. vm_compute in Q. discriminate.
Qed.
