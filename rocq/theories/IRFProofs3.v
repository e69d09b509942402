(** * IRFProofs3: background (C46, C47) *)
From Coq Require Import String Reals List Bool ZArith Arith Lia Lra.
From Verif Require Import Num Numpy Lists SpecBinning Table Binning BinningProofs HistProofs Utils SpecUtils SpecSimulations Simulations SimulationsProofs SimulationsProofs2
  Tensor TensorProofs SpecIRF IRF IRFProofs IRFProofs2.
Import ListNotations.
Open Scope R_scope.

Lemma rsum_map_map_ext {A} (f g : A -> R) l : (forall x, In x l -> f x = g x) -> rsum (map f l) = rsum (map g l).
Proof. apply rsum_map_ext. Qed.
(** ** two-dimensional histograms *)
Section Hist2.
Variables (x1 x2 : dl2 -> num) (e1 e2 : list num) (w : dl2 -> R) (evs : list dl2).
Definition dims2 := [(x1, e1); (x2, e2)].
Hypotheses (H1 : nondecreasing e1) (L1 : (2 <= length e1)%nat) (H2 : nondecreasing e2) (L2 : (2 <= length e2)%nat).
Definition C2 i j := wsum w (hdd_match dims2 [i; j]) evs.
Lemma hist2 : histogramdd dims2 w evs = Ok (mkT [(length e1 - 1)%nat; (length e2 - 1)%nat] (fun ix => Fin (wsum w (hdd_match dims2 ix) evs))).
Proof. rewrite histogramdd_ok; [reflexivity|]. intros d [<-|[<-|[]]]; auto. Qed.
Lemma C2_eq i j : C2 i j = wsum w (fun e => m1 x1 e1 i e && m2 x2 e2 j e) evs.
Proof. unfold C2. apply wsum_ext. intros e _. unfold dims2. cbn. rewrite andb_true_r. reflexivity. Qed.
Lemma cell2 i j e : (i < length e1 - 1)%nat -> (j < length e2 - 1)%nat ->
  (m1 x1 e1 i e && m2 x2 e2 j e = true <-> in_hist_bin e1 i (x1 e) /\ in_hist_bin e2 j (x2 e)).
Proof.
  intros Hi Hj. rewrite !andb_true_iff. unfold m1, m2. rewrite !Nat.eqb_eq.
  rewrite (hdd_spec e1 (x1 e) H1 L1 i Hi), (hdd_spec e2 (x2 e) H2 L2 j Hj). tauto.
Qed.
Lemma C2_weight i j : (i < length e1 - 1)%nat -> (j < length e2 - 1)%nat ->
  weight_of w (fun e => in_hist_bin e1 i (x1 e) /\ in_hist_bin e2 j (x2 e)) evs (C2 i j).
Proof. intros. rewrite C2_eq. apply weight_of_wsum. intros e _. apply cell2; auto. Qed.
Lemma sum_all2 : rsum (map (fun i => rsum (map (fun j => C2 i j) (seq 0 (length e2 - 1)))) (seq 0 (length e1 - 1))) =
  wsum w (fun e => r2 x1 e1 e && r2 x2 e2 e) evs.
Proof.
  rewrite (rsum_map_ext _ (fun i => wsum w (fun e => r2 x2 e2 e && Nat.eqb (hdd_index e1 (x1 e)) (S i)) evs)).
  - rewrite wsum_axis. apply wsum_ext. intros e _. fold (r2 x1 e1 e). apply andb_comm.
  - intros i _. rewrite (rsum_map_ext _ (fun j => wsum w (fun e => m1 x1 e1 i e && Nat.eqb (hdd_index e2 (x2 e)) (S j)) evs)) by (intros j _; apply C2_eq).
    rewrite wsum_axis. apply wsum_ext. intros e _. fold (r2 x2 e2 e). unfold m1. apply andb_comm.
Qed.
End Hist2.
Arguments C2 : simpl never.
Lemma sum_all3 x1 x2 x3 e1 e2 e3 w evs :
  rsum (map (fun i => rsum (map (fun j => rsum (map (fun k => C3 x1 x2 x3 e1 e2 e3 w evs i j k) (seq 0 (length e3 - 1)))) (seq 0 (length e2 - 1)))) (seq 0 (length e1 - 1))) =
  wsum w (fun e => r2 x1 e1 e && r2 x2 e2 e && r2 x3 e3 e) evs.
Proof.
  rewrite (rsum_map_ext _ (fun i => wsum w (fun e => (r2 x2 e2 e && r2 x3 e3 e) && Nat.eqb (hdd_index e1 (x1 e)) (S i)) evs)).
  - rewrite wsum_axis. apply wsum_ext. intros e _. fold (r2 x1 e1 e). destruct (r2 x1 e1 e), (r2 x2 e2 e), (r2 x3 e3 e); auto.
  - intros i _. rewrite (rsum_map_ext _ (fun j => wsum w (fun e => (m1 x1 e1 i e && r2 x3 e3 e) && Nat.eqb (hdd_index e2 (x2 e)) (S j)) evs)).
    + rewrite wsum_axis. apply wsum_ext. intros e _. fold (r2 x2 e2 e). unfold m1. destruct (Nat.eqb _ _), (r2 x2 e2 e), (r2 x3 e3 e); auto.
    + intros j _. rewrite (rsum_map_ext _ (fun k => wsum w (fun e => (m1 x1 e1 i e && m2 x2 e2 j e) && Nat.eqb (hdd_index e3 (x3 e)) (S k)) evs)) by (intros k _; apply C3_eq).
      rewrite wsum_axis. apply wsum_ext. intros e _. fold (r2 x3 e3 e). unfold m2. destruct (m1 x1 e1 i e), (Nat.eqb _ _), (r2 x3 e3 e); auto.
Qed.
Lemma r2_range x e1 e : nondecreasing e1 -> (2 <= length e1)%nat -> (r2 x e1 e = true <-> in_range e1 (x e)).
Proof. intros. unfold r2. rewrite andb_true_iff, !Nat.leb_le. apply hdd_range; auto. Qed.

(** ** C46 *)
Section C46.
Variables (evs : list dl2) (ebins fbins : list R) (t_obs : R).
Hypotheses (He : increasing ebins) (Le : (2 <= length ebins)%nat) (Hf : angles fbins) (Lf : (2 <= length fbins)%nat) (Ht : 0 < t_obs).
Let nE := (length ebins - 1)%nat.
Let nF := (length fbins - 1)%nat.
Let Le' : (2 <= length (map Fin ebins))%nat. Proof. rewrite map_length. auto. Qed.
Let Lf' : (2 <= length (map Fin fbins))%nat. Proof. rewrite map_length. auto. Qed.
Let He' := inc_nondec ebins He.
Let Hf' := inc_nondec fbins (proj1 Hf).
Let C i j := C2 reco_energy reco_fov_offset (map Fin ebins) (map Fin fbins) weight evs i j.
Lemma bkg2_eq : exists out, background_2d evs (map Fin ebins) fbins t_obs = Ok out /\ shape out = [nE; nF] /\
  forall i j, (i < nE)%nat -> (j < nF)%nat ->
    at_ out [i; j] = Fin (C i j / (nth (S i) ebins 0 - nth i ebins 0) / t_obs / ring_deg (nth j fbins 0) (nth (S j) fbins 0)).
Proof.
  unfold background_2d. change ([(reco_energy, map Fin ebins); (reco_fov_offset, map Fin fbins)]) with (dims2 reco_energy reco_fov_offset (map Fin ebins) (map Fin fbins)).
  rewrite hist2 by auto. cbn [rbind]. rewrite !map_length. fold nE nF.
  assert (Lw : length (ndiff (map Fin ebins)) = nE) by (rewrite ndiff_length, map_length; auto).
  assert (Lw' : length (ndiff (map (fun d => Fin (cone_solid_angle (d * degree))) fbins)) = nF) by (rewrite ndiff_length, map_length; auto).
  bnorm. rewrite Lw. bnorm. cbn [rbind]. bnorm. rewrite Lw'. bnorm. eexists. split; [reflexivity|]. split; [reflexivity|].
  intros i j Hi Hj. inorm.
  change (wsum _ _ _) with (C i j).
  rewrite (ndiff_fin_nth (fun x => x)) by (unfold nE in *; lia).
  rewrite (ndiff_fin_nth (fun d => cone_solid_angle (d * degree))) by (unfold nF in *; lia). rewrite ring_cone.
  pose proof (angles_ring fbins j Hf ltac:(unfold nF in *; lia)) as HR. pose proof (inc_nth ebins i He ltac:(unfold nE in *; lia)).
  rewrite !ndiv_fin by lra. auto.
Qed.
Lemma c46_bin : exists out, background_2d evs (map Fin ebins) fbins t_obs = Ok out /\ shape out = [(length ebins - 1)%nat; (length fbins - 1)%nat] /\
  forall i j e e' f f', nth_error ebins i = Some e -> nth_error ebins (S i) = Some e' -> nth_error fbins j = Some f -> nth_error fbins (S j) = Some f' ->
    exists rate W, at_ out [i; j] = Fin rate /\
      weight_of weight (fun ev => in_hist_bin (map Fin ebins) i (reco_energy ev) /\ in_hist_bin (map Fin fbins) j (reco_fov_offset ev)) evs W /\
      rate * (e' - e) * t_obs * ring_deg f f' = W.
Proof.
  destruct bkg2_eq as (out & Eo & So & Ho). exists out. split; auto. split; auto. intros i j e e' f f' E1 E2 F1 F2.
  assert (Hi := nth_some_lt _ _ _ E2). assert (Hj := nth_some_lt _ _ _ F2).
  eexists _, (C i j). split; [apply Ho; unfold nE, nF; lia|]. split.
  - apply C2_weight; auto; rewrite map_length; lia.
  - rewrite (nth_error_nth _ _ _ E1), (nth_error_nth _ _ _ E2), (nth_error_nth _ _ _ F1), (nth_error_nth _ _ _ F2).
    pose proof (He _ _ _ E1 E2). pose proof (angles_ring fbins j Hf Hj) as HR. rewrite (nth_error_nth _ _ _ F1), (nth_error_nth _ _ _ F2) in HR. field. lra.
Qed.
Lemma c46_total : exists out rows W, background_2d evs (map Fin ebins) fbins t_obs = Ok out /\
  length rows = (length ebins - 1)%nat /\
  (forall i row, nth_error rows i = Some row -> length row = (length fbins - 1)%nat /\ forall j v, nth_error row j = Some v -> at_ out [i; j] = Fin v) /\
  weight_of weight (fun ev => in_range (map Fin ebins) (reco_energy ev) /\ in_range (map Fin fbins) (reco_fov_offset ev)) evs W /\
  integral_over width ebins (map (integral_over ring_deg fbins) rows) * t_obs = W.
Proof.
  destruct bkg2_eq as (out & Eo & So & Ho).
  set (rate := fun i j => C i j / (nth (S i) ebins 0 - nth i ebins 0) / t_obs / ring_deg (nth j fbins 0) (nth (S j) fbins 0)).
  exists out, (map (fun i => map (rate i) (seq 0 nF)) (seq 0 nE)), (wsum weight (fun e => r2 reco_energy (map Fin ebins) e && r2 reco_fov_offset (map Fin fbins) e) evs).
  split; auto. split; [rewrite map_length, seq_length; auto|]. split; [|split].
  - intros i row Hi. apply seq_map_nth in Hi as [Li ->]. split; [rewrite map_length, seq_length; auto|].
    intros j v Hj. apply seq_map_nth in Hj as [Lj ->]. apply Ho; auto.
  - apply weight_of_wsum. intros e _. rewrite andb_true_iff, !r2_range by auto. tauto.
  - rewrite <- sum_all2. rewrite !map_length. fold nE nF. rewrite map_map. unfold nE at 1. rewrite integral_over_seq. fold nE.
    rewrite Rmult_comm, <- rsum_scale, map_map. apply rsum_map_ext. intros i Hi. apply in_seq in Hi. cbn [Nat.add].
    unfold nF at 1. rewrite integral_over_seq. fold nF. unfold width.
    rewrite (Rmult_comm (rsum _)), <- !rsum_scale, !map_map. apply rsum_map_ext. intros j Hj. apply in_seq in Hj. cbn [Nat.add]. unfold rate.
    pose proof (angles_ring fbins j Hf ltac:(unfold nF in *; lia)). pose proof (inc_nth ebins i He ltac:(unfold nE in *; lia)). fold (C i j). field. lra.
Qed.
End C46.

(** ** C47 *)
Lemma rect_pos a b c d : a < b -> -90 <= c -> c < d -> d <= 90 -> 0 < rectangle_deg a b c d.
Proof.
  intros H1 H2 H3 H4. unfold rectangle_deg, rectangle_sr, deg. pose proof PI_RGT_0. apply Rmult_lt_0_compat; [nra|].
  pose proof (sin_increasing_1 (c * (PI / 180)) (d * (PI / 180)) ltac:(nra) ltac:(nra) ltac:(nra) ltac:(nra) ltac:(nra)). lra.
Qed.
Lemma rect_model a b c d : (b * degree - a * degree) * (sin (d * degree) - sin (c * degree)) = rectangle_deg a b c d.
Proof. unfold rectangle_deg, rectangle_sr, deg, degree. ring. Qed.
Section C47.
Variables (evs : list dl2) (ebins lon lat : list R) (t_obs : R).
Hypotheses (He : increasing ebins) (Le : (2 <= length ebins)%nat) (Hlon : increasing lon) (Llon : (2 <= length lon)%nat)
  (Hlat : latitudes lat) (Llat : (2 <= length lat)%nat) (Ht : 0 < t_obs).
Let nE := (length ebins - 1)%nat.
Let nL := (length lon - 1)%nat.
Let nB := (length lat - 1)%nat.
Let Le' : (2 <= length (map Fin ebins))%nat. Proof. rewrite map_length. auto. Qed.
Let Llon' : (2 <= length (map Fin lon))%nat. Proof. rewrite map_length. auto. Qed.
Let Llat' : (2 <= length (map Fin lat))%nat. Proof. rewrite map_length. auto. Qed.
Let He' := inc_nondec ebins He.
Let Hlon' := inc_nondec lon Hlon.
Let Hlat' := inc_nondec lat (proj1 Hlat).
Let C i j k := C3 reco_energy reco_fov_lon reco_fov_lat (map Fin ebins) (map Fin lon) (map Fin lat) weight evs i j k.
Let dlon k := nth (S k) lon 0 * degree - nth k lon 0 * degree.
Let dsin k := sin (nth (S k) lat 0 * degree) - sin (nth k lat 0 * degree).
Lemma vec_dlon : exists f, vec (map Fin (zipwith (fun a b => b * degree - a * degree) (but_last lon) (tl lon))) = mkT [nL] f /\ forall k, (k < nL)%nat -> f [k] = Fin (dlon k).
Proof.
  unfold vec. rewrite map_length, adj_length. fold nL. eexists. split; [reflexivity|]. intros k Hk. cbn beta iota.
  destruct (nth_some_ex lon k) as [a Ha]; [unfold nL in *; lia|]. destruct (nth_some_ex lon (S k)) as [b Hb]; [unfold nL in *; lia|].
  apply nth_error_nth. apply map_nth_some. rewrite (adj_nth _ lon k a b Ha Hb). unfold dlon. rewrite (nth_error_nth _ _ _ Ha), (nth_error_nth _ _ _ Hb). auto.
Qed.
Lemma vec_dsin : exists f, vec (map Fin (zipwith (fun a b => sin (b * degree) - sin (a * degree)) (but_last lat) (tl lat))) = mkT [nB] f /\ forall k, (k < nB)%nat -> f [k] = Fin (dsin k).
Proof.
  unfold vec. rewrite map_length, adj_length. fold nB. eexists. split; [reflexivity|]. intros k Hk. cbn beta iota.
  destruct (nth_some_ex lat k) as [a Ha]; [unfold nB in *; lia|]. destruct (nth_some_ex lat (S k)) as [b Hb]; [unfold nB in *; lia|].
  apply nth_error_nth. apply map_nth_some. rewrite (adj_nth _ lat k a b Ha Hb). unfold dsin. rewrite (nth_error_nth _ _ _ Ha), (nth_error_nth _ _ _ Hb). auto.
Qed.
Lemma rect_nz j k : (j < nL)%nat -> (k < nB)%nat -> dlon j * dsin k = rectangle_deg (nth j lon 0) (nth (S j) lon 0) (nth k lat 0) (nth (S k) lat 0) /\ 0 < dlon j * dsin k.
Proof.
  intros Hj Hk. unfold dlon, dsin. rewrite rect_model. split; auto. destruct Hlat as [Hi Hr].
  apply rect_pos; [apply inc_nth; auto; unfold nL in *; lia| |apply inc_nth; auto; unfold nB in *; lia|]; apply Hr, nth_In; unfold nB in *; lia.
Qed.
(** the longitude bin whose width enters *)
Let J (j k : nat) : nat := if Nat.eqb nL 1 then j else k.
Lemma bkg3_eq : nL = nB \/ nL = 1%nat ->
  exists out, background_3d_lonlat evs (map Fin ebins) lon lat t_obs = Ok out /\ shape out = [nE; nL; nB] /\
  forall i j k, (i < nE)%nat -> (j < nL)%nat -> (k < nB)%nat ->
    at_ out [i; j; k] = Fin (C i j k / (nth (S i) ebins 0 - nth i ebins 0) / t_obs / (dlon (J j k) * dsin k)).
Proof.
  intros Hn. unfold background_3d_lonlat. change ([(reco_energy, map Fin ebins); (reco_fov_lon, map Fin lon); (reco_fov_lat, map Fin lat)]) with (dims3 reco_energy reco_fov_lon reco_fov_lat (map Fin ebins) (map Fin lon) (map Fin lat)).
  rewrite hist3 by auto. cbn [rbind]. rewrite !map_length. fold nE nL nB.
  assert (Lw : length (ndiff (map Fin ebins)) = nE) by (rewrite ndiff_length, map_length; auto).
  bnorm. rewrite Lw. bnorm. cbn [rbind]. unfold rectangle_solid_angles.
  destruct vec_dlon as (fl & -> & Hfl). destruct vec_dsin as (fb & -> & Hfb).
  assert (Eb : bdim nL nB = Some nB) by (destruct Hn as [->| ->]; [apply bdim_same|apply bdim_1l]).
  unfold tbin at 1, bshape. cbn [shape rev app bshape_rev]. rewrite Eb. cbn [rev app rbind]. bnorm. eexists. split; [reflexivity|]. split; [reflexivity|].
  intros i j k Hi Hj Hk. inorm. change (wsum _ _ _) with (C i j k).
  rewrite (ndiff_fin_nth (fun x => x)) by (unfold nE in *; lia).
  assert (Ej : (if Nat.eqb nL 1 then 0%nat else k) = J j k) by (unfold J; destruct (Nat.eqb_spec nL 1); auto; lia).
  rewrite Ej.
  assert (HJ : (J j k < nL)%nat) by (unfold J; destruct (Nat.eqb_spec nL 1); auto; destruct Hn; lia).
  rewrite Hfl, Hfb by auto. cbn [nmul]. destruct (rect_nz (J j k) k HJ Hk) as [_ HR]. pose proof (inc_nth ebins i He ltac:(unfold nE in *; lia)).
  rewrite !ndiv_fin by lra. auto.
Qed.
Lemma c47_bin : uniform lon -> length lon = length lat \/ length lon = 2%nat ->
  exists out, background_3d_lonlat evs (map Fin ebins) lon lat t_obs = Ok out /\ shape out = [(length ebins - 1)%nat; (length lon - 1)%nat; (length lat - 1)%nat] /\
  forall i j k e e' l l' b b', nth_error ebins i = Some e -> nth_error ebins (S i) = Some e' -> nth_error lon j = Some l -> nth_error lon (S j) = Some l' ->
    nth_error lat k = Some b -> nth_error lat (S k) = Some b' ->
    exists rate W, at_ out [i; j; k] = Fin rate /\
      weight_of weight (fun ev => in_hist_bin (map Fin ebins) i (reco_energy ev) /\ in_hist_bin (map Fin lon) j (reco_fov_lon ev) /\ in_hist_bin (map Fin lat) k (reco_fov_lat ev)) evs W /\
      rate * (e' - e) * t_obs * rectangle_deg l l' b b' = W.
Proof.
  intros (w & Hw) Hn. destruct bkg3_eq as (out & Eo & So & Ho); [unfold nL, nB; lia|]. exists out. split; auto. split; auto.
  intros i j k e e' l l' b b' E1 E2 F1 F2 G1 G2.
  assert (Hi := nth_some_lt _ _ _ E2). assert (Hj := nth_some_lt _ _ _ F2). assert (Hk := nth_some_lt _ _ _ G2).
  assert (Hd : dlon (J j k) = dlon j).
  { unfold J. destruct (Nat.eqb_spec nL 1); auto. assert (Hk' : (S k < length lon)%nat) by (unfold nL in *; lia).
    destruct (nth_some_ex lon k) as [u Hu]; [lia|]. destruct (nth_some_ex lon (S k)) as [v Hv]; [lia|]. unfold dlon.
    rewrite (nth_error_nth _ _ _ Hu), (nth_error_nth _ _ _ Hv), (nth_error_nth _ _ _ F1), (nth_error_nth _ _ _ F2).
    pose proof (Hw _ _ _ Hu Hv). pose proof (Hw _ _ _ F1 F2). rewrite <- !Rmult_minus_distr_r. f_equal. lra. }
  eexists _, (C i j k). split; [apply Ho; unfold nE, nL, nB; lia|]. split.
  - apply C3_weight; auto; rewrite map_length; lia.
  - rewrite Hd. destruct (rect_nz j k) as [Er HR]; [unfold nL; lia|unfold nB; lia|]. rewrite Er in *.
    rewrite (nth_error_nth _ _ _ E1), (nth_error_nth _ _ _ E2), (nth_error_nth _ _ _ F1), (nth_error_nth _ _ _ F2), (nth_error_nth _ _ _ G1), (nth_error_nth _ _ _ G2) in *.
    pose proof (He _ _ _ E1 E2). field. lra.
Qed.
Lemma c47_total : uniform lon -> length lon = length lat \/ length lon = 2%nat ->
  exists out (cube : list (list (list R))) W, background_3d_lonlat evs (map Fin ebins) lon lat t_obs = Ok out /\
  shape3 cube (length ebins - 1) (length lon - 1) (length lat - 1) /\
  (forall i j k v, entry3 cube i j k v -> at_ out [i; j; k] = Fin v) /\
  weight_of weight (fun ev => in_range (map Fin ebins) (reco_energy ev) /\ in_range (map Fin lon) (reco_fov_lon ev) /\ in_range (map Fin lat) (reco_fov_lat ev)) evs W /\
  integral_over width ebins (map (fun plane => integral_over (fun a b => deg b - deg a) lon (map (integral_over (fun a b => sin (deg b) - sin (deg a)) lat) plane)) cube) * t_obs = W.
Proof.
  intros (w & Hw) Hn. destruct bkg3_eq as (out & Eo & So & Ho); [unfold nL, nB; lia|].
  set (rate := fun i j k => C i j k / (nth (S i) ebins 0 - nth i ebins 0) / t_obs / (dlon (J j k) * dsin k)).
  exists out, (map (fun i => map (fun j => map (rate i j) (seq 0 nB)) (seq 0 nL)) (seq 0 nE)),
    (wsum weight (fun e => r2 reco_energy (map Fin ebins) e && r2 reco_fov_lon (map Fin lon) e && r2 reco_fov_lat (map Fin lat) e) evs).
  split; auto. split.
  { split; [rewrite map_length, seq_length; auto|]. intros m Hm. apply in_map_iff in Hm as (i & <- & _). split; [rewrite map_length, seq_length; auto|].
    intros r Hr. apply in_map_iff in Hr as (j & <- & _). rewrite map_length, seq_length; auto. }
  split; [|split].
  - intros i j k v (m & r & E1 & E2 & E3). apply seq_map_nth in E1 as [Li ->]. apply seq_map_nth in E2 as [Lj ->]. apply seq_map_nth in E3 as [Lk ->]. apply Ho; auto.
  - apply weight_of_wsum. intros e _. rewrite !andb_true_iff, !r2_range by auto. tauto.
  - rewrite <- sum_all3. rewrite !map_length. fold nE nL nB. rewrite map_map. unfold nE at 1. rewrite integral_over_seq. fold nE.
    rewrite Rmult_comm, <- rsum_scale, map_map. apply rsum_map_ext. intros i Hi. apply in_seq in Hi. cbn [Nat.add].
    rewrite map_map. unfold nL at 1. rewrite integral_over_seq. fold nL. unfold width.
    rewrite (Rmult_comm (rsum _)), <- !rsum_scale, !map_map. apply rsum_map_ext. intros j Hj. apply in_seq in Hj. cbn [Nat.add].
    unfold nB at 1. rewrite integral_over_seq. fold nB. rewrite (Rmult_comm (rsum _)), <- !rsum_scale, !map_map. apply rsum_map_ext. intros k Hk. apply in_seq in Hk. cbn [Nat.add]. unfold rate.
    pose proof (inc_nth ebins i He ltac:(unfold nE in *; lia)).
    assert (Hd : dlon (J j k) = dlon j).
    { unfold J. destruct (Nat.eqb_spec nL 1); auto. assert (Hk' : (S k < length lon)%nat) by (unfold nL, nB in *; lia).
      destruct (nth_some_ex lon k) as [u Hu]; [lia|]. destruct (nth_some_ex lon (S k)) as [v Hv]; [lia|].
      destruct (nth_some_ex lon j) as [u' Hu']; [unfold nL in *; lia|]. destruct (nth_some_ex lon (S j)) as [v' Hv']; [unfold nL in *; lia|]. unfold dlon.
      rewrite (nth_error_nth _ _ _ Hu), (nth_error_nth _ _ _ Hv), (nth_error_nth _ _ _ Hu'), (nth_error_nth _ _ _ Hv').
      pose proof (Hw _ _ _ Hu Hv). pose proof (Hw _ _ _ Hu' Hv'). rewrite <- !Rmult_minus_distr_r. f_equal. lra. }
    rewrite Hd. change (deg (nth (S j) lon 0) - deg (nth j lon 0)) with (dlon j). change (sin (deg (nth (S k) lat 0)) - sin (deg (nth k lat 0))) with (dsin k).
    destruct (rect_nz j k ltac:(lia) ltac:(lia)) as [_ HR]. fold (C i j k).
    assert (dlon j <> 0 /\ dsin k <> 0) by (split; intros Z; rewrite Z in HR; lra). field. lra.
Qed.
(** square grids: the width of longitude bin k is used instead of bin j *)
Lemma c47_square : length lon = length lat ->
  exists out, background_3d_lonlat evs (map Fin ebins) lon lat t_obs = Ok out /\
  forall i j k e e' l l' b b' lk lk', nth_error ebins i = Some e -> nth_error ebins (S i) = Some e' -> nth_error lon j = Some l -> nth_error lon (S j) = Some l' ->
    nth_error lat k = Some b -> nth_error lat (S k) = Some b' -> nth_error lon k = Some lk -> nth_error lon (S k) = Some lk' ->
    exists rate W, at_ out [i; j; k] = Fin rate /\
      weight_of weight (fun ev => in_hist_bin (map Fin ebins) i (reco_energy ev) /\ in_hist_bin (map Fin lon) j (reco_fov_lon ev) /\ in_hist_bin (map Fin lat) k (reco_fov_lat ev)) evs W /\
      rate * (e' - e) * t_obs * rectangle_deg l l' b b' = W * ((l' - l) / (lk' - lk)).
Proof.
  intros Hn. destruct bkg3_eq as (out & Eo & So & Ho); [unfold nL, nB; lia|]. exists out. split; auto.
  intros i j k e e' l l' b b' lk lk' E1 E2 F1 F2 G1 G2 K1 K2.
  assert (Hi := nth_some_lt _ _ _ E2). assert (Hj := nth_some_lt _ _ _ F2). assert (Hk := nth_some_lt _ _ _ G2).
  assert (HJ : J j k = k) by (unfold J; destruct (Nat.eqb_spec nL 1); auto; unfold nL in *; lia).
  eexists _, (C i j k). split; [apply Ho; unfold nE, nL, nB; lia|]. split.
  - apply C3_weight; auto; rewrite map_length; lia.
  - rewrite HJ. destruct (rect_nz j k) as [Er HR]; [unfold nL; lia|unfold nB; lia|]. destruct (rect_nz k k) as [_ HR']; [unfold nL; lia|unfold nB; lia|].
    pose proof (He _ _ _ E1 E2). pose proof (Hlon _ _ _ K1 K2).
    assert (Hs : dsin k <> 0) by (intros Z; rewrite Z in HR; lra).
    assert (Ek : dlon k = (lk' - lk) * degree) by (unfold dlon; rewrite (nth_error_nth _ _ _ K1), (nth_error_nth _ _ _ K2); ring).
    assert (Ej : dlon j = (l' - l) * degree) by (unfold dlon; rewrite (nth_error_nth _ _ _ F1), (nth_error_nth _ _ _ F2); ring).
    replace (rectangle_deg l l' b b') with (dlon j * dsin k).
    + rewrite Ek, Ej. rewrite (nth_error_nth _ _ _ E1), (nth_error_nth _ _ _ E2).
      assert (degree <> 0) by (unfold degree; pose proof PI_RGT_0; lra). field. lra.
    + rewrite Er. rewrite (nth_error_nth _ _ _ F1), (nth_error_nth _ _ _ F2), (nth_error_nth _ _ _ G1), (nth_error_nth _ _ _ G2). auto.
Qed.
Lemma c47_shape_error : length lon <> length lat -> length lon <> 2%nat -> length lat <> 2%nat ->
  background_3d_lonlat evs (map Fin ebins) lon lat t_obs = Err ValueError.
Proof.
  intros N1 N2 N3. unfold background_3d_lonlat. change ([(reco_energy, map Fin ebins); (reco_fov_lon, map Fin lon); (reco_fov_lat, map Fin lat)]) with (dims3 reco_energy reco_fov_lon reco_fov_lat (map Fin ebins) (map Fin lon) (map Fin lat)).
  rewrite hist3 by auto. cbn [rbind]. rewrite !map_length. fold nE nL nB.
  assert (Lw : length (ndiff (map Fin ebins)) = nE) by (rewrite ndiff_length, map_length; auto).
  bnorm. rewrite Lw. bnorm. cbn [rbind]. unfold rectangle_solid_angles.
  destruct vec_dlon as (fl & -> & Hfl). destruct vec_dsin as (fb & -> & Hfb). unfold tbin at 1, bshape. cbn [shape rev app bshape_rev].
  unfold bdim. destruct (Nat.eqb_spec nL nB), (Nat.eqb_spec nL 1), (Nat.eqb_spec nB 1); unfold nL, nB in *; try lia. reflexivity.
Qed.
(** one latitude bin, several longitude bins: an array of the wrong shape *)
Lemma c47_shape_wrong : length lat = 2%nat -> (3 <= length lon)%nat ->
  exists out, background_3d_lonlat evs (map Fin ebins) lon lat t_obs = Ok out /\
    shape out = [(length ebins - 1)%nat; (length lon - 1)%nat; (length lon - 1)%nat].
Proof.
  intros N1 N2. unfold background_3d_lonlat. change ([(reco_energy, map Fin ebins); (reco_fov_lon, map Fin lon); (reco_fov_lat, map Fin lat)]) with (dims3 reco_energy reco_fov_lon reco_fov_lat (map Fin ebins) (map Fin lon) (map Fin lat)).
  rewrite hist3 by auto. cbn [rbind]. rewrite !map_length. fold nE nL nB.
  assert (Lw : length (ndiff (map Fin ebins)) = nE) by (rewrite ndiff_length, map_length; auto).
  assert (HB : nB = 1%nat) by (unfold nB; lia). rewrite HB.
  bnorm. rewrite Lw. bnorm. cbn [rbind]. unfold rectangle_solid_angles.
  destruct vec_dlon as (fl & -> & Hfl). destruct vec_dsin as (fb & -> & Hfb). rewrite HB. bnorm. cbn [rbind]. bnorm. eexists. split; reflexivity.
Qed.
End C47.
