(** * RebinProofs3: coarser bins (C84) *)
From Coq Require Import String Reals List Bool ZArith Arith Lia Lra.
From Verif Require Import Num Numpy Table Binning Utils Simulations Tensor IRF SpecBinning SpecIRF SpecRebin
  BinningProofs HistProofs TensorProofs SpecUtils SpecSimulations SimulationsProofs SimulationsProofs2 IRFProofs IRFProofs2 IRFProofs3 IRFProofs4 HistDouble2Proofs Lists LocalProofs RebinProofs RebinProofs2.
Import ListNotations.
Open Scope R_scope.

Lemma pick {A} (P : nat -> A -> Prop) (d : A) a b : (forall j, (a <= j < b)%nat -> exists x, P j x) -> exists f, forall j, (a <= j < b)%nat -> P j (f j).
Proof.
  intros H. assert (K : forall n, exists f, forall j, (a <= j < a + n)%nat -> (j < b)%nat -> P j (f j)).
  { induction n as [|n [f Hf]]; [exists (fun _ => d); intros; lia|]. destruct (Nat.lt_ge_cases (a + n) b) as [L|L].
    - destruct (H (a + n)%nat ltac:(lia)) as [x Hx]. exists (fun j => if Nat.eqb j (a + n) then x else f j). intros j Hj Hb. destruct (Nat.eqb_spec j (a + n)); [subst; auto|apply Hf; lia].
    - exists f. intros j Hj Hb. apply Hf; lia. }
  destruct (K (b - a)%nat) as [f Hf]. exists f. intros j Hj. apply Hf; lia.
Qed.
(** ** effective area *)
Section Area.
Variable s : sim_info.
Hypotheses (Hn : (0 < n_showers s)%Z) (Hi : max_impact s <> 0) (E0 : 0 < energy_min s) (E1 : energy_min s < energy_max s) (E2 : spectral_index s < -1).
Lemma rebin_area ev fine coarse : nondecreasing fine -> nondecreasing coarse -> (2 <= List.length fine)%nat -> (2 <= List.length coarse)%nat ->
  exists out out', effective_area_per_energy ev s fine = Ok out /\ effective_area_per_energy ev s coarse = Ok out' /\
  forall k a b lo hi, joins fine coarse k a b -> nth_error coarse k = Some lo -> nth_error coarse (S k) = Some hi -> energy_bin lo hi -> ~ overhangs (energy_min s) (energy_max s) lo hi ->
  forall A, (forall j, (a <= j < b)%nat -> at_ out [j] = Fin (A j)) ->
  exists A' N n, at_ out' [k] = Fin A' /\ nth_error (calculate_n_showers_per_energy s coarse) k = Some (Fin N) /\
    (forall j, (a <= j < b)%nat -> nth_error (calculate_n_showers_per_energy s fine) j = Some (Fin (n j)) /\ 0 < n j) /\
    N = sum_between a b n /\ N * A' = sum_between a b (fun j => n j * A j).
Proof.
  intros Hf Hc Lf Lc. destruct (c42_energy s fine Hn Hi E0 E1 E2 Hf Lf ev) as (out & Eo & So & Ho). destruct (c42_energy s coarse Hn Hi E0 E1 E2 Hc Lc ev) as (out' & Eo' & So' & Ho').
  exists out, out'. split; [exact Eo|]. split; [exact Eo'|]. intros k a b lo hi J Clo Chi B O A HA. destruct (joins_lt _ _ _ _ _ J) as (Hab & Lb & Lk).
  destruct (rebin_showers s E0 E1 E2 fine coarse k a b lo hi Hf J Clo Chi B O) as (N & n & EN & En & Sum).
  set (area := PI * (max_impact s * max_impact s)).
  assert (X : forall j, (a <= j < b)%nat -> exists m : nat, number_of (fun e => in_hist_bin fine j (ev_x e)) (et_rows ev) m /\ 0 < n j /\ A j * n j = INR m * area).
  { intros j Hj. destruct (nth_some_ex fine j) as [l Hl]; [lia|]. destruct (nth_some_ex fine (S j)) as [h Hh]; [lia|].
    destruct (fine_bin s fine coarse k a b j l h lo hi Hf J Hj Hl Hh Clo Chi B O) as (B' & O'). destruct (Ho j l h Hl Hh B' O') as (m & v & M & Sv & CA).
    destruct (c30_bin s fine j l h E0 E1 E2 Hl Hh B' O') as (w & Ew & Sw & _). assert (w = v) by (eapply (share_unique positive); [| |exact Sw|exact Sv]; [lra|]; intros x Hx; unfold positive; lra). subst w.
    rewrite (En j Hj) in Ew. injection Ew as Ew. exists m. split; [exact M|]. rewrite Ew. rewrite (HA j Hj) in CA. destruct CA as [(P & A0 & EA & AA & _)|[(_ & _ & EA)|(_ & _ & EA)]]; try discriminate.
    injection EA as <-. auto. }
  destruct (pick _ 0%nat a b X) as [m Hm]. clear X.
  assert (PN : 0 < N) by (rewrite Sum; apply sum_pos; auto; intros j Hj; apply Hm, Hj).
  destruct (Ho' k lo hi Clo Chi B O) as (M & v & HM & Sv & CA). destruct (c30_bin s coarse k lo hi E0 E1 E2 Clo Chi B O) as (w & Ew & Sw & _).
  assert (w = v) by (eapply (share_unique positive); [| |exact Sw|exact Sv]; [lra|]; intros x Hx; unfold positive; lra). subst w. rewrite EN in Ew. injection Ew as Ew. rewrite <- Ew in CA.
  destruct CA as [(_ & A' & EA & AA & _)|[(Z & _)|(Z & _)]]; [|lra|lra]. exists A', N, n. split; [exact EA|]. split; [exact EN|].
  split; [intros j Hj; split; [apply En, Hj|apply Hm, Hj]|]. split; [exact Sum|].
  rewrite (sum_between_ext a b (fun j => n j * A j) (fun j => area * INR (m j))). 2:{ intros j Hj. destruct (Hm j Hj) as (_ & _ & Q). lra. }
  rewrite sum_scale. rewrite <- (weight_joined1 (fun _ => 1) ev_x fine coarse k a b (et_rows ev) (INR M)); auto.
  - fold area in AA. lra.
  - apply weight_of_number, HM.
  - intros j Hj. apply weight_of_number, Hm, Hj.
Qed.
End Area.
(** ** background *)
Lemma map_joins {A B} (f : A -> B) fine coarse k a b : joins fine coarse k a b -> joins (map f fine) (map f coarse) k a b.
Proof.
  intros (H & (lo & C & F) & (hi & C' & F') & L). split; [exact H|]. split; [exists (f lo); split; apply map_nth_some; auto|]. split; [exists (f hi); split; apply map_nth_some; auto|]. rewrite !map_length. exact L.
Qed.
Lemma weight_joined2 (w : dl2 -> R) (x y : dl2 -> num) fine coarse fine' coarse' k a b k' a' b' l W (f : nat -> nat -> R) :
  nondecreasing fine -> nondecreasing coarse -> joins fine coarse k a b -> nondecreasing fine' -> nondecreasing coarse' -> joins fine' coarse' k' a' b' ->
  weight_of w (fun e => in_hist_bin coarse k (x e) /\ in_hist_bin coarse' k' (y e)) l W ->
  (forall i j, (a <= i < b)%nat -> (a' <= j < b')%nat -> weight_of w (fun e => in_hist_bin fine i (x e) /\ in_hist_bin fine' j (y e)) l (f i j)) ->
  W = sum_between a b (fun i => sum_between a' b' (f i)).
Proof.
  intros Hf Hc J Hf' Hc' J' HW Hw. destruct (joins_lt _ _ _ _ _ J) as (Hab & Lb & Lk). destruct (joins_lt _ _ _ _ _ J') as (Hab' & Lb' & Lk').
  apply (weight_joined w x (fun e => in_hist_bin coarse' k' (y e)) (fun e => Nat.eqb (hdd_index coarse' (y e)) (S k')) fine coarse k a b l W); auto.
  { intros e. rewrite Nat.eqb_eq. apply hdd_spec; auto; lia. }
  intros i Hi. set (q := fun e => Nat.eqb (hdd_index fine (x e)) (S i)).
  assert (Q : forall e, q e = true <-> in_hist_bin fine i (x e)) by (intros e; unfold q; rewrite Nat.eqb_eq; apply hdd_spec; auto; lia).
  assert (V : weight_of w (fun e => in_hist_bin fine i (x e) /\ in_hist_bin coarse' k' (y e)) l (wsum w (fun e => q e && Nat.eqb (hdd_index coarse' (y e)) (S k')) l)).
  { apply weight_of_wsum. intros e _. rewrite andb_true_iff, Q, Nat.eqb_eq. rewrite (hdd_spec coarse' _ Hc') by lia. tauto. }
  replace (sum_between a' b' (f i)) with (wsum w (fun e => q e && Nat.eqb (hdd_index coarse' (y e)) (S k')) l); [exact V|].
  apply (weight_joined w y (fun e => in_hist_bin fine i (x e)) q fine' coarse' k' a' b' l); auto.
  - eapply weight_ext; [|exact V]. intros e. tauto.
  - intros j Hj. eapply weight_ext; [|apply (Hw i j Hi Hj)]. intros e. tauto.
Qed.
Lemma rebin_background ev t fine coarse fine' coarse' : 0 < t -> increasing fine -> increasing coarse -> (2 <= List.length fine)%nat -> (2 <= List.length coarse)%nat ->
  angles fine' -> angles coarse' -> (2 <= List.length fine')%nat -> (2 <= List.length coarse')%nat ->
  exists out out', background_2d ev (map Fin fine) fine' t = Ok out /\ background_2d ev (map Fin coarse) coarse' t = Ok out' /\
  forall k a b k' a' b', joins fine coarse k a b -> joins fine' coarse' k' a' b' ->
  exists B' (B : nat -> nat -> R), at_ out' [k; k'] = Fin B' /\ (forall i j, (a <= i < b)%nat -> (a' <= j < b')%nat -> at_ out [i; j] = Fin (B i j)) /\
    B' * width (nth k coarse 0) (nth (S k) coarse 0) * ring_deg (nth k' coarse' 0) (nth (S k') coarse' 0) =
    sum_between a b (fun i => sum_between a' b' (fun j => B i j * width (nth i fine 0) (nth (S i) fine 0) * ring_deg (nth j fine' 0) (nth (S j) fine' 0))).
Proof.
  intros Ht Hf Hc Lf Lc Hf' Hc' Lf' Lc'.
  destruct (c46_bin ev fine fine' t Hf Lf Hf' Lf' Ht) as (out & Eo & So & Ho). destruct (c46_bin ev coarse coarse' t Hc Lc Hc' Lc' Ht) as (out' & Eo' & So' & Ho').
  exists out, out'. split; [exact Eo|]. split; [exact Eo'|]. intros k a b k' a' b' J J'. destruct (joins_lt _ _ _ _ _ J) as (Hab & Lb & Lk). destruct (joins_lt _ _ _ _ _ J') as (Hab' & Lb' & Lk').
  assert (G : forall i j, (i < List.length fine - 1)%nat -> (j < List.length fine' - 1)%nat -> exists r, at_ out [i; j] = Fin r /\
    weight_of weight (fun ev => in_hist_bin (map Fin fine) i (reco_energy ev) /\ in_hist_bin (map Fin fine') j (reco_fov_offset ev)) ev
      (r * width (nth i fine 0) (nth (S i) fine 0) * t * ring_deg (nth j fine' 0) (nth (S j) fine' 0))).
  { intros i j Hi Hj. destruct (nth_some_ex fine i) as [e1 X1]; [lia|]. destruct (nth_some_ex fine (S i)) as [e2 X2]; [lia|]. destruct (nth_some_ex fine' j) as [f1 Y1]; [lia|]. destruct (nth_some_ex fine' (S j)) as [f2 Y2]; [lia|].
    destruct (Ho i j e1 e2 f1 f2 X1 X2 Y1 Y2) as (r & W & R & HW & Q). exists r. split; [exact R|]. rewrite (nth_error_nth _ _ _ X1), (nth_error_nth _ _ _ X2), (nth_error_nth _ _ _ Y1), (nth_error_nth _ _ _ Y2). unfold width. rewrite Q. exact HW. }
  assert (G' : exists r, at_ out' [k; k'] = Fin r /\
    weight_of weight (fun ev => in_hist_bin (map Fin coarse) k (reco_energy ev) /\ in_hist_bin (map Fin coarse') k' (reco_fov_offset ev)) ev
      (r * width (nth k coarse 0) (nth (S k) coarse 0) * t * ring_deg (nth k' coarse' 0) (nth (S k') coarse' 0))).
  { destruct (nth_some_ex coarse k) as [e1 X1]; [lia|]. destruct (nth_some_ex coarse (S k)) as [e2 X2]; [lia|]. destruct (nth_some_ex coarse' k') as [f1 Y1]; [lia|]. destruct (nth_some_ex coarse' (S k')) as [f2 Y2]; [lia|].
    destruct (Ho' k k' e1 e2 f1 f2 X1 X2 Y1 Y2) as (r & W & R & HW & Q). exists r. split; [exact R|]. rewrite (nth_error_nth _ _ _ X1), (nth_error_nth _ _ _ X2), (nth_error_nth _ _ _ Y1), (nth_error_nth _ _ _ Y2). unfold width. rewrite Q. exact HW. }
  destruct G' as (B' & R' & HW').
  set (B := fun i j => match at_ out [i; j] with Fin r => r | _ => 0 end).
  assert (HB : forall i j, (a <= i < b)%nat -> (a' <= j < b')%nat -> at_ out [i; j] = Fin (B i j) /\ weight_of weight (fun ev => in_hist_bin (map Fin fine) i (reco_energy ev) /\ in_hist_bin (map Fin fine') j (reco_fov_offset ev)) ev
      (t * (B i j * width (nth i fine 0) (nth (S i) fine 0) * ring_deg (nth j fine' 0) (nth (S j) fine' 0)))).
  { intros i j Hi Hj. destruct (G i j ltac:(lia) ltac:(lia)) as (r & R & HW). unfold B. rewrite R. split; [reflexivity|].
    replace (t * (r * width (nth i fine 0) (nth (S i) fine 0) * ring_deg (nth j fine' 0) (nth (S j) fine' 0))) with (r * width (nth i fine 0) (nth (S i) fine 0) * t * ring_deg (nth j fine' 0) (nth (S j) fine' 0)) by ring. exact HW. }
  exists B', B. split; [exact R'|]. split; [intros i j H1 H2; apply HB; auto|].
  assert (K := weight_joined2 weight reco_energy reco_fov_offset (map Fin fine) (map Fin coarse) (map Fin fine') (map Fin coarse') k a b k' a' b' ev _ _
    (inc_nondec _ Hf) (inc_nondec _ Hc) (map_joins Fin _ _ _ _ _ J) (inc_nondec _ (proj1 Hf')) (inc_nondec _ (proj1 Hc')) (map_joins Fin _ _ _ _ _ J') HW' (fun i j Hi Hj => proj2 (HB i j Hi Hj))).
  apply (Rmult_eq_reg_l t); [|lra]. rewrite <- sum_scale. rewrite (sum_between_ext a b _ _ (fun i _ => eq_sym (sum_scale a' b' t _))).
  match type of K with _ = ?r => transitivity r; [rewrite <- K; ring|reflexivity] end.
Qed.
