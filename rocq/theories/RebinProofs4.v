(** * RebinProofs4: coarser bins along the axis of a distribution (C84) *)
From Coq Require Import String Reals List Bool ZArith Arith Lia Lra.
From Verif Require Import Num Numpy Table Binning Utils Simulations Tensor IRF SpecBinning SpecIRF SpecRebin
  BinningProofs HistProofs TensorProofs SpecUtils SpecSimulations SimulationsProofs SimulationsProofs2 IRFProofs IRFProofs2 IRFProofs3 IRFProofs4 HistDouble2Proofs Lists LocalProofs FoldProofs RebinProofs RebinProofs2 RebinProofs3.
Import ListNotations.
Open Scope R_scope.

Lemma ends_range l l' x : same_ends l l' -> (in_range l x <-> in_range l' x).
Proof. intros (A & B). unfold in_range, first_edge, last_edge. rewrite A, B. tauto. Qed.
Lemma map_ends {A B} (f : A -> B) l l' : same_ends l l' -> same_ends (map f l) (map f l').
Proof. intros (P & Q). split; rewrite ?map_length, !nth_error_map; congruence. Qed.
Lemma number_ext {A} (P P' : A -> Prop) l m m' : (forall e, P e <-> P' e) -> number_of P l m -> number_of P' l m' -> m = m'.
Proof.
  intros H M M'. apply (number_of_unique P' l); [|exact M']. clear M'. induction M; [constructor|apply no_yes; auto; apply H; auto|apply no_no; auto; rewrite <- H; auto].
Qed.
Lemma ratio_value x n m w : w <> 0 -> (n <= m)%nat -> ((0 < m)%nat -> x = INR n / INR m / w) -> (m = 0%nat -> x = 0) -> x * w = INR n * / INR m.
Proof.
  intros Hw L H Z. destruct (Nat.eq_dec m 0) as [->|N]; [replace n with 0%nat by lia; rewrite Z by auto; cbn; ring|]. rewrite H by lia. field. split; [apply not_0_INR; auto|exact Hw].
Qed.
Section Distributions.
Variables (ev : list dl2) (eb fb : list num) (i k : nat).
Hypotheses (He : nondecreasing eb) (Hi : (i < List.length eb - 1)%nat) (Hf : nondecreasing fb) (Hk : (k < List.length fb - 1)%nat).
Let q e := Nat.eqb (hdd_index eb (true_energy e)) (S i) && Nat.eqb (hdd_index fb (true_fov_offset e)) (S k).
Let Q e := in_hist_bin eb i (true_energy e) /\ in_hist_bin fb k (true_fov_offset e).
Lemma rebin_q e : q e = true <-> Q e.
Proof. unfold q, Q. rewrite andb_true_iff, !Nat.eqb_eq. rewrite (hdd_spec eb _ He) by lia. rewrite (hdd_spec fb _ Hf) by lia. tauto. Qed.
(** a density [x c] per measure [w c] in each bin of [x] is the fraction of the events in range *)
Lemma rebin_density (x : dl2 -> num) (fine coarse : list num) c a b (X : R) (Y : nat -> R) n' m' (n : nat -> nat) (m : nat -> nat) :
  nondecreasing fine -> nondecreasing coarse -> same_ends fine coarse -> joins fine coarse c a b ->
  number_of (fun e => in_hist_bin coarse c (x e) /\ Q e) ev n' -> number_of (fun e => in_range coarse (x e) /\ Q e) ev m' -> X = INR n' * / INR m' ->
  (forall j, (a <= j < b)%nat -> number_of (fun e => in_hist_bin fine j (x e) /\ Q e) ev (n j) /\ number_of (fun e => in_range fine (x e) /\ Q e) ev (m j) /\ Y j = INR (n j) * / INR (m j)) ->
  X = sum_between a b Y.
Proof.
  intros Hfi Hco Ends J N M -> H.
  rewrite (sum_between_ext a b Y (fun j => / INR m' * INR (n j))).
  - rewrite sum_scale. rewrite <- (weight_joined (fun _ => 1) x Q q fine coarse c a b ev (INR n') (fun j => INR (n j))); auto; [ring|apply rebin_q|apply weight_of_number, N|].
    intros j Hj. apply weight_of_number, (proj1 (H j Hj)).
  - intros j Hj. destruct (H j Hj) as (_ & Mj & ->). rewrite (number_ext _ _ _ _ _ (fun e => and_iff_compat_r (Q e) (ends_range _ _ (x e) Ends)) Mj M). ring.
Qed.
End Distributions.
Lemma number_comm {A} (P P' : A -> Prop) l m : (forall e, P e <-> P' e) -> number_of P l m -> number_of P' l m.
Proof. intros H. induction 1; [constructor|apply no_yes; auto; apply H; auto|apply no_no; auto; rewrite <- H; auto]. Qed.

Section Edisp.
Variables (ev : list dl2) (eb fb : list num).
Hypotheses (He : nondecreasing eb) (Le : (2 <= List.length eb)%nat) (Hf : nondecreasing fb) (Lf : (2 <= List.length fb)%nat).
Lemma edisp_entry mig : increasing mig -> (2 <= List.length mig)%nat -> exists d, energy_dispersion ev eb fb (map Fin mig) = Ok d /\
  forall i j k, (i < List.length eb - 1)%nat -> (j < List.length mig - 1)%nat -> (k < List.length fb - 1)%nat -> exists x n m, at_ d [i; j; k] = Fin x /\
    number_of (fun e => in_hist_bin (map Fin mig) j (ndiv (reco_energy e) (true_energy e)) /\ in_hist_bin eb i (true_energy e) /\ in_hist_bin fb k (true_fov_offset e)) ev n /\
    number_of (fun e => in_range (map Fin mig) (ndiv (reco_energy e) (true_energy e)) /\ in_hist_bin eb i (true_energy e) /\ in_hist_bin fb k (true_fov_offset e)) ev m /\
    x * width (nth j mig 0) (nth (S j) mig 0) = INR n * / INR m.
Proof.
  intros Hm Lm. destruct (c43 ev eb fb mig He Le Hf Lf Hm Lm) as (d & E & Sh & D). exists d. split; [exact E|]. intros i j k Hi Hj Hk.
  destruct (c43_value ev eb fb mig He Le Hf Lf Hm Lm i j k Hi Hj Hk) as (o & n & m & a & b & Eo & N & M & A & B & V). rewrite E in Eo. injection Eo as <-.
  destruct (D i k Hi Hk) as (l & Ll & L & _ & Z). destruct (nth_some_ex l j) as [x Hx]; [lia|]. destruct (L _ _ Hx) as (X & _). exists x, n, m. split; [exact X|].
  split; [eapply number_comm; [|exact N]; intros e; tauto|]. split; [eapply number_comm; [|exact M]; intros e; tauto|].
  rewrite (nth_error_nth _ _ _ A), (nth_error_nth _ _ _ B). unfold width. apply ratio_value.
  - pose proof (inc_nth mig j Hm ltac:(lia)) as G. rewrite (nth_error_nth _ _ _ A), (nth_error_nth _ _ _ B) in G. lra.
  - eapply number_of_le; [|exact N|exact M]. intros e (Q1 & Q2 & Q3). split; [exact Q1|split; [|exact Q3]]. eapply bin_in_range; [apply inc_nondec; exact Hm|rewrite map_length; lia| |exact Q2]. rewrite map_length. lia.
  - intros P. specialize (V P). rewrite X in V. injection V as V. exact V.
  - intros ->. apply (Z (number_zero _ _ M)). eapply nth_error_In; eauto.
Qed.
Lemma migration_entry mig : nondecreasing mig -> (2 <= List.length mig)%nat -> exists d, energy_migration_matrix ev eb mig fb = Ok d /\
  forall i j k, (i < List.length eb - 1)%nat -> (j < List.length mig - 1)%nat -> (k < List.length fb - 1)%nat -> exists x n m, at_ d [i; j; k] = Fin x /\
    number_of (fun e => in_hist_bin mig j (reco_energy e) /\ in_hist_bin eb i (true_energy e) /\ in_hist_bin fb k (true_fov_offset e)) ev n /\
    number_of (fun e => in_range mig (reco_energy e) /\ in_hist_bin eb i (true_energy e) /\ in_hist_bin fb k (true_fov_offset e)) ev m /\
    x = INR n * / INR m.
Proof.
  intros Hm Lm. destruct (c44 ev eb mig fb He Le Hm Lm Hf Lf) as (d & E & Sh & D). exists d. split; [exact E|]. intros i j k Hi Hj Hk.
  destruct (c44_value ev eb mig fb He Le Hm Lm Hf Lf i j k Hi Hj Hk) as (o & n & m & Eo & N & M & V). rewrite E in Eo. injection Eo as <-.
  destruct (D i k Hi Hk) as (l & Ll & L & _ & Z). destruct (nth_some_ex l j) as [x Hx]; [lia|]. destruct (L _ _ Hx) as (X & _). exists x, n, m. split; [exact X|].
  split; [eapply number_comm; [|exact N]; intros e; tauto|]. split; [eapply number_comm; [|exact M]; intros e; tauto|].
  rewrite <- (Rmult_1_r x). apply ratio_value; [lra|..].
  - eapply number_of_le; [|exact N|exact M]. intros e (Q1 & Q2 & Q3). split; [exact Q1|split; [|exact Q3]]. eapply bin_in_range; [exact Hm|lia| |exact Q2]. lia.
  - intros P. specialize (V P). rewrite X in V. injection V as V. rewrite V. field. apply not_0_INR. lia.
  - intros ->. apply (Z (number_zero _ _ M)). eapply nth_error_In; eauto.
Qed.
Lemma psf_entry src : angles src -> (2 <= List.length src)%nat -> exists d, psf_table ev eb src fb = Ok d /\
  forall i k j, (i < List.length eb - 1)%nat -> (j < List.length src - 1)%nat -> (k < List.length fb - 1)%nat -> exists x n m, at_ d [i; k; j] = Fin x /\
    number_of (fun e => in_hist_bin (map Fin src) j (theta e) /\ in_hist_bin eb i (true_energy e) /\ in_hist_bin fb k (true_fov_offset e)) ev n /\
    number_of (fun e => in_range (map Fin src) (theta e) /\ in_hist_bin eb i (true_energy e) /\ in_hist_bin fb k (true_fov_offset e)) ev m /\
    x * ring_deg (nth j src 0) (nth (S j) src 0) = INR n * / INR m.
Proof.
  intros Hm Lm. destruct (c45 ev eb fb src He Le Hf Lf Hm Lm) as (d & E & Sh & D). exists d. split; [exact E|]. intros i k j Hi Hj Hk.
  destruct (c45_value ev eb fb src He Le Hf Lf Hm Lm i k j Hi Hk Hj) as (o & n & m & a & b & Eo & N & M & A & B & V). rewrite E in Eo. injection Eo as <-.
  destruct (D i k Hi Hk) as (l & Ll & L & _ & Z). destruct (nth_some_ex l j) as [x Hx]; [lia|]. destruct (L _ _ Hx) as (X & _). exists x, n, m. split; [exact X|].
  split; [eapply number_comm; [|exact N]; intros e; tauto|]. split; [eapply number_comm; [|exact M]; intros e; tauto|].
  apply ratio_value.
  - pose proof (angles_ring src j Hm ltac:(lia)) as G. lra.
  - eapply number_of_le; [|exact N|exact M]. intros e (Q1 & Q2 & Q3). split; [exact Q1|split; [exact Q2|]]. eapply bin_in_range; [apply inc_nondec, Hm|rewrite map_length; lia| |exact Q3]. rewrite map_length. lia.
  - intros P. specialize (V P). rewrite X in V. injection V as V. rewrite (nth_error_nth _ _ _ A), (nth_error_nth _ _ _ B). exact V.
  - intros ->. apply (Z (number_zero _ _ M)). eapply nth_error_In; eauto.
Qed.
Lemma rebin_edisp fine coarse : increasing fine -> (2 <= List.length fine)%nat -> increasing coarse -> (2 <= List.length coarse)%nat -> same_ends fine coarse ->
  exists d d', energy_dispersion ev eb fb (map Fin fine) = Ok d /\ energy_dispersion ev eb fb (map Fin coarse) = Ok d' /\
  forall i k c a b, (i < List.length eb - 1)%nat -> (k < List.length fb - 1)%nat -> joins fine coarse c a b ->
  exists X Y, at_ d' [i; c; k] = Fin X /\ (forall j, (a <= j < b)%nat -> at_ d [i; j; k] = Fin (Y j)) /\
    X * width (nth c coarse 0) (nth (S c) coarse 0) = sum_between a b (fun j => Y j * width (nth j fine 0) (nth (S j) fine 0)).
Proof.
  intros Hfi Lfi Hco Lco Ends. destruct (edisp_entry fine Hfi Lfi) as (d & E & D). destruct (edisp_entry coarse Hco Lco) as (d' & E' & D'). exists d, d'. split; [exact E|]. split; [exact E'|].
  intros i k c a b Hi Hk J. destruct (joins_lt _ _ _ _ _ J) as (Hab & Lb & Lk). destruct (D' i c k Hi ltac:(lia) Hk) as (X & n' & m' & EX & N' & M' & VX).
  destruct (pick (fun j x => at_ d [i; j; k] = Fin x) 0 a b) as [Y HY]. { intros j Hj. destruct (D i j k Hi ltac:(lia) Hk) as (x & _ & _ & Ex & _). eauto. }
  exists X, Y. split; [exact EX|]. split; [exact HY|].
  destruct (pick (fun j (p : nat * nat) => number_of (fun e => in_hist_bin (map Fin fine) j (ndiv (reco_energy e) (true_energy e)) /\ in_hist_bin eb i (true_energy e) /\ in_hist_bin fb k (true_fov_offset e)) ev (fst p) /\
    number_of (fun e => in_range (map Fin fine) (ndiv (reco_energy e) (true_energy e)) /\ in_hist_bin eb i (true_energy e) /\ in_hist_bin fb k (true_fov_offset e)) ev (snd p) /\
    Y j * width (nth j fine 0) (nth (S j) fine 0) = INR (fst p) * / INR (snd p)) (0%nat, 0%nat) a b) as [p Hp].
  { intros j Hj. destruct (D i j k Hi ltac:(lia) Hk) as (x & n & m & Ex & N & M & V). rewrite (HY j Hj) in Ex. injection Ex as <-. exists (n, m). auto. }
  exact (rebin_density ev eb fb i k He Hi Hf Hk (fun e => ndiv (reco_energy e) (true_energy e)) (map Fin fine) (map Fin coarse) c a b _ _ n' m' (fun j => fst (p j)) (fun j => snd (p j))
    (inc_nondec _ Hfi) (inc_nondec _ Hco) (map_ends Fin _ _ Ends) (map_joins Fin _ _ _ _ _ J) N' M' VX Hp).
Qed.
Lemma rebin_migration fine coarse : nondecreasing fine -> (2 <= List.length fine)%nat -> nondecreasing coarse -> (2 <= List.length coarse)%nat -> same_ends fine coarse ->
  exists d d', energy_migration_matrix ev eb fine fb = Ok d /\ energy_migration_matrix ev eb coarse fb = Ok d' /\
  forall i k c a b, (i < List.length eb - 1)%nat -> (k < List.length fb - 1)%nat -> joins fine coarse c a b ->
  exists X Y, at_ d' [i; c; k] = Fin X /\ (forall j, (a <= j < b)%nat -> at_ d [i; j; k] = Fin (Y j)) /\ X = sum_between a b Y.
Proof.
  intros Hfi Lfi Hco Lco Ends. destruct (migration_entry fine Hfi Lfi) as (d & E & D). destruct (migration_entry coarse Hco Lco) as (d' & E' & D'). exists d, d'. split; [exact E|]. split; [exact E'|].
  intros i k c a b Hi Hk J. destruct (joins_lt _ _ _ _ _ J) as (Hab & Lb & Lk). destruct (D' i c k Hi ltac:(lia) Hk) as (X & n' & m' & EX & N' & M' & VX).
  destruct (pick (fun j x => at_ d [i; j; k] = Fin x) 0 a b) as [Y HY]. { intros j Hj. destruct (D i j k Hi ltac:(lia) Hk) as (x & _ & _ & Ex & _). eauto. }
  exists X, Y. split; [exact EX|]. split; [exact HY|].
  destruct (pick (fun j (p : nat * nat) => number_of (fun e => in_hist_bin fine j (reco_energy e) /\ in_hist_bin eb i (true_energy e) /\ in_hist_bin fb k (true_fov_offset e)) ev (fst p) /\
    number_of (fun e => in_range fine (reco_energy e) /\ in_hist_bin eb i (true_energy e) /\ in_hist_bin fb k (true_fov_offset e)) ev (snd p) /\
    Y j = INR (fst p) * / INR (snd p)) (0%nat, 0%nat) a b) as [p Hp].
  { intros j Hj. destruct (D i j k Hi ltac:(lia) Hk) as (x & n & m & Ex & N & M & V). rewrite (HY j Hj) in Ex. injection Ex as <-. exists (n, m). auto. }
  exact (rebin_density ev eb fb i k He Hi Hf Hk reco_energy fine coarse c a b _ _ n' m' (fun j => fst (p j)) (fun j => snd (p j)) Hfi Hco Ends J N' M' VX Hp).
Qed.
Lemma rebin_psf fine coarse : angles fine -> (2 <= List.length fine)%nat -> angles coarse -> (2 <= List.length coarse)%nat -> same_ends fine coarse ->
  exists d d', psf_table ev eb fine fb = Ok d /\ psf_table ev eb coarse fb = Ok d' /\
  forall i k c a b, (i < List.length eb - 1)%nat -> (k < List.length fb - 1)%nat -> joins fine coarse c a b ->
  exists X Y, at_ d' [i; k; c] = Fin X /\ (forall j, (a <= j < b)%nat -> at_ d [i; k; j] = Fin (Y j)) /\
    X * ring_deg (nth c coarse 0) (nth (S c) coarse 0) = sum_between a b (fun j => Y j * ring_deg (nth j fine 0) (nth (S j) fine 0)).
Proof.
  intros Hfi Lfi Hco Lco Ends. destruct (psf_entry fine Hfi Lfi) as (d & E & D). destruct (psf_entry coarse Hco Lco) as (d' & E' & D'). exists d, d'. split; [exact E|]. split; [exact E'|].
  intros i k c a b Hi Hk J. destruct (joins_lt _ _ _ _ _ J) as (Hab & Lb & Lk). destruct (D' i k c Hi ltac:(lia) Hk) as (X & n' & m' & EX & N' & M' & VX).
  destruct (pick (fun j x => at_ d [i; k; j] = Fin x) 0 a b) as [Y HY]. { intros j Hj. destruct (D i k j Hi ltac:(lia) Hk) as (x & _ & _ & Ex & _). eauto. }
  exists X, Y. split; [exact EX|]. split; [exact HY|].
  destruct (pick (fun j (p : nat * nat) => number_of (fun e => in_hist_bin (map Fin fine) j (theta e) /\ in_hist_bin eb i (true_energy e) /\ in_hist_bin fb k (true_fov_offset e)) ev (fst p) /\
    number_of (fun e => in_range (map Fin fine) (theta e) /\ in_hist_bin eb i (true_energy e) /\ in_hist_bin fb k (true_fov_offset e)) ev (snd p) /\
    Y j * ring_deg (nth j fine 0) (nth (S j) fine 0) = INR (fst p) * / INR (snd p)) (0%nat, 0%nat) a b) as [p Hp].
  { intros j Hj. destruct (D i k j Hi ltac:(lia) Hk) as (x & n & m & Ex & N & M & V). rewrite (HY j Hj) in Ex. injection Ex as <-. exists (n, m). auto. }
  exact (rebin_density ev eb fb i k He Hi Hf Hk theta (map Fin fine) (map Fin coarse) c a b _ _ n' m' (fun j => fst (p j)) (fun j => snd (p j))
    (inc_nondec _ (proj1 Hfi)) (inc_nondec _ (proj1 Hco)) (map_ends Fin _ _ Ends) (map_joins Fin _ _ _ _ _ J) N' M' VX Hp).
Qed.
End Edisp.
(** the condition on the last bins is needed *)
Lemma last_edge_refuted : exists ev fine coarse t t' n n', nondecreasing fine /\ nondecreasing coarse /\
  nth_error coarse 0 = nth_error fine 0 /\ nth_error coarse 1 = nth_error fine 1 /\
  create_histogram_table ev fine "true" = Ok t /\ create_histogram_table ev coarse "true" = Ok t' /\ getitem t "n" = Some (CZ n) /\ getitem t' "n" = Some (CZ n') /\
  nth_error n' 0 <> nth_error n 0.
Proof.
  set (ev := mkEvents [mkEvent (Fin 2) 1 ""] false false).
  assert (Hf : nondecreasing (map Fin [1; 2; 3])) by (apply inc_nondec; intros [|[|[|[|?]]]] a b Ha Hb; cbn in Ha, Hb; try discriminate; inversion Ha; inversion Hb; subst; lra).
  assert (Hc : nondecreasing (map Fin [1; 2])) by (apply inc_nondec; intros [|[|[|[|?]]]] a b Ha Hb; cbn in Ha, Hb; try discriminate; inversion Ha; inversion Hb; subst; lra).
  destruct (c04 ev _ "true" Hf ltac:(cbn; lia)) as (t & n & E & G & (Ln & N) & _). destruct (c04 ev _ "true" Hc ltac:(cbn; lia)) as (t' & n' & E' & G' & (Ln' & N') & _).
  exists ev, (map Fin [1; 2; 3]), (map Fin [1; 2]), t, t', n, n'. repeat (split; [assumption || reflexivity|]).
  destruct (nth_some_ex n 0) as [c C]; [cbn in Ln; lia|]. destruct (nth_some_ex n' 0) as [c' C']; [cbn in Ln'; lia|]. rewrite C, C'.
  destruct (N _ _ C) as (m & -> & M). destruct (N' _ _ C') as (m' & -> & M'). cbn [et_rows ev] in M, M'.
  assert (m = 0%nat). { inversion M as [| |? ? ? ? M2]; subst; [|inversion M2; reflexivity]. exfalso. match goal with H : in_hist_bin _ _ _ |- _ => destruct H as [(lo & hi & A & B & C1 & D)|[A _]]; [|discriminate] end.
    cbn in B. injection B as <-. apply Rltb_true in D. cbn in D. lra. }
  assert (m' = 1%nat). { inversion M' as [|? ? ? ? M2|? ? ? Hn M2]; subst; [inversion M2; reflexivity|]. exfalso. apply Hn. right. split; reflexivity. }
  subst. discriminate.
Qed.
