(** * RebinProofs: coarser bins (C84) *)
From Coq Require Import String Reals List Bool ZArith Arith Lia Lra.
From Verif Require Import Num Numpy Table Binning Utils Simulations Tensor IRF SpecBinning SpecIRF SpecRebin
  BinningProofs HistProofs TensorProofs SpecUtils SpecSimulations SimulationsProofs SimulationsProofs2 IRFProofs IRFProofs2 IRFProofs3 IRFProofs4 HistDouble2Proofs Lists LocalProofs.
Import ListNotations.
Open Scope R_scope.

(** ** sums *)
Lemma sum_of_ext n f g a : (forall j, (a <= j < a + n)%nat -> f j = g j) -> sum_of n f a = sum_of n g a.
Proof. revert a. induction n as [|n IH]; intros a H; cbn; auto. rewrite (H a), (IH (S a)) by (intros; auto; try (apply H); lia). auto. Qed.
Lemma sum_between_ext a b f g : (forall j, (a <= j < b)%nat -> f j = g j) -> sum_between a b f = sum_between a b g.
Proof. intros H. apply sum_of_ext. intros j Hj. apply H. lia. Qed.
Lemma sum_of_scale n f c a : sum_of n (fun j => c * f j) a = c * sum_of n f a.
Proof. revert a. induction n as [|n IH]; intros a; cbn; [ring|]. rewrite IH. ring. Qed.
Lemma sum_scale a b c f : sum_between a b (fun j => c * f j) = c * sum_between a b f.
Proof. apply sum_of_scale. Qed.
Lemma sum_of_rsum n f a : sum_of n f a = rsum (map f (seq a n)).
Proof. revert a. induction n as [|n IH]; intros a; cbn [sum_of seq map]; [rewrite rsum_nil; auto|]. rewrite rsum_cons, IH. auto. Qed.
Lemma sum_telescope (q : nat -> R) a b : (a <= b)%nat -> sum_between a b (fun j => q (S j) - q j) = q b - q a.
Proof.
  intros H. unfold sum_between. replace b with (a + (b - a))%nat at 2 by lia. generalize (b - a)%nat. intros n. clear H b. revert a.
  induction n as [|n IH]; intros a; cbn [sum_of]; [rewrite Nat.add_0_r; ring|]. rewrite IH. replace (S a + n)%nat with (a + S n)%nat by lia. ring.
Qed.
Lemma sum_pos a b f : (a < b)%nat -> (forall j, (a <= j < b)%nat -> 0 < f j) -> 0 < sum_between a b f.
Proof.
  intros H P. unfold sum_between. assert (Q : forall j, (a <= j < a + (b - a))%nat -> 0 < f j) by (intros; apply P; lia).
  assert (N : (b - a <> 0)%nat) by lia. revert N Q. generalize (b - a)%nat. intros n. clear H P b. revert a. induction n as [|n IH]; intros a N Q; [lia|]. cbn.
  pose proof (Q a ltac:(lia)). destruct n; [cbn; lra|]. assert (0 < sum_of (S n) f (S a)) by (apply IH; [lia|intros; apply Q; lia]). lra.
Qed.
(** ** bins *)
Lemma nondec_le edges i j a b : nondecreasing edges -> (i <= j)%nat -> nth_error edges i = Some a -> nth_error edges j = Some b -> nle a b = true.
Proof.
  intros H Hij Ha Hb. revert b Hb. induction Hij as [|j Hij IH]; intros b Hb.
  - rewrite Ha in Hb. injection Hb as <-. assert (is_nan a = false) by (apply H; eapply nth_error_In; eauto). destruct a; try discriminate; cbn; auto. apply Rleb_true. lra.
  - destruct (nth_some_ex edges j) as [c Hc]; [apply nth_some_lt in Hb; lia|]. eapply nle_trans; [apply IH; exact Hc|]. eapply H; eauto.
Qed.
Lemma joined_bin fine coarse k a b x : nondecreasing fine -> nondecreasing coarse -> joins fine coarse k a b ->
  (in_hist_bin coarse k x <-> exists j, (a <= j < b)%nat /\ in_hist_bin fine j x).
Proof.
  intros Hf Hc (Hab & (lo & Clo & Flo) & (hi & Chi & Fhi) & Hlast). pose proof (nth_some_lt _ _ _ Fhi) as Lb. pose proof (nth_some_lt _ _ _ Chi) as Lk.
  assert (L2 : (2 <= List.length fine)%nat) by lia. split.
  - intros H.
    assert (Lx : nle lo x = true).
    { destruct H as [(l & h & Hl & Hh & H1 & H2)|[E H]]; [rewrite Clo in Hl; injection Hl as <-; auto|].
      unfold last_edge in H. replace (List.length coarse - 1)%nat with (S k) in H by lia. rewrite Chi in H. injection H as <-. eapply nondec_le; [exact Hc| |exact Clo|exact Chi]. lia. }
    assert (Nx : is_nan x = false) by (destruct x, lo; try discriminate; auto).
    destruct H as [(l & h & Hl & Hh & H1 & H2)|[E H]].
    + rewrite Clo in Hl. injection Hl as <-. rewrite Chi in Hh. injection Hh as <-.
      set (c := searchsorted_right fine x). pose proof (c_prefix fine x Hf L2 Nx) as Hp. fold c in Hp.
      apply (Hp _ _ Flo) in H1. apply (Hp _ _ Fhi) in H2. exists (c - 1)%nat. split; [lia|]. left.
      destruct (nth_some_ex fine (c - 1)) as [l Hl]; [lia|]. destruct (nth_some_ex fine c) as [h Hh]; [lia|]. exists l, h.
      split; [exact Hl|]. split; [replace (S (c - 1)) with c by lia; exact Hh|]. split; [apply (Hp _ _ Hl); lia|apply (Hp _ _ Hh); lia].
    + exists (b - 1)%nat. split; [lia|]. right. apply Hlast in E. split; [lia|]. unfold last_edge in *. replace (List.length coarse - 1)%nat with (S k) in H by (apply Hlast in E; lia).
      rewrite Chi in H. injection H as <-. replace (List.length fine - 1)%nat with b by lia. exact Fhi.
  - intros (j & Hj & [(l & h & Hl & Hh & H1 & H2)|[E H]]).
    + left. exists lo, hi. split; [exact Clo|]. split; [exact Chi|]. split.
      * eapply nle_trans; [|exact H1]. eapply nondec_le; [exact Hf| |exact Flo|exact Hl]. lia.
      * eapply nlt_le_trans; [exact H2|]. eapply nondec_le; [exact Hf| |exact Hh|exact Fhi]. lia.
    + right. assert (Eb : S b = List.length fine) by lia. split; [apply Hlast; exact Eb|]. apply Hlast in Eb as Ek. unfold last_edge in *.
      replace (List.length coarse - 1)%nat with (S k) by lia. rewrite Chi. replace (List.length fine - 1)%nat with b in H by lia. congruence.
Qed.
(** ** weights of the events *)
Lemma weight_joined {A} (w : A -> R) (x : A -> num) (Q : A -> Prop) (q : A -> bool) fine coarse k a b l W (f : nat -> R) : (forall e, q e = true <-> Q e) ->
  nondecreasing fine -> nondecreasing coarse -> joins fine coarse k a b ->
  weight_of w (fun e => in_hist_bin coarse k (x e) /\ Q e) l W -> (forall j, (a <= j < b)%nat -> weight_of w (fun e => in_hist_bin fine j (x e) /\ Q e) l (f j)) ->
  W = sum_between a b f.
Proof.
  intros Hq Hf Hc J HW Hw. pose proof J as (Hab & _ & (hi & _ & Fhi) & _). pose proof (nth_some_lt _ _ _ Fhi) as Lb. assert (L2 : (2 <= List.length fine)%nat) by lia.
  set (m := fun j e => q e && Nat.eqb (hdd_index fine (x e)) (S j)).
  assert (M : forall j e, (j < List.length fine - 1)%nat -> (m j e = true <-> in_hist_bin fine j (x e) /\ Q e)).
  { intros j e Hj. unfold m. rewrite andb_true_iff, Hq, Nat.eqb_eq, (hdd_spec fine _ Hf L2 j Hj). tauto. }
  assert (Ef : forall j, (a <= j < b)%nat -> f j = wsum w (m j) l).
  { intros j Hj. eapply weight_of_unique; [apply Hw, Hj|]. apply weight_of_wsum. intros e _. apply M. lia. }
  rewrite (sum_between_ext a b f _ Ef). unfold sum_between. rewrite sum_of_rsum.
  assert (S0 : rsum (map (fun j => wsum w (m j) l) (seq 0 b)) = rsum (map (fun j => wsum w (m j) l) (seq 0 a)) + rsum (map (fun j => wsum w (m j) l) (seq a (b - a)))).
  { replace b with (a + (b - a))%nat at 1 by lia. rewrite seq_app, map_app, rsum_app. reflexivity. }
  unfold m in S0 at 1 2. rewrite !wsum_axis in S0. fold m in S0.
  assert (EW : W = wsum w (fun e => q e && (Nat.leb (S a) (hdd_index fine (x e)) && Nat.leb (hdd_index fine (x e)) b)) l).
  { eapply weight_of_unique; [exact HW|]. apply weight_of_wsum. intros e _. rewrite !andb_true_iff, Hq, !Nat.leb_le. rewrite (joined_bin _ _ _ _ _ (x e) Hf Hc J). split.
    - intros (HQ & H1 & H2). split; [|exact HQ]. exists (hdd_index fine (x e) - 1)%nat. split; [lia|]. apply (hdd_spec fine _ Hf L2); lia.
    - intros ((j & Hj & B) & HQ). split; [exact HQ|]. apply (hdd_spec fine _ Hf L2) in B; [|lia]. lia. }
  rewrite EW. assert (SP : wsum w (fun e => q e && (Nat.leb 1 (hdd_index fine (x e)) && Nat.leb (hdd_index fine (x e)) b)) l =
    wsum w (fun e => q e && (Nat.leb 1 (hdd_index fine (x e)) && Nat.leb (hdd_index fine (x e)) a)) l + wsum w (fun e => q e && (Nat.leb (S a) (hdd_index fine (x e)) && Nat.leb (hdd_index fine (x e)) b)) l).
  { apply wsum_split. intros e _. destruct (q e); cbn [andb]; auto.
    destruct (Nat.leb_spec 1 (hdd_index fine (x e))), (Nat.leb_spec (hdd_index fine (x e)) b), (Nat.leb_spec (hdd_index fine (x e)) a), (Nat.leb_spec (S a) (hdd_index fine (x e))); cbn [andb]; auto; lia. }
  lra.
Qed.
