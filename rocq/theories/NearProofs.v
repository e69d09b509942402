(** * NearProofs: relative errors and ranges of rounded operations *)
From Coq Require Import Reals List Bool ZArith Lia Lra Psatz.
From Flocq Require Import Core.
From Verif Require Import Num Numpy Binning Double SpecDouble DoubleProofs.
Import ListNotations.
Open Scope R_scope.

Definition u : R := bpow radix2 (-53).
Lemma u_pos : 0 < u. Proof. apply bpow_gt_0. Qed.
Lemma u_small : u <= / 1000000. Proof. change u with (/ 9007199254740992). lra. Qed.
(** [y] is [x] after [k] roundings *)
Definition near (k : nat) (x y : R) : Prop := exists t, (1 - u) ^ k <= t <= / (1 - u) ^ k /\ y = x * t.
Lemma pow_u k : 0 < (1 - u) ^ k <= 1.
Proof. pose proof u_pos. pose proof u_small. split; [apply pow_lt; lra|]. apply Rle_trans with (1 ^ k); [apply pow_incr; lra|rewrite pow1; lra]. Qed.
Lemma inv_u k : 1 <= / (1 - u) ^ k.
Proof. pose proof (pow_u k) as [H1 H2]. rewrite <- Rinv_1 at 1. apply Rinv_le_contravar; auto. Qed.
Lemma near_refl x : near 0 x x.
Proof. exists 1. cbn. split; [lra|ring]. Qed.
Lemma near_mult k l x y z w : near k x y -> near l z w -> near (k + l) (x * z) (y * w).
Proof.
  intros (t & [T1 T2] & ->) (s & [S1 S2] & ->). exists (t * s). split; [|ring]. rewrite pow_add, Rinv_mult. pose proof (pow_u k). pose proof (pow_u l). split.
  - apply Rmult_le_compat; lra.
  - apply Rmult_le_compat; lra.
Qed.
Lemma near_inv k z w : z <> 0 -> near k z w -> near k (/ z) (/ w).
Proof.
  intros Hz (t & [T1 T2] & ->). pose proof (pow_u k) as [P1 P2]. exists (/ t). split; [|rewrite Rinv_mult; reflexivity]. split.
  - rewrite <- (Rinv_inv ((1 - u) ^ k)). apply Rinv_le_contravar; lra.
  - apply Rinv_le_contravar; lra.
Qed.
Lemma near_div k l x y z w : z <> 0 -> near k x y -> near l z w -> near (k + l) (x / z) (y / w).
Proof. intros Hz H1 H2. apply near_mult; auto. apply near_inv; auto. Qed.
Lemma near_trans k l x y z : near k x y -> near l y z -> near (k + l) x z.
Proof. intros H (s & S & ->). replace x with (x * 1) by ring. apply near_mult; auto. exists s. split; auto. ring. Qed.
Lemma near_weaken k l x y : (k <= l)%nat -> near k x y -> near l x y.
Proof.
  intros H (t & T & ->). exists t. split; auto. replace l with (k + (l - k))%nat by lia. rewrite pow_add, Rinv_mult.
  pose proof (pow_u k). pose proof (pow_u (l - k)). pose proof (inv_u (l - k)). pose proof (inv_u k). split; nra.
Qed.
Lemma near_sum k x y z w : 0 <= x -> 0 <= z -> near k x y -> near k z w -> near k (x + z) (y + w).
Proof.
  intros Hx Hz (t & [T1 T2] & ->) (s & [S1 S2] & ->). destruct (Req_dec (x + z) 0) as [E|E].
  - replace x with 0 by lra. replace z with 0 by lra. exists 1. pose proof (pow_u k). pose proof (inv_u k). split; [lra|ring].
  - exists ((x * t + z * s) / (x + z)). split; [|field; auto]. assert (0 < x + z) by lra. split.
    + apply (Rmult_le_reg_r (x + z)); auto. unfold Rdiv. rewrite Rmult_assoc, Rinv_l by auto. nra.
    + apply (Rmult_le_reg_r (x + z)); auto. unfold Rdiv. rewrite Rmult_assoc, Rinv_l by auto. nra.
Qed.
Lemma near_pos k x y : 0 < x -> near k x y -> 0 < y.
Proof. intros H (t & T & ->). pose proof (pow_u k). apply Rmult_lt_0_compat; lra. Qed.
Lemma near_nonneg k x y : 0 <= x -> near k x y -> 0 <= y.
Proof. intros H (t & T & ->). pose proof (pow_u k). apply Rmult_le_pos; lra. Qed.
Lemma near_round x : bpow radix2 (-1022) <= Rabs x -> near 1 x (round64 x).
Proof.
  intros H. pose proof (round64_rel x H) as E. fold u in E. assert (Nx : x <> 0) by (intros ->; rewrite Rabs_R0 in H; pose proof (bpow_gt_0 radix2 (-1022)); lra).
  exists (round64 x / x). split; [|field; auto]. assert (Q : Rabs (round64 x / x - 1) <= u).
  { replace (round64 x / x - 1) with ((round64 x - x) / x) by (field; auto). unfold Rdiv. rewrite Rabs_mult, Rabs_inv.
    apply (Rmult_le_reg_r (Rabs x)); [apply Rabs_pos_lt; auto|]. rewrite Rmult_assoc, Rinv_l, Rmult_1_r by (apply Rabs_no_R0; auto). lra. }
  apply Rabs_le_inv in Q. pose proof u_pos. pose proof u_small. rewrite pow_1. split; [lra|]. apply Rle_trans with (1 + u); [lra|].
  apply (Rmult_le_reg_r (1 - u)); [lra|]. rewrite Rinv_l by lra. nra.
Qed.
(** positive numbers between powers of two *)
Definition pr (a b : Z) (x : R) : Prop := bpow radix2 a <= x <= bpow radix2 b.
Lemma pr_pos a b x : pr a b x -> 0 < x.
Proof. intros [H _]. pose proof (bpow_gt_0 radix2 a). lra. Qed.
Lemma pr_mult a b c d x y : pr a b x -> pr c d y -> pr (a + c) (b + d) (x * y).
Proof.
  intros [H1 H2] [K1 K2]. pose proof (bpow_gt_0 radix2 a). pose proof (bpow_gt_0 radix2 c). unfold pr. rewrite !bpow_plus. split; apply Rmult_le_compat; lra.
Qed.
Lemma pr_inv c d y : pr c d y -> pr (- d) (- c) (/ y).
Proof.
  intros [K1 K2]. pose proof (bpow_gt_0 radix2 c). unfold pr. rewrite !bpow_opp. split; apply Rinv_le_contravar; lra.
Qed.
Lemma pr_div a b c d x y : pr a b x -> pr c d y -> pr (a - d) (b - c) (x / y).
Proof. intros H K. apply (pr_mult a b (- d) (- c)); auto. apply pr_inv; auto. Qed.
Lemma pr_weaken a b a' b' x : (a' <= a)%Z -> (b <= b')%Z -> pr a b x -> pr a' b' x.
Proof. intros H H' [P Q]. split; [eapply Rle_trans; [apply bpow_le; exact H|auto]|eapply Rle_trans; [exact Q|apply bpow_le; auto]]. Qed.
Lemma pr_round a b x : (-1022 <= a)%Z -> (b <= 1023)%Z -> pr a b x -> pr a b (round64 x).
Proof.
  intros Ha Hb [H1 H2]. assert (F : forall e, (-1022 <= e <= 1023)%Z -> round64 (bpow radix2 e) = bpow radix2 e).
  { intros e He. apply round64_id, generic_format_bpow. unfold FLT_exp. lia. }
  assert (bpow radix2 a <= bpow radix2 b) as L by lra. apply le_bpow in L. split.
  - rewrite <- (F a) by lia. apply round64_mono; auto.
  - rewrite <- (F b) by lia. apply round64_mono; auto.
Qed.
Lemma bpow_fmax b : (b <= 1023)%Z -> bpow radix2 b <= fmax.
Proof.
  intros H. apply Rle_trans with (bpow radix2 1023); [apply bpow_le; auto|]. unfold fmax. replace 1023%Z with (52 + 971)%Z by lia. rewrite bpow_plus.
  rewrite <- (IZR_Zpower radix2 971), <- (IZR_Zpower radix2 52) by lia. rewrite (pow_IZR 2 971). apply Rmult_le_compat_r; [apply IZR_le; reflexivity || discriminate|].
  rewrite pow_IZR, <- minus_IZR. apply IZR_le. cbn. lia.
Qed.
Lemma double_format r : generic_format radix2 fexp r -> Rabs r <= fmax -> double r.
Proof.
  intros G B. destruct (Req_dec r 0) as [E0|E0].
  { exists 0%Z, 0%Z. split; [reflexivity|]. split; [lia|]. rewrite E0. ring. }
  exists (Ztrunc (scaled_mantissa radix2 fexp r)), (cexp radix2 fexp r).
  assert (M : (mag radix2 r <= 1024)%Z).
  { apply mag_le_bpow; auto. eapply Rle_lt_trans; [exact B|]. unfold fmax. replace 1024%Z with (53 + 971)%Z by lia. rewrite bpow_plus.
    rewrite <- (IZR_Zpower radix2 971), <- (IZR_Zpower radix2 53) by lia. rewrite (pow_IZR 2 971). apply Rmult_lt_compat_r; [apply IZR_lt; reflexivity|].
    rewrite pow_IZR, <- minus_IZR. apply IZR_lt. reflexivity. }
  pose proof (scaled_mantissa_lt_bpow radix2 fexp r) as L. rewrite (scaled_mantissa_generic radix2 fexp r G) in L. rewrite <- abs_IZR in L.
  split; [|split].
  - apply lt_IZR. eapply Rlt_le_trans; [exact L|]. change 2%Z with (radix_val radix2). rewrite (IZR_Zpower radix2) by lia. apply bpow_le. unfold cexp, FLT_exp. lia.
  - unfold cexp, FLT_exp. lia.
  - transitivity (F2R (Float radix2 (Ztrunc (scaled_mantissa radix2 fexp r)) (cexp radix2 fexp r))); [exact G|]. unfold F2R. cbn [Fnum Fexp]. f_equal.
    rewrite bpow_powerRZ. reflexivity.
Qed.
Lemma double_round x : Rabs x <= fmax -> double (round64 x).
Proof.
  intros H. apply double_format; [apply generic_format_round; auto with typeclass_instances|].
  pose proof (fl_fin x H) as E. unfold fl in E. cbv zeta in E. destruct (Rltb_spec fmax (Rabs (round64 x))); [|lra]. destruct (Rltb 0 _); discriminate.
Qed.
Lemma pr_abs a b x : pr a b x -> Rabs x = x.
Proof. intros H. apply Rabs_pos_eq. pose proof (pr_pos _ _ _ H). lra. Qed.
(** one rounded operation with a positive result *)
Lemma fl_step a b x : (-1022 <= a)%Z -> (b <= 1023)%Z -> pr a b x -> exists y, fl x = Fin y /\ near 1 x y /\ pr a b y /\ double y.
Proof.
  intros Ha Hb H. exists (round64 x). assert (A := pr_abs _ _ _ H).
  assert (B : Rabs x <= fmax) by (rewrite A; destruct H as [_ H]; eapply Rle_trans; [exact H|]; apply bpow_fmax; auto).
  split; [apply fl_fin; auto|]. split; [|split; [apply pr_round; auto|apply double_round; auto]].
  apply near_round. rewrite A. destruct H as [H _]. eapply Rle_trans; [apply bpow_le; exact Ha|auto].
Qed.
Lemma near_ln k x y : 0 < x -> near k x y -> Rabs (ln y - ln x) <= 2 * INR k * u.
Proof.
  intros Hx (t & [T1 T2] & ->). pose proof (pow_u k) as [P1 P2]. rewrite ln_mult by lra. replace (ln x + ln t - ln x) with (ln t) by ring.
  assert (L : - ln ((1 - u) ^ k) <= 2 * INR k * u).
  { pose proof u_pos. pose proof u_small. rewrite ln_pow by lra. assert (Q : - ln (1 - u) <= 2 * u).
    { rewrite <- ln_Rinv by lra. pose proof (exp_ineq1_le (ln (/ (1 - u)))) as K. rewrite exp_ln in K by (apply Rinv_0_lt_compat; lra).
      apply Rle_trans with (/ (1 - u) - 1); [lra|]. apply (Rmult_le_reg_r (1 - u)); [lra|]. rewrite Rmult_minus_distr_r, Rinv_l by lra. nra. }
    pose proof (pos_INR k). nra. }
  apply Rabs_le. split.
  - apply Rle_trans with (ln ((1 - u) ^ k)); [lra|]. destruct T1 as [T1|T1]; [left; apply ln_increasing; auto|rewrite T1; lra].
  - apply Rle_trans with (ln (/ (1 - u) ^ k)); [|rewrite ln_Rinv; auto]. destruct T2 as [T2|T2]; [left; apply ln_increasing; lra|rewrite T2; lra].
Qed.
Lemma fl_step' {a b x} (H : pr a b x) (C : (Z.leb (-1022) a && Z.leb b 1023)%bool = true) : exists y, fl x = Fin y /\ near 1 x y /\ pr a b y /\ double y.
Proof. apply andb_true_iff in C as [C1 C2]. apply fl_step; auto; lia. Qed.
