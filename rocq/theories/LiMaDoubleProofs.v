(** * LiMaDoubleProofs: the Li & Ma significance in double precision *)
From Coq Require Import Reals List Bool ZArith Lia Lra Psatz.
From Flocq Require Import Core.
From Verif Require Import Num Numpy Binning Statistics Double SpecDouble DoubleProofs.
Import ListNotations.
Open Scope R_scope.

Ltac rq m n := rewrite (round64_q m n); [reflexivity|lia| |];
  [change (2 ^ 52)%Z with 4503599627370496%Z; change (2 ^ 53)%Z with 9007199254740992%Z; let v := eval compute in (2 ^ n)%Z in change (2 ^ n)%Z with v; lra
  |let v := eval compute in (2 ^ n)%Z in change (2 ^ n)%Z with v; apply Rabs_def1; lra].
Lemma r_alpha : round64 (1 / 5) = 7205759403792794 / 36028797018963968.
Proof. rq 7205759403792794%Z 55%Z. Qed.
Lemma r_one_alpha : round64 (1 + 7205759403792794 / 36028797018963968) = 5404319552844595 / 4503599627370496.
Proof. rq 5404319552844595%Z 52%Z. Qed.
Lemma r_quot : round64 (5404319552844595 / 4503599627370496 / (7205759403792794 / 36028797018963968)) = 6755399441055743 / 1125899906842624.
Proof. rq 6755399441055743%Z 50%Z. Qed.
Lemma r_on : round64 (1 / 6) = 6004799503160661 / 36028797018963968.
Proof. rq 6004799503160661%Z 55%Z. Qed.
Lemma r_off : round64 (5 / 6) = 7505999378950827 / 9007199254740992.
Proof. rq 7505999378950827%Z 53%Z. Qed.
Lemma r_A : round64 (6755399441055743 / 1125899906842624 * (6004799503160661 / 36028797018963968)) = 9007199254740990 / 9007199254740992.
Proof. rq 9007199254740990%Z 53%Z. Qed.
Lemma r_B : round64 (5404319552844595 / 4503599627370496 * (7505999378950827 / 9007199254740992)) = 4503599627370496 / 4503599627370496.
Proof. rq 4503599627370496%Z 52%Z. Qed.
Lemma r_deficit : round64 (7205759403792794 / 36028797018963968 * 5) = 4503599627370496 / 4503599627370496.
Proof. rq 4503599627370496%Z 52%Z. Qed.
Lemma eps53_ulp : eps53 = ulp0.
Proof. unfold eps53. rewrite pow_IZR. reflexivity. Qed.
Lemma ulp_pos : 0 < ulp0. Proof. apply bpow_gt_0. Qed.
Lemma ulp_val : ulp0 = / 9007199254740992. Proof. reflexivity. Qed.
(** ** NaN at the default [alpha] *)
Lemma fl_neg x : x <= - ulp0 -> (exists y, fl x = Fin y /\ y <= - ulp0) \/ fl x = NInf.
Proof.
  intros H. unfold fl. cbv zeta.
  assert (L : round64 x <= - ulp0).
  { rewrite <- (round64_id ulp0), <- round64_opp; [apply round64_mono; auto|]. apply generic_format_bpow. unfold FLT_exp. lia. }
  pose proof ulp_pos. destruct (Rltb_spec fmax (Rabs (round64 x))); [|eauto]. destruct (Rltb_spec 0 (round64 x)); [lra|auto].
Qed.
Lemma fl_of r x : round64 x = r -> Rabs r <= fmax -> fl x = Fin r.
Proof. intros E H. unfold fl. cbv zeta. rewrite E. destruct (Rltb_spec fmax (Rabs r)); [lra|auto]. Qed.
Lemma one_le_fmax : 2 ^ 60 <= fmax.
Proof.
  unfold fmax. apply Rle_trans with ((2 ^ 53 - 1) * 2 ^ 8); [|apply Rmult_le_compat_l; [|apply Rle_pow; [lra|lia]]].
  - simpl. lra.
  - simpl. lra.
Qed.
Ltac small := eapply Rle_trans; [|apply one_le_fmax]; apply Rabs_le; simpl; lra.
Lemma log_one log : accurate_log log -> log (Fin 1) = Fin 0.
Proof.
  intros H. destruct (H 1) as (l & -> & E); [lra| |].
  - exists 1%Z, 0%Z. split; [reflexivity|]. split; [lia|]. cbn. ring.
  - rewrite ln_1, Rabs_R0, Rmult_0_r, Rminus_0_r in E. f_equal. pose proof (Rabs_pos l). destruct (Req_dec l 0); auto. pose proof (Rabs_pos_lt l). tauto || (specialize (H2 H1); lra).
Qed.
Lemma neg_chain log l x : x <= - ulp0 -> fmul (Fin 5) (log (Fin 1)) = Fin 0 -> log (Fin l) = Fin x ->
  fsqrt (fmul (fadd (fmul (Fin 1) (log (Fin l))) (fmul (Fin 5) (log (Fin 1)))) (Fin 2)) = NaN.
Proof.
  intros Hx E0 El. rewrite E0, El. unfold fmul at 2. cbn [nmul fl_num]. rewrite Rmult_1_l.
  assert (Q : forall y, y <= - ulp0 -> fsqrt (fmul (fadd (Fin y) (Fin 0)) (Fin 2)) = NaN).
  { clear -E0. intros y Hy. unfold fadd. cbn [nadd fl_num]. rewrite Rplus_0_r. destruct (fl_neg y Hy) as [(z & -> & Hz)| ->].
    - unfold fmul. cbn [nmul fl_num]. pose proof ulp_pos. destruct (fl_neg (z * 2)) as [(v & -> & Hv)| ->]; [lra| |reflexivity].
      cbn [fsqrt]. destruct (Rltb_spec v 0); [auto|lra].
    - unfold fmul. cbn [nmul]. unfold inf_signed. destruct (Reqb_spec 2 0); [lra|]. destruct (Rltb_spec 0 2); [|lra]. reflexivity. }
  destruct (fl_neg x Hx) as [(y & -> & Hy)| ->]; [apply Q, Hy|].
  unfold fadd, fmul. cbn [nadd fl_num nmul]. unfold inf_signed. destruct (Reqb_spec 2 0); [lra|]. destruct (Rltb_spec 0 2); [|lra]. reflexivity.
Qed.
Lemma ln_le_minus x : 0 < x -> ln x <= x - 1.
Proof. intros H. pose proof (exp_ineq1_le (ln x)) as K. rewrite exp_ln in K by auto. lra. Qed.
Theorem li_ma_nan log : accurate_log log -> li_ma_double log (Fin 1) (Fin 5) (fl (1 / 5)) = NaN.
Proof.
  intros H. rewrite (fl_of _ _ r_alpha) by small. unfold li_ma_double. cbv zeta.
  assert (Es : fadd (Fin 1) (Fin 5) = Fin 6) by (unfold fadd; cbn [nadd fl_num]; apply fl_of; [replace (1 + 5) with (IZR 6) by lra; apply round64_int; cbn; lia|small]).
  assert (E1 : fadd (Fin 1) (Fin (7205759403792794 / 36028797018963968)) = Fin (5404319552844595 / 4503599627370496)) by (unfold fadd; cbn [nadd fl_num]; apply fl_of; [apply r_one_alpha|small]).
  assert (D : forall a b, b <> 0 -> fdiv (Fin a) (Fin b) = fl (a / b)) by (intros a b Hb; unfold fdiv; cbn; destruct (Reqb_spec b 0); [contradiction|reflexivity]).
  rewrite Es, E1, !D by lra. rewrite (fl_of _ _ r_quot), (fl_of _ _ r_on), (fl_of _ _ r_off) by small.
  assert (M : forall a b, fmul (Fin a) (Fin b) = fl (a * b)) by reflexivity.
  rewrite (M (6755399441055743 / 1125899906842624)), (M (5404319552844595 / 4503599627370496)), (M (7205759403792794 / 36028797018963968)).
  rewrite (fl_of _ _ r_A), (fl_of _ _ r_B), (fl_of _ _ r_deficit) by small.
  replace (4503599627370496 / 4503599627370496) with 1 by lra.
  assert (N : nlt (Fin 1) (Fin 1) = false) by (cbn; destruct (Rltb_spec 1 1); [lra|auto]). rewrite N.
  assert (N1 : neqb (Fin 1) (Fin 0) = false) by (cbn; destruct (Reqb_spec 1 0); [lra|auto]). assert (N5 : neqb (Fin 5) (Fin 0) = false) by (cbn; destruct (Reqb_spec 5 0); [lra|auto]).
  rewrite N1, N5.
  assert (Z0 : fmul (Fin 5) (log (Fin 1)) = Fin 0).
  { rewrite (log_one log H). rewrite M, Rmult_0_r. apply fl_of; [apply round64_0|]. rewrite Rabs_R0. pose proof fmax_pos. lra. }
  destruct (H (9007199254740990 / 9007199254740992)) as (x & Ex & K); [lra| |].
  { exists 9007199254740990%Z, (-53)%Z. split; [reflexivity|]. split; [lia|]. change (powerRZ 2 (-53)) with (/ 2 ^ 53). simpl. lra. }
  apply neg_chain with (x := x); auto.
  pose proof (ln_le_minus (9007199254740990 / 9007199254740992) ltac:(lra)) as L. set (y := ln _) in *. rewrite ulp_val. unfold eps53 in K.
  replace (2 ^ 53) with 9007199254740992 in K by (simpl; lra). rewrite (Rabs_left y) in K by lra. apply Rabs_le_inv in K. lra.
Qed.
(** ** accuracy *)
From Verif Require Import NearProofs SpecStatistics.
Definition eta := bpow radix2 (-1075).
Lemma round_err x : Rabs x <= fmax -> exists y, fl x = Fin y /\ Rabs (y - x) <= u * Rabs x + eta.
Proof. intros H. exists (round64 x). split; [apply fl_fin; auto|]. apply round64_error. Qed.
Lemma ln_bound a b x : (-1000 <= a)%Z -> (b <= 1000)%Z -> pr a b x -> Rabs (ln x) <= 1000.
Proof.
  intros Ha Hb H. pose proof (pr_pos _ _ _ H) as P. destruct H as [H1 H2].
  assert (L2 : ln 2 <= 1) by (pose proof (ln_le_minus 2 ltac:(lra)); lra). assert (L0 : 0 < ln 2) by (rewrite <- ln_1; apply ln_increasing; lra).
  assert (Q : forall e, ln (bpow radix2 e) = IZR e * ln 2).
  { intros e. rewrite bpow_powerRZ. change (IZR (radix_val radix2)) with 2.
    destruct e as [|p|p]; cbn [powerRZ].
    - rewrite ln_1. ring.
    - rewrite ln_pow by lra. rewrite INR_IZR_INZ, positive_nat_Z. reflexivity.
    - rewrite ln_Rinv, ln_pow by (try apply pow_lt; lra). rewrite INR_IZR_INZ, positive_nat_Z. change (IZR (Z.neg p)) with (- IZR (Z.pos p)). ring. }
  assert (LE : forall a b, 0 < a -> a <= b -> ln a <= ln b) by (intros c d Hc [Hd|<-]; [left; apply ln_increasing; auto|lra]).
  pose proof (LE _ _ (bpow_gt_0 _ _) H1) as K1. pose proof (LE _ _ P H2) as K2. rewrite Q in K1, K2. apply IZR_le in Ha, Hb. apply Rabs_le. split; nra.
Qed.
Lemma eta_le n : pr (-200) 200 n -> eta <= u * u * n.
Proof.
  intros [H _]. unfold eta, u. apply Rle_trans with (bpow radix2 (-53) * bpow radix2 (-53) * bpow radix2 (-200)).
  - rewrite <- !bpow_plus. apply bpow_le. lia.
  - apply Rmult_le_compat_l; auto. rewrite <- bpow_plus. apply bpow_ge_0.
Qed.
Lemma n_fmax n : pr (-200) 200 n -> 100000 * n <= fmax.
Proof.
  intros P. pose proof (pr_pos _ _ _ P) as Q. destruct P as [_ H]. apply Rle_trans with (bpow radix2 17 * bpow radix2 200).
  - apply Rmult_le_compat; auto; try lra. change (bpow radix2 17) with 131072. lra.
  - rewrite <- bpow_plus. apply bpow_fmax. lia.
Qed.
(** one term of the test statistic *)
Lemma term_accuracy log n X X' k a b : accurate_log log -> pr (-200) 200 n -> 0 < X -> near k X X' -> (k <= 5)%nat -> (-1000 <= a)%Z -> (b <= 1000)%Z -> pr a b X' -> double X' ->
  exists t, fmul (Fin n) (log (Fin X')) = Fin t /\ Rabs (t - n * ln X) <= 13 * u * (n * (1 + Rabs (ln X))).
Proof.
  intros Hl Hn HX Hk K5 Ha Hb Hp Hd. pose proof (pr_pos _ _ _ Hp) as PX. pose proof (pr_pos _ _ _ Hn) as Pn.
  destruct (Hl X' PX Hd) as (l & -> & El). rewrite eps53_ulp in El. fold u in El. pose proof (near_ln k X X' HX Hk) as En.
  pose proof (ln_bound a b X' Ha Hb Hp) as B. pose proof u_pos as U0. pose proof u_small as U1.
  assert (Ek : Rabs (ln X' - ln X) <= 10 * u) by (apply le_INR in K5; replace (INR 5) with 5 in K5 by (simpl; lra); nra).
  set (L := ln X) in *. set (L' := ln X') in *. pose proof (Rabs_pos L) as PL. pose proof (Rabs_pos L') as PL'.
  assert (A1 : Rabs L' <= Rabs L + 10 * u) by (replace L' with (L + (L' - L)) by ring; eapply Rle_trans; [apply Rabs_triang|lra]).
  assert (A2 : Rabs (l - L) <= 11 * u + 2 * u * Rabs L).
  { replace (l - L) with ((l - L') + (L' - L)) by ring. eapply Rle_trans; [apply Rabs_triang|]. nra. }
  assert (A3 : Rabs l <= Rabs L + 11 * u + 2 * u * Rabs L) by (replace l with (L + (l - L)) by ring; eapply Rle_trans; [apply Rabs_triang|lra]).
  assert (A4 : Rabs l <= 2000) by (replace l with (L' + (l - L')) by ring; eapply Rle_trans; [apply Rabs_triang|]; nra).
  unfold fmul. cbn [nmul fl_num]. destruct (round_err (n * l)) as (t & -> & Et).
  { rewrite Rabs_mult, (Rabs_pos_eq n) by lra. pose proof (n_fmax n Hn). nra. }
  exists t. split; auto. rewrite Rabs_mult, (Rabs_pos_eq n) in Et by lra. pose proof (eta_le n Hn) as Ee.
  replace (t - n * L) with ((t - n * l) + n * (l - L)) by ring. eapply Rle_trans; [apply Rabs_triang|]. rewrite (Rabs_mult n), (Rabs_pos_eq n) by lra.
  assert (Q1 : n * Rabs l <= n * (Rabs L + 11 * u + 2 * u * Rabs L)) by (apply Rmult_le_compat_l; lra).
  assert (Q2 : n * Rabs (l - L) <= n * (11 * u + 2 * u * Rabs L)) by (apply Rmult_le_compat_l; lra).
  assert (Q3 : u * (n * Rabs l) <= u * (n * (Rabs L + 11 * u + 2 * u * Rabs L))) by (apply Rmult_le_compat_l; lra).
  apply Rle_trans with (u * (n * (Rabs L + 11 * u + 2 * u * Rabs L)) + u * u * n + n * (11 * u + 2 * u * Rabs L)); [lra|].
  replace (u * (n * (Rabs L + 11 * u + 2 * u * Rabs L)) + u * u * n + n * (11 * u + 2 * u * Rabs L)) with (u * (n * (11 + 12 * u + (3 + 2 * u) * Rabs L))) by ring.
  replace (13 * u * (n * (1 + Rabs L))) with (u * (n * (13 + 13 * Rabs L))) by ring. apply Rmult_le_compat_l; [lra|]. apply Rmult_le_compat_l; [lra|]. nra.
Qed.
Section Accuracy.
Variables (log : num -> num) (n_on n_off alpha : R).
Hypotheses (Hl : accurate_log log) (Hon : pr (-200) 200 n_on) (Hoff : n_off = 0 \/ pr (-200) 200 n_off) (Hal : pr (-200) 200 alpha).
Let s := n_on + n_off.
Let A := (1 + alpha) / alpha * (n_on / (n_on + n_off)).
Let B := (1 + alpha) * (n_off / (n_on + n_off)).
Let Ps : pr (-200) 201 s.
Proof.
  unfold s. pose proof Hon as [H1 H2]. change 201%Z with (200 + 1)%Z. unfold pr. rewrite (bpow_plus radix2 200). replace (bpow radix2 1) with 2 by reflexivity.
  destruct Hoff as [->|[K1 K2]]; pose proof (bpow_gt_0 radix2 (-200)); pose proof (bpow_gt_0 radix2 200); lra.
Qed.
Let P1 : pr 0 201 (1 + alpha).
Proof.
  pose proof Hal as [H1 H2]. change 201%Z with (200 + 1)%Z. unfold pr. rewrite (bpow_plus radix2 200). replace (bpow radix2 1) with 2 by reflexivity.
  change (bpow radix2 0) with 1. pose proof (bpow_gt_0 radix2 (-200)). assert (1 <= bpow radix2 200) by (change 1 with (bpow radix2 0); apply bpow_le; lia). lra.
Qed.
Lemma fadd_fin x y : fadd (Fin x) (Fin y) = fl (x + y). Proof. reflexivity. Qed.
Lemma fmul_fin x y : fmul (Fin x) (Fin y) = fl (x * y). Proof. reflexivity. Qed.
Lemma fdiv_fin x y : y <> 0 -> fdiv (Fin x) (Fin y) = fl (x / y).
Proof. intros H. unfold fdiv. cbn. destruct (Reqb_spec y 0); [contradiction|reflexivity]. Qed.
Lemma on_arg : exists A', fmul (fdiv (fadd (Fin 1) (Fin alpha)) (Fin alpha)) (fdiv (Fin n_on) (fadd (Fin n_on) (Fin n_off))) = Fin A' /\
  near 5 A A' /\ pr (-601) 801 A' /\ double A'.
Proof.
  rewrite !fadd_fin. destruct (fl_step' P1 eq_refl) as (x & -> & Nx & Rx & _). fold s. destruct (fl_step' Ps eq_refl) as (y & -> & Ny & Ry & _).
  pose proof (pr_pos _ _ _ Ry) as Py. pose proof (pr_pos _ _ _ Hal) as Pa. pose proof (pr_pos _ _ _ Ps) as Pss. rewrite !fdiv_fin by lra.
  destruct (fl_step' (pr_div _ _ _ _ _ _ Rx Hal) eq_refl) as (q & -> & Nq & Rq & _).
  destruct (fl_step' (pr_div _ _ _ _ _ _ Hon Ry) eq_refl) as (p & -> & Np & Rp & _).
  rewrite fmul_fin. destruct (fl_step (-601) 801 (q * p)) as (z & -> & Nz & Rz & Dz); try lia.
  { eapply pr_weaken; [| |apply (pr_mult _ _ _ _ _ _ Rq Rp)]; lia. }
  exists z. split; auto. split; auto. unfold A. fold s.
  assert (N1 : near 2 ((1 + alpha) / alpha) q) by (apply (near_trans 1 1 _ (x / alpha)); auto; apply (near_div 1 0); auto using near_refl; lra).
  assert (N2 : near 2 (n_on / s) p) by (apply (near_trans 1 1 _ (n_on / y)); auto; apply (near_div 0 1); auto using near_refl; lra).
  apply (near_trans 4 1 _ (q * p)); auto. apply (near_mult 2 2); auto.
Qed.
Lemma off_arg : n_off <> 0 -> exists B', fmul (fadd (Fin 1) (Fin alpha)) (fdiv (Fin n_off) (fadd (Fin n_on) (Fin n_off))) = Fin B' /\
  near 4 B B' /\ pr (-601) 801 B' /\ double B'.
Proof.
  intros H0. destruct Hoff as [|Ho]; [contradiction|].
  rewrite !fadd_fin. destruct (fl_step' P1 eq_refl) as (x & -> & Nx & Rx & _). fold s. destruct (fl_step' Ps eq_refl) as (y & -> & Ny & Ry & _).
  pose proof (pr_pos _ _ _ Ry) as Py. pose proof (pr_pos _ _ _ Ps) as Pss. rewrite !fdiv_fin by lra.
  destruct (fl_step' (pr_div _ _ _ _ _ _ Ho Ry) eq_refl) as (p & -> & Np & Rp & _).
  rewrite fmul_fin. destruct (fl_step (-601) 801 (x * p)) as (z & -> & Nz & Rz & Dz); try lia.
  { eapply pr_weaken; [| |apply (pr_mult _ _ _ _ _ _ Rx Rp)]; lia. }
  exists z. split; auto. split; auto. unfold B. fold s.
  assert (N2 : near 2 (n_off / s) p) by (apply (near_trans 1 1 _ (n_off / y)); auto; apply (near_div 0 1); auto using near_refl; lra).
  apply (near_trans 3 1 _ (x * p)); auto. apply (near_mult 1 2); auto.
Qed.
Let W := n_on * (1 + Rabs (ln A)) + n_off * (1 + Rabs (ln B)).
Let T := n_on * ln A + n_off * ln B.
Lemma A_pos : 0 < A.
Proof. unfold A. pose proof (pr_pos _ _ _ Hal). pose proof (pr_pos _ _ _ Hon). pose proof (pr_pos _ _ _ Ps). unfold s in *. apply Rmult_lt_0_compat; apply Rdiv_lt_0_compat; lra. Qed.
Lemma W_ge : n_on <= W.
Proof.
  unfold W. pose proof (pr_pos _ _ _ Hon). pose proof (Rabs_pos (ln A)). pose proof (Rabs_pos (ln B)).
  assert (0 <= n_off) by (destruct Hoff as [->|K]; [lra|pose proof (pr_pos _ _ _ K); lra]).
  assert (0 <= n_on * Rabs (ln A)) by (apply Rmult_le_pos; lra). assert (0 <= n_off * (1 + Rabs (ln B))) by (apply Rmult_le_pos; lra). lra.
Qed.
Lemma T_le : Rabs T <= W.
Proof.
  unfold T, W. pose proof (pr_pos _ _ _ Hon). assert (0 <= n_off) by (destruct Hoff as [->|K]; [lra|pose proof (pr_pos _ _ _ K); lra]).
  eapply Rle_trans; [apply Rabs_triang|]. rewrite !Rabs_mult, (Rabs_pos_eq n_on), (Rabs_pos_eq n_off) by lra. lra.
Qed.
Definition stat := let t1 := fmul (Fin n_on) (log (fmul (fdiv (fadd (Fin 1) (Fin alpha)) (Fin alpha)) (fdiv (Fin n_on) (fadd (Fin n_on) (Fin n_off))))) in
  let t2 := fmul (Fin n_off) (log (fmul (fadd (Fin 1) (Fin alpha)) (fdiv (Fin n_off) (fadd (Fin n_on) (Fin n_off))))) in
  let t1 := if neqb (Fin n_on) (Fin 0) then Fin 0 else t1 in
  let t2 := if neqb (Fin n_off) (Fin 0) then Fin 0 else t2 in
  fmul (fadd t1 t2) (Fin 2).
Lemma W_fmax : 100 * W <= fmax.
Proof.
  destruct on_arg as (A' & _ & NA & RA & _). pose proof u_pos. pose proof u_small.
  assert (LA : Rabs (ln A) <= 1001).
  { pose proof (near_ln 5 A A' A_pos NA) as E. pose proof (ln_bound (-601) 801 A' ltac:(lia) ltac:(lia) RA) as E'. replace (ln A) with (ln A' - (ln A' - ln A)) by ring.
    eapply Rle_trans; [apply Rabs_triang|]. rewrite Rabs_Ropp. simpl (INR 5) in E. nra. }
  assert (LB : n_off * Rabs (ln B) <= n_off * 1001).
  { destruct (Req_dec n_off 0) as [->|N0]; [lra|]. destruct Hoff as [?|Ho]; [contradiction|]. pose proof (pr_pos _ _ _ Ho). destruct (off_arg N0) as (B' & _ & NB & RB & _).
    assert (PB : 0 < B) by (unfold B; apply Rmult_lt_0_compat; [pose proof (pr_pos _ _ _ P1); auto|apply Rdiv_lt_0_compat; auto; pose proof (pr_pos _ _ _ Ps); auto]).
    apply Rmult_le_compat_l; [lra|]. pose proof (near_ln 4 B B' PB NB) as E. pose proof (ln_bound (-601) 801 B' ltac:(lia) ltac:(lia) RB) as E'. replace (ln B) with (ln B' - (ln B' - ln B)) by ring.
    eapply Rle_trans; [apply Rabs_triang|]. rewrite Rabs_Ropp. simpl (INR 4) in E. nra. }
  pose proof (pr_pos _ _ _ Hon). pose proof (bpow_fmax 220 ltac:(lia)) as F. change 220%Z with (20 + 200)%Z in F. rewrite bpow_plus in F. change (bpow radix2 20) with 1048576 in F.
  destruct Hon as [_ K1]. assert (K2 : 0 <= n_off <= bpow radix2 200) by (destruct Hoff as [->|[Q1 Q2]]; [pose proof (bpow_gt_0 radix2 200); lra|pose proof (bpow_gt_0 radix2 (-200)); lra]).
  unfold W. nra.
Qed.
Lemma stat_accuracy : exists v, stat = Fin v /\ Rabs (v - 2 * T) <= 36 * u * W.
Proof.
  pose proof u_pos as U0. pose proof u_small as U1. pose proof (pr_pos _ _ _ Hon) as Pn. pose proof W_ge as W1. pose proof T_le as T1. pose proof W_fmax as WF.
  destruct on_arg as (A' & EA & NA & RA & DA). destruct (term_accuracy log n_on A A' 5 (-601) 801 Hl Hon A_pos NA ltac:(lia) ltac:(lia) ltac:(lia) RA DA) as (t1 & Et1 & H1).
  assert (H2 : exists t2, (if neqb (Fin n_off) (Fin 0) then Fin 0 else fmul (Fin n_off) (log (fmul (fadd (Fin 1) (Fin alpha)) (fdiv (Fin n_off) (fadd (Fin n_on) (Fin n_off)))))) = Fin t2 /\
    Rabs (t2 - n_off * ln B) <= 13 * u * (n_off * (1 + Rabs (ln B)))).
  { cbn [neqb]. destruct (Reqb_spec n_off 0) as [E|N0].
    - exists 0. split; auto. rewrite E, !Rmult_0_l, Rminus_0_r, Rabs_R0, Rmult_0_r. lra.
    - destruct Hoff as [?|Ho]; [contradiction|]. pose proof (pr_pos _ _ _ Ho). destruct (off_arg N0) as (B' & EB & NB & RB & DB). rewrite EB.
      assert (PB : 0 < B) by (unfold B; apply Rmult_lt_0_compat; [pose proof (pr_pos _ _ _ P1); auto|apply Rdiv_lt_0_compat; auto; pose proof (pr_pos _ _ _ Ps); auto]).
      apply (term_accuracy log n_off B B' 4 (-601) 801); auto; lia. }
  destruct H2 as (t2 & Et2 & H2). unfold stat. cbv zeta. rewrite Et2, EA, Et1. cbn [neqb]. destruct (Reqb_spec n_on 0); [lra|].
  assert (D : Rabs (t1 + t2 - T) <= 13 * u * W).
  { unfold T, W. replace (t1 + t2 - (n_on * ln A + n_off * ln B)) with ((t1 - n_on * ln A) + (t2 - n_off * ln B)) by ring. eapply Rle_trans; [apply Rabs_triang|]. lra. }
  assert (E : eta <= u * W) by (pose proof (eta_le n_on Hon); apply Rle_trans with (u * u * n_on); [auto|]; rewrite Rmult_assoc; apply Rmult_le_compat_l; [lra|]; apply Rle_trans with (1 * n_on); [apply Rmult_le_compat_r; lra|lra]).
  assert (D1 : Rabs (t1 + t2) <= W * (1 + 13 * u)) by (replace (t1 + t2) with (T + (t1 + t2 - T)) by ring; eapply Rle_trans; [apply Rabs_triang|]; lra).
  rewrite fadd_fin. destruct (round_err (t1 + t2)) as (ts & -> & Hts); [nra|].
  assert (D2 : Rabs (ts - T) <= 16 * u * W).
  { replace (ts - T) with ((ts - (t1 + t2)) + (t1 + t2 - T)) by ring. eapply Rle_trans; [apply Rabs_triang|].
    assert (u * Rabs (t1 + t2) <= u * (W * (1 + 13 * u))) by (apply Rmult_le_compat_l; lra).
    apply Rle_trans with (u * (W * (1 + 13 * u)) + u * W + 13 * u * W); [lra|]. replace (16 * u * W) with (u * (16 * W)) by ring.
    replace (u * (W * (1 + 13 * u)) + u * W + 13 * u * W) with (u * (15 * W + 13 * u * W)) by ring. apply Rmult_le_compat_l; [lra|]. nra. }
  assert (D3 : Rabs ts <= W * (1 + 16 * u)) by (replace ts with (T + (ts - T)) by ring; eapply Rle_trans; [apply Rabs_triang|]; lra).
  (* doubling is exact for numbers of this size; the rounding error is counted all the same *)
  rewrite fmul_fin. assert (E2 : Rabs (ts * 2) = 2 * Rabs ts) by (rewrite Rabs_mult, (Rabs_pos_eq 2) by lra; ring).
  destruct (round_err (ts * 2)) as (v & Ev & Hv); [nra|]. exists v. split; auto.
  replace (v - 2 * T) with ((v - ts * 2) + 2 * (ts - T)) by ring. eapply Rle_trans; [apply Rabs_triang|]. rewrite (Rabs_mult 2), (Rabs_pos_eq 2) by lra.
  rewrite E2 in Hv. assert (u * (2 * Rabs ts) <= u * (2 * (W * (1 + 16 * u)))) by (apply Rmult_le_compat_l; lra). 
  apply Rle_trans with (u * (2 * (W * (1 + 16 * u))) + u * W + 32 * u * W); [lra|].
  replace (36 * u * W) with (u * (36 * W)) by ring. replace (u * (2 * (W * (1 + 16 * u))) + u * W + 32 * u * W) with (u * (35 * W + 32 * u * W)) by ring.
  apply Rmult_le_compat_l; [lra|]. nra.
Qed.
Lemma double_pos x : double x -> 0 < x -> bpow radix2 (-1074) <= x.
Proof.
  intros (m & e & Hm & He & ->) H. assert (P : 0 < powerRZ 2 e) by (apply powerRZ_lt; lra). assert (M : 0 < IZR m) by nra. apply lt_IZR in M.
  assert (1 <= IZR m) by (apply IZR_le; lia). change 2 with (IZR (radix_val radix2)) in *. rewrite <- bpow_powerRZ in *. pose proof (bpow_le radix2 (-1074) e ltac:(lia)). nra.
Qed.
Lemma li_ma_accuracy : nlt (Fin n_on) (fmul (Fin alpha) (Fin n_off)) = false ->
  (exists r, li_ma_double log (Fin n_on) (Fin n_off) (Fin alpha) = Fin r /\ 0 <= r /\ Rabs (r * r - 2 * T) <= 64 * u * W) \/
  (li_ma_double log (Fin n_on) (Fin n_off) (Fin alpha) = NaN /\ 2 * T <= 64 * u * W).
Proof.
  intros D. unfold li_ma_double. cbv zeta. rewrite D. fold stat. destruct stat_accuracy as (v & Ev & Hv). 
  match goal with |- context [fsqrt ?x] => change x with stat end. rewrite Ev. cbn [fsqrt].
  pose proof u_pos as U0. pose proof u_small as U1. pose proof W_ge as W1. pose proof (pr_pos _ _ _ Hon) as Pn. pose proof T_le as T1.
  assert (UW : 0 <= u * W) by (apply Rmult_le_pos; lra).
  destruct (Rltb_spec v 0) as [Neg|Pos].
  - right. split; auto. apply Rabs_le_inv in Hv. lra.
  - left. assert (V : v <= 3 * W) by (apply Rabs_le_inv in Hv; apply Rabs_le_inv in T1; nra).
    assert (DV : double v).
    { revert Ev. unfold stat. cbv zeta. unfold fmul at 1. set (z := nmul _ _). destruct z as [z| | |]; try discriminate. cbn [fl_num].
      unfold fl. cbv zeta. destruct (Rltb_spec fmax (Rabs (round64 z))) as [|Q]; [destruct (Rltb 0 _); discriminate|]. intros E. injection E as <-.
      apply double_format; [apply generic_format_round; auto with typeclass_instances|lra]. }
    destruct (Req_dec v 0) as [V0|V0].
    + exists 0. split; [|split; [lra|]].
      * rewrite V0, sqrt_0. apply fl_of; [apply round64_0|]. rewrite Rabs_R0. pose proof fmax_pos. lra.
      * rewrite V0 in Hv. replace (0 * 0 - 2 * T) with (0 - 2 * T) by ring. lra.
    + assert (Vp : 0 < v) by lra. pose proof (double_pos v DV Vp) as Vl.
      assert (SL : bpow radix2 (-537) <= sqrt v).
      { rewrite <- (sqrt_square (bpow radix2 (-537))) by apply bpow_ge_0. apply sqrt_le_1; [apply Rle_0_sqr|lra|]. rewrite <- bpow_plus. exact Vl. }
      pose proof (sqrt_lt_R0 v Vp) as SP. pose proof (sqrt_sqrt v ltac:(lra)) as SS.
      assert (RR : bpow radix2 (-1022) <= Rabs (sqrt v)) by (rewrite Rabs_pos_eq by lra; eapply Rle_trans; [apply (bpow_le radix2 (-1022) (-537)); lia|auto]).
      pose proof (near_round _ RR) as (t & [K1 K2] & Et). rewrite pow_1 in K1, K2.
      assert (K3 : t <= 1 + 2 * u) by (eapply Rle_trans; [exact K2|]; apply (Rmult_le_reg_r (1 - u)); [lra|]; rewrite Rinv_l by lra; nra).
      exists (sqrt v * t). split; [|split; [apply Rmult_le_pos; lra|]].
      * apply fl_of; auto. rewrite Rabs_mult, !Rabs_pos_eq by lra. pose proof W_fmax as WF. assert (sqrt v <= 1 + v).
        { apply Rsqr_incr_0_var; [|lra]. unfold Rsqr. nra. } pose proof (bpow_fmax 10 ltac:(lia)) as F10. change (bpow radix2 10) with 1024 in F10.
        assert (sqrt v * t <= (1 + v) * 2) by (apply Rmult_le_compat; lra). nra.
      * replace (sqrt v * t * (sqrt v * t) - 2 * T) with ((v - 2 * T) + v * (t * t - 1)) by (rewrite <- SS at 1 2; ring).
        eapply Rle_trans; [apply Rabs_triang|]. rewrite Rabs_mult, (Rabs_pos_eq v) by lra. assert (Q : Rabs (t * t - 1) <= 5 * u) by (apply Rabs_le; nra).
        assert (v * Rabs (t * t - 1) <= (3 * W) * (5 * u)) by (apply Rmult_le_compat; try lra; apply Rabs_pos). lra.
Qed.
End Accuracy.
