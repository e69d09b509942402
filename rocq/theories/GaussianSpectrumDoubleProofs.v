(** * GaussianSpectrumDoubleProofs: power laws with a Gaussian bump in double precision *)
From Coq Require Import Reals List Bool ZArith Lia Lra Psatz.
From Flocq Require Import Core.
From Verif Require BinsDoubleProofs LiMaDouble2Proofs.
From Verif Require Import Num Numpy Spectral Double SpecDouble SpecBinsDouble DoubleProofs NearProofs WeightsDoubleProofs ShowersDoubleProofs SpecEventWeights EventWeightsDouble EventWeightsDoubleProofs
  SpecShowers SpecLogParabola LogParabolaDoubleProofs GaussianSpectrumDouble SpecGaussianSpectrum.
Open Scope R_scope.
Notation u := eps53.
Notation et := (bpow radix2 (-1075)).

Lemma et_u : et <= / 100 * u.
Proof.
  destruct et_bounds as [_ T1]. pose proof u_low. apply Rle_trans with (/ 10 ^ 2 * / 10 ^ 16).
  - rewrite <- Rinv_mult, <- pow_add. eapply Rle_trans; [exact T1|]. apply ten_inv; lia.
  - replace (/ 10 ^ 2) with (/ 100) by (f_equal; ring). apply Rmult_le_compat_l; lra.
Qed.
Lemma big_300 : 10 ^ 6 <= 10 ^ 300. Proof. apply Rle_pow; [lra|lia]. Qed.
(** a rounded operation on numbers below 10^6 *)
Lemma rnd_mid x : Rabs x <= 10 ^ 6 -> fl x = Fin (round64 x) /\ double (round64 x) /\ Rabs (round64 x - x) <= u * Rabs x + / 100 * u.
Proof.
  intros H. pose proof big_300. destruct (rnd x) as [F K]; [lra|]. pose proof et_u. split; auto. split; [|lra].
  apply double_round. pose proof fmax_300. lra.
Qed.
(** the argument of the first exponential function *)
Lemma bump_argument log10f e e_ref mu sigma : accurate_log10 log10f -> usual e -> usual e_ref -> -6 <= mu <= 6 -> / 10 <= sigma <= 10 ->
  let T := (ln (e / e_ref) / ln 10 - mu) / sigma in
  exists y, fmul (Fin (- / 2)) (fmul (fdiv (fsub (log10f (fdiv (Fin e) (Fin e_ref))) (Fin mu)) (Fin sigma)) (fdiv (fsub (log10f (fdiv (Fin e) (Fin e_ref))) (Fin mu)) (Fin sigma))) = Fin y /\
    double y /\ y <= 1 /\ Rabs (y - - (T ^ 2 / 2)) <= 670 * u * (1 + T ^ 2 / 2) /\ T ^ 2 / 2 <= 16300.
Proof.
  intros HL Ee Er Hm Hs T. destruct u_small as [U0 U1]. assert (U2 : u <= / 10000000000) by (eapply Rle_trans; [exact U1|]; replace (/ 10000000000) with (/ 10 ^ 10) by (f_equal; ring); apply ten_inv; lia).
  destruct (ratio_close e e_ref Ee Er) as (y & Ey & Dy & Yr & Xr & Ky). rewrite Ey. pose proof (ten_inv_pos 13).
  destruct (HL y) as (l & El & Kl); [lra|auto|]. rewrite El. set (x := e / e_ref) in *.
  pose proof BinsDoubleProofs.ln10_ge as G. assert (Ig : 0 < / ln 10 <= 1) by (split; [apply Rinv_0_lt_compat; lra|rewrite <- Rinv_1; apply Rinv_le_contravar; lra]).
  destruct (ln_range y 13 Yr) as [_ Ly]. destruct (ln_range x 12 Xr) as [_ Lx]. replace (INR 13) with 13 in Ly by (cbn; lra). replace (INR 12) with 12 in Lx by (cbn; lra).
  set (L := ln x / ln 10) in *. set (M := ln y / ln 10) in *.
  assert (ML : Rabs (M - L) <= 123 / 100 * u).
  { unfold M, L. replace (ln y / ln 10 - ln x / ln 10) with ((ln y - ln x) * / ln 10) by (unfold Rdiv; ring). rewrite Rabs_mult, (Rabs_pos_eq (/ ln 10)) by lra.
    apply Rle_trans with (123 / 100 * u * 1); [apply Rmult_le_compat; auto using Rabs_pos; lra|lra]. }
  assert (lL : Rabs (l - L) <= 28 * u).
  { replace (l - L) with ((l - M) + (M - L)) by ring. eapply Rle_trans; [apply Rabs_triang|]. assert (2 * u * Rabs M <= 2 * u * 13) by (apply Rmult_le_compat_l; lra). lra. }
  apply Rabs_le_inv in lL, Lx.
  assert (M6 : 1000000 = 10 ^ 6) by ring.
  destruct (rnd_mid (l - mu)) as (F1 & D1 & K1); [apply Rabs_le; lra|]. assert (A1 : Rabs (l - mu) <= 181 / 10) by (apply Rabs_le; lra).
  set (s := round64 (l - mu)) in *.
  assert (B1 : - (47 * u) <= s - (L - mu) <= 47 * u).
  { assert (u * Rabs (l - mu) <= u * (181 / 10)) by (apply Rmult_le_compat_l; lra). apply Rabs_le_inv. replace (s - (L - mu)) with ((s - (l - mu)) + (l - L)) by ring.
    eapply Rle_trans; [apply Rabs_triang|]. assert (Rabs (l - L) <= 28 * u) by (apply Rabs_le; lra). lra. }
  assert (Is : 0 < / sigma <= 10) by (split; [apply Rinv_0_lt_compat; lra|rewrite <- (Rinv_inv 10); apply Rinv_le_contravar; lra]).
  assert (TA : Rabs T <= 180).
  { unfold T, Rdiv. rewrite Rabs_mult, (Rabs_pos_eq (/ sigma)) by lra. apply Rle_trans with (18 * 10); [apply Rmult_le_compat; auto using Rabs_pos; try lra; apply Rabs_le; fold (Rdiv (ln x) (ln 10)); fold L; lra|lra]. }
  assert (sT : Rabs (s / sigma - T) <= 470 * u).
  { unfold T. fold x. fold L. replace (s / sigma - (L - mu) / sigma) with ((s - (L - mu)) * / sigma) by (unfold Rdiv; ring). rewrite Rabs_mult, (Rabs_pos_eq (/ sigma)) by lra.
    apply Rle_trans with (47 * u * 10); [apply Rmult_le_compat; auto using Rabs_pos; try lra; apply Rabs_le; lra|lra]. }
  assert (A2 : Rabs (s / sigma) <= 181) by (pose proof (close_abs _ _ _ sT); lra).
  destruct (rnd_mid (s / sigma)) as (F2 & D2 & K2); [lra|]. set (t := round64 (s / sigma)) in *.
  assert (tT : Rabs (t - T) <= 652 * u).
  { replace (t - T) with ((t - s / sigma) + (s / sigma - T)) by ring. eapply Rle_trans; [apply Rabs_triang|]. assert (u * Rabs (s / sigma) <= u * 181) by (apply Rmult_le_compat_l; lra). lra. }
  set (h := T ^ 2 / 2). assert (TT : T * T = 2 * h) by (unfold h; field). assert (h0 : 0 <= h) by (pose proof (Rle_0_sqr T) as Q; unfold Rsqr in Q; lra).
  assert (h1 : h <= 16300).
  { assert (Rabs T * Rabs T <= 180 * 180) by (apply Rmult_le_compat; auto using Rabs_pos). rewrite <- Rabs_mult, Rabs_pos_eq in H0 by lra. lra. }
  assert (T1 : 2 * Rabs T <= 2 * (1 + h)). { pose proof (Rle_0_sqr (Rabs T - 1)) as Q. unfold Rsqr in Q. assert (Rabs T * Rabs T = 2 * h) by (rewrite <- Rabs_mult, Rabs_pos_eq; lra). lra. }
  assert (sq : Rabs (t * t - 2 * h) <= 1305 * u * (1 + h)).
  { rewrite <- TT. replace (t * t - T * T) with ((t - T) * (t - T + 2 * T)) by ring. rewrite Rabs_mult.
    assert (Rabs (t - T + 2 * T) <= 2001 / 1000 * (1 + h)). { eapply Rle_trans; [apply Rabs_triang|]. rewrite Rabs_mult, (Rabs_pos_eq 2) by lra. lra. }
    apply Rle_trans with (652 * u * (2001 / 1000 * (1 + h))); [apply Rmult_le_compat; auto using Rabs_pos|]. assert (0 <= u * (1 + h)) by (apply Rmult_le_pos; lra). lra. }
  assert (U3 : u * (1 + h) <= / 100000). { apply Rle_trans with (/ 10000000000 * 16301); [apply Rmult_le_compat; lra|lra]. }
  assert (tp : 0 <= t * t) by (pose proof (Rle_0_sqr t) as Q; unfold Rsqr in Q; lra).
  pose proof (Rabs_le_inv _ _ sq) as sq'.
  destruct (rnd_mid (t * t)) as (F3 & D3 & K3); [rewrite Rabs_pos_eq; lra|]. set (q := round64 (t * t)) in *.
  rewrite (Rabs_pos_eq (t * t)) in K3 by lra.
  assert (q2 : Rabs (q - 2 * h) <= 1308 * u * (1 + h)).
  { replace (q - 2 * h) with ((q - t * t) + (t * t - 2 * h)) by ring. eapply Rle_trans; [apply Rabs_triang|].
    assert (u * (t * t) <= u * (201 / 100 * (1 + h))) by (apply Rmult_le_compat_l; lra). assert (0 <= u * h) by (apply Rmult_le_pos; lra). lra. }
  pose proof (Rabs_le_inv _ _ q2) as q2'.
  assert (A4 : Rabs (- / 2 * q) <= 16301 / 10000 * (1 + h)).
  { apply Rabs_le. lra. }
  destruct (rnd_mid (- / 2 * q)) as (F4 & D4 & K4); [lra|]. set (z := round64 (- / 2 * q)) in *.
  assert (zh : Rabs (z - - h) <= 670 * u * (1 + h)).
  { replace (z - - h) with ((z - - / 2 * q) + (- / 2 * (q - 2 * h))) by field. eapply Rle_trans; [apply Rabs_triang|]. rewrite (Rabs_mult (- / 2)), (Rabs_left (- / 2)) by lra.
    assert (u * Rabs (- / 2 * q) <= u * (16301 / 10000 * (1 + h))) by (apply Rmult_le_compat_l; lra). assert (0 <= u * h) by (apply Rmult_le_pos; lra). lra. }
  exists z. split.
  - unfold fsub. cbn [nsub nadd nneg fl_num]. unfold Rminus in F1. rewrite F1. unfold fdiv. cbn [ndiv]. destruct (Reqb_spec sigma 0); [lra|]. cbn [fl_num]. rewrite F2. unfold fmul. cbn [nmul fl_num]. rewrite F3. cbn [nmul fl_num]. exact F4.
  - split; auto. pose proof (Rabs_le_inv _ _ zh). split; [lra|]. split; auto.
Qed.
(** the exponential functions *)
Lemma exp_1_3 : exp 1 <= 3. Proof. exact exp_le_3. Qed.
Lemma bump_value expf y h : accurate_exp expf -> double y -> 0 <= h <= 16300 -> y <= 1 -> Rabs (y - - h) <= 670 * u * (1 + h) ->
  exists v, fsub (expf (expf (Fin y))) (Fin 1) = Fin v /\ Rabs (v - (exp (exp (- h)) - 1)) <= 2460 * u /\ 1 <= exp (exp (- h)) <= 3.
Proof.
  intros HE Dy H Y1 K. destruct u_small as [U0 U1]. assert (U2 : u <= / 10000000000) by (eapply Rle_trans; [exact U1|]; replace (/ 10000000000) with (/ 10 ^ 10) by (f_equal; ring); apply ten_inv; lia).
  pose proof et_u as ET. set (G := exp (- h)). assert (G0 : 0 < G) by apply exp_pos.
  assert (G1 : G * (1 + h) <= 1).
  { pose proof (exp_ineq1_le h). assert (G * exp h = 1) by (unfold G; rewrite <- exp_plus; replace (- h + h) with 0 by ring; apply exp_0). rewrite <- H1. apply Rmult_le_compat_l; lra. }
  assert (G2 : G <= 1) by (assert (0 <= G * h) by (apply Rmult_le_pos; lra); lra).
  assert (U3 : u * (1 + h) <= / 100000). { apply Rle_trans with (/ 10000000000 * 16301); [apply Rmult_le_compat; lra|lra]. }
  assert (E1 : Rabs (exp y - G) <= 737 * u).
  { replace (exp y) with (G * exp (y - - h)) by (unfold G; rewrite <- exp_plus; f_equal; ring). replace (G * exp (y - - h) - G) with (G * (exp (y - - h) - 1)) by ring.
    rewrite Rabs_mult, (Rabs_pos_eq G) by lra. pose proof (BinsDoubleProofs.exp_close (y - - h) ltac:(lra)) as C.
    apply Rle_trans with (G * (737 * u * (1 + h))); [apply Rmult_le_compat_l; lra|]. replace (G * (737 * u * (1 + h))) with (737 * u * (G * (1 + h))) by ring.
    rewrite <- (Rmult_1_r (737 * u)) at 2. apply Rmult_le_compat_l; lra. }
  apply Rabs_le_inv in E1. destruct (HE y Dy ltac:(lra)) as (g & -> & Dg & g0 & Kg).
  assert (Eg : Rabs (g - G) <= 740 * u).
  { replace (g - G) with ((g - exp y) + (exp y - G)) by ring. eapply Rle_trans; [apply Rabs_triang|]. assert (Rabs (exp y - G) <= 737 * u) by (apply Rabs_le; lra).
    assert (2 * u * exp y <= 2 * u * (11 / 10)) by (apply Rmult_le_compat_l; lra). lra. }
  pose proof (Rabs_le_inv _ _ Eg) as Eg'. destruct (HE g Dg ltac:(lra)) as (w & -> & Dw & w0 & Kw).
  assert (W1 : 1 <= exp G). { pose proof (exp_ineq1_le G). lra. }
  assert (W3 : exp G <= 3). { eapply Rle_trans; [|exact exp_1_3]. destruct (Req_dec G 1) as [->|]; [lra|]. left. apply exp_increasing. lra. }
  assert (E2 : Rabs (exp g - exp G) <= 2442 * u).
  { replace (exp g) with (exp G * exp (g - G)) by (rewrite <- exp_plus; f_equal; ring). replace (exp G * exp (g - G) - exp G) with (exp G * (exp (g - G) - 1)) by ring.
    rewrite Rabs_mult, (Rabs_pos_eq (exp G)) by lra. pose proof (BinsDoubleProofs.exp_close (g - G) ltac:(lra)) as C.
    apply Rle_trans with (3 * (814 * u)); [apply Rmult_le_compat; auto using Rabs_pos; lra|lra]. }
  apply Rabs_le_inv in E2. assert (2 * u * exp g <= 2 * u * (301 / 100)) by (apply Rmult_le_compat_l; lra).
  assert (Ew : Rabs (w - exp G) <= 2449 * u).
  { replace (w - exp G) with ((w - exp g) + (exp g - exp G)) by ring. eapply Rle_trans; [apply Rabs_triang|]. assert (Rabs (exp g - exp G) <= 2442 * u) by (apply Rabs_le; lra). lra. }
  apply Rabs_le_inv in Ew. assert (Wm : Rabs (w - 1) <= 21 / 10) by (apply Rabs_le; lra).
  destruct (rnd_small (w - 1) (21 / 10) Wm) as [F K4]; [lra|]. exists (round64 (w - 1)). split; [exact F|]. split; [|lra].
  replace (round64 (w - 1) - (exp G - 1)) with ((round64 (w - 1) - (w - 1)) + (w - exp G)) by ring. eapply Rle_trans; [apply Rabs_triang|].
  assert (Rabs (w - exp G) <= 2449 * u) by (apply Rabs_le; lra). lra.
Qed.
Theorem c101_flux pow log10f expf norm U index e_ref f mu sigma e : accurate_power pow -> accurate_log10 log10f -> accurate_exp expf ->
  sized 30 norm -> double index -> -5 <= index <= 0 -> usual e_ref -> double f -> 0 <= f <= 10 -> double mu -> -6 <= mu <= 6 -> double sigma -> / 10 <= sigma <= 10 -> usual e ->
  exists y, gaussian_spectrum_call_double pow log10f expf (mkPL (Fin norm) U index e_ref) f mu sigma (Fin e) = Fin y /\
    0 < gaussian_spectrum_flux norm index e_ref f mu sigma e /\
    Rabs (y - gaussian_spectrum_flux norm index e_ref f mu sigma e) <= 26500 * u * gaussian_spectrum_flux norm index e_ref f mu sigma e.
Proof.
  intros HP HL HE [Dn Nm] Di I Er Df Hf Dm Hm Ds Hs Ee. destruct u_small as [U0 U1].
  destruct (bump_argument log10f e e_ref mu sigma HL Ee Er Hm Hs) as (y & Ey & Dy & Y1 & Ky & h1). set (T := (ln (e / e_ref) / ln 10 - mu) / sigma) in *.
  assert (h0 : 0 <= T ^ 2 / 2) by (pose proof (pow2_ge_0 T); lra).
  destruct (bump_value expf y (T ^ 2 / 2) HE Dy (conj h0 h1) Y1 Ky) as (v & Ev & Kv & B). set (X := exp (exp (- (T ^ 2 / 2)))) in *.
  assert (U2 : u <= / 10000000000) by (eapply Rle_trans; [exact U1|]; replace (/ 10000000000) with (/ 10 ^ 10) by (f_equal; ring); apply ten_inv; lia).
  pose proof (Rabs_le_inv _ _ Kv) as Kv'.
  assert (FK : Rabs (f * v - f * (X - 1)) <= 24600 * u).
  { replace (f * v - f * (X - 1)) with (f * (v - (X - 1))) by ring. rewrite Rabs_mult, (Rabs_pos_eq f) by lra. apply Rle_trans with (10 * (2460 * u)); [apply Rmult_le_compat; auto using Rabs_pos; lra|lra]. }
  assert (FX : 0 <= f * (X - 1) <= 20). { split; [apply Rmult_le_pos; lra|]. apply Rle_trans with (10 * 2); [apply Rmult_le_compat; lra|lra]. }
  pose proof (Rabs_le_inv _ _ FK) as FK'.
  destruct (rnd_small (f * v) 21) as [F1 K1]; [apply Rabs_le; lra|lra|]. set (m := round64 (f * v)) in *. apply Rabs_le_inv in K1.
  destruct (rnd_small (1 + m) 22) as [F2 K2]; [apply Rabs_le; lra|lra|]. set (q := round64 (1 + m)) in *. apply Rabs_le_inv in K2.
  assert (TU : u <= 100 * u) by lra. assert (T6 : 100 * u <= / 10 ^ 6). { replace (/ 10 ^ 6) with (/ 1000000) by (f_equal; ring). lra. }
  assert (Aq : apx (100 * u) 247 2 q (1 + f * (X - 1))).
  { split; [apply mag_pos; replace (/ 10 ^ 2) with (/ 100) by (f_equal; ring); lra|]. rewrite (Rabs_pos_eq (1 + _)) by lra.
    assert (24700 * u * 1 <= 24700 * u * (1 + f * (X - 1))) by (apply Rmult_le_compat_l; lra). apply Rabs_le. lra. }
  destruct (call_apx (100 * u) TU T6 pow norm norm U index e_ref e 0 30 13 HP Ee Er Di I (apx_exact _ _ _ (mag_pos _ _ Nm))) as (p & Ep & Ap); try lra; try lia.
  destruct (apx_mul (100 * u) TU T6 13 247 265 90 2 _ _ _ _ Ap Aq) as (r & Fr & [_ Kr]); try lra; try lia.
  assert (P0 : 0 < power_law_flux norm index e_ref e).
  { pose proof (ten_inv_pos 30). unfold power_law_flux, Rpower. apply Rmult_lt_0_compat; [lra|apply exp_pos]. }
  assert (Pos : 0 < power_law_flux norm index e_ref e * (1 + f * (X - 1))) by (apply Rmult_lt_0_compat; lra).
  exists r. split; [|split; [exact Pos|]].
  - unfold gaussian_spectrum_call_double. cbv zeta. cbn [pl_e_ref]. rewrite Ep, Ey, Ev. unfold fmul at 2. cbn [nmul fl_num]. rewrite F1. unfold fadd. cbn [nadd fl_num]. rewrite F2. exact Fr.
  - rewrite (Rabs_pos_eq (power_law_flux _ _ _ _ * _)) in Kr by lra. replace (26500 * u) with (265 * (100 * u)) by ring. exact Kr.
Qed.
(** without a bump *)
Lemma fl_fixed x r : fl x = Fin r -> fl r = Fin r.
Proof.
  unfold fl. cbv zeta. match goal with |- context [Rltb ?M (Rabs (round64 x))] => destruct (Rltb M (Rabs (round64 x))) eqn:E end; [destruct (Rltb 0 (round64 x)); discriminate|]. intros H. injection H as <-.
  assert (round64 (round64 x) = round64 x) as ->; [|rewrite E; auto].
  apply round64_id. apply generic_format_round; [apply FLT_exp_valid; cbv; auto|apply valid_rnd_N].
Qed.
Theorem c101_no_bump pow log10f expf norm U index e_ref mu sigma e : accurate_power pow -> accurate_log10 log10f -> accurate_exp expf ->
  sized 30 norm -> double index -> -5 <= index <= 0 -> usual e_ref -> double mu -> -6 <= mu <= 6 -> double sigma -> / 10 <= sigma <= 10 -> usual e ->
  gaussian_spectrum_call_double pow log10f expf (mkPL (Fin norm) U index e_ref) 0 mu sigma (Fin e) = power_law_call_double pow (mkPL (Fin norm) U index e_ref) (Fin e).
Proof.
  intros HP HL HE [Dn Nm] Di I Er Dm Hm Ds Hs Ee. destruct u_small as [U0 U1].
  destruct (bump_argument log10f e e_ref mu sigma HL Ee Er Hm Hs) as (y & Ey & Dy & Y1 & Ky & h1). set (T := (ln (e / e_ref) / ln 10 - mu) / sigma) in *.
  assert (h0 : 0 <= T ^ 2 / 2) by (pose proof (pow2_ge_0 T); lra).
  destruct (bump_value expf y (T ^ 2 / 2) HE Dy (conj h0 h1) Y1 Ky) as (v & Ev & Kv & B).
  assert (U2 : u <= / 10000000000) by (eapply Rle_trans; [exact U1|]; replace (/ 10000000000) with (/ 10 ^ 10) by (f_equal; ring); apply ten_inv; lia).
  assert (TU : u <= 100 * u) by lra. assert (T6 : 100 * u <= / 10 ^ 6). { replace (/ 10 ^ 6) with (/ 1000000) by (f_equal; ring). lra. }
  destruct (call_apx (100 * u) TU T6 pow norm norm U index e_ref e 0 30 13 HP Ee Er Di I (apx_exact _ _ _ (mag_pos _ _ Nm))) as (p & Ep & Ap); try lra; try lia.
  unfold gaussian_spectrum_call_double. cbv zeta. cbn [pl_e_ref]. rewrite Ep, Ey, Ev, fmul_zero'. unfold fadd. cbn [nadd fl_num]. rewrite Rplus_0_r, fl_one.
  unfold fmul. cbn [nmul fl_num]. rewrite Rmult_1_r. revert Ep. unfold power_law_call_double. cbv zeta. unfold fmul. cbn [pl_norm pl_index pl_e_ref].
  destruct (nmul (Fin norm) (pow (fdiv (Fin e) (Fin e_ref)) (Fin index))); cbn [fl_num]; try discriminate. apply fl_fixed.
Qed.
(** an exponential function with this accuracy: the rounded one *)
Definition rounded_exp (x : num) : num := match x with Fin r => Fin (round64 (exp r)) | _ => x end.
Lemma rounded_exp_accurate : accurate_exp rounded_exp.
Proof.
  intros x Dx X. exists (round64 (exp x)). pose proof (exp_pos x) as E0. destruct u_small as [U0 U1].
  assert (E9 : exp x <= 9).
  { apply Rle_trans with (exp 2); [destruct (Req_dec x 2) as [->|]; [lra|left; apply exp_increasing; lra]|]. replace 2 with (1 + 1) by lra. rewrite exp_plus. pose proof exp_1_3. pose proof (exp_pos 1).
    apply Rle_trans with (3 * 3); [apply Rmult_le_compat; lra|lra]. }
  split; [reflexivity|]. split; [apply double_round; pose proof fmax_300; pose proof big_300; rewrite Rabs_pos_eq; lra|].
  split; [rewrite <- round64_0; apply round64_mono; lra|].
  assert (R : Rabs (round64 (exp x) - exp x) <= u * Rabs (exp x) + et) by (rewrite LiMaDouble2Proofs.eps53_u; apply round64_error).
  rewrite (Rabs_pos_eq (exp x)) in R by lra. assert (0 <= u * exp x) by (apply Rmult_le_pos; lra). lra.
Qed.
