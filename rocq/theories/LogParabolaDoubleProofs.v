(** * LogParabolaDoubleProofs: log parabolas in double precision *)
From Coq Require Import Reals List Bool ZArith Lia Lra Psatz.
From Flocq Require Import Core.
From Verif Require BinsDoubleProofs LiMaDouble2Proofs.
From Verif Require Import Num Numpy Spectral Double SpecDouble SpecBinsDouble DoubleProofs NearProofs WeightsDoubleProofs ShowersDoubleProofs SpecEventWeights EventWeightsDoubleProofs
  LogParabolaDouble SpecLogParabola.
Open Scope R_scope.
Notation u := eps53.
Notation et := (bpow radix2 (-1075)).

Lemma power_bounds_abs x p n k : / 10 ^ n <= x <= 10 ^ n -> - INR k <= p <= INR k -> / 10 ^ (n * k) <= Rpower x p <= 10 ^ (n * k).
Proof.
  intros X P. destruct (Rle_dec p 0) as [N|N]; [apply power_bounds; auto; lra|].
  destruct (power_bounds x (- p) n k X) as [A B]; [lra|]. rewrite Rpower_Ropp in A, B. pose proof (exp_pos (p * ln x)) as E. fold (Rpower x p) in E.
  pose proof (ten_inv_pos (n * k)). pose proof (ten_pos (n * k)). split.
  - rewrite <- (Rinv_inv (Rpower x p)). apply Rinv_le_contravar; auto. apply Rinv_0_lt_compat; auto.
  - rewrite <- (Rinv_inv (Rpower x p)), <- (Rinv_inv (10 ^ (n * k))). apply Rinv_le_contravar; auto.
Qed.
Lemma ln_range x n : / 10 ^ n <= x <= 10 ^ n -> Rabs (ln x) <= INR n * (26 / 10) /\ Rabs (ln x / ln 10) <= INR n.
Proof.
  intros [A B]. pose proof (ten_inv_pos n). pose proof BinsDoubleProofs.ln10_ge as G. pose proof BinsDoubleProofs.ln10_le as G2. pose proof (pos_INR n).
  assert (E : ln (10 ^ n) = INR n * ln 10) by (apply ln_pow; lra).
  assert (L1 : ln (/ 10 ^ n) <= ln x) by (apply BinsDoubleProofs.ln_le; lra). assert (L2 : ln x <= ln (10 ^ n)) by (apply BinsDoubleProofs.ln_le; lra).
  rewrite ln_Rinv in L1 by apply ten_pos. rewrite E in L1, L2.
  assert (K : INR n * ln 10 <= INR n * (26 / 10)) by (apply Rmult_le_compat_l; lra).
  split; apply Rabs_le; [lra|]. split; apply Rmult_le_reg_r with (ln 10); try lra; unfold Rdiv; rewrite Rmult_assoc, Rinv_l by lra; lra.
Qed.
Lemma u_small : 0 < u <= / 10 ^ 12.
Proof. destruct u_bounds as [A B]. split; auto. eapply Rle_trans; [exact B|apply ten_inv; lia]. Qed.
(** the rounded quotient of two energies *)
Lemma ratio_close e r : usual e -> usual r ->
  exists y, fdiv (Fin e) (Fin r) = Fin y /\ double y /\ / 10 ^ 13 <= y <= 10 ^ 13 /\ / 10 ^ 12 <= e / r <= 10 ^ 12 /\ Rabs (ln y - ln (e / r)) <= 123 / 100 * u.
Proof.
  intros E R. pose proof (usual_pos e E). pose proof (usual_pos r R). destruct u_bounds as [U0 U1]. destruct et_bounds as [T0 T1].
  assert (M : mag (6 + 6) (e / r)) by (apply mag_div; apply usual_mag; auto). cbn [Nat.add] in M.
  assert (X0 : 0 < e / r) by (apply Rdiv_lt_0_compat; auto). set (x := e / r) in *.
  assert (B12 : / 10 ^ 12 <= x <= 10 ^ 12) by (unfold mag in M; rewrite Rabs_pos_eq in M by lra; auto).
  assert (big : 10 ^ 12 <= 10 ^ 300) by (apply Rle_pow; [lra|lia]).
  destruct (rnd x) as [F K]; [rewrite Rabs_pos_eq; lra|]. rewrite (Rabs_pos_eq x) in K by lra.
  assert (ET : et <= / 10 * u * x).
  { assert (I1 : / 10 ^ 1 = / 10) by (f_equal; ring). apply Rle_trans with (/ 10 ^ 1 * / 10 ^ 16 * / 10 ^ 12).
    - rewrite <- !Rinv_mult, <- !pow_add. eapply Rle_trans; [exact T1|]. apply ten_inv; lia.
    - pose proof (ten_inv_pos 1). pose proof (ten_inv_pos 16). pose proof (ten_inv_pos 12). pose proof u_low.
      apply Rmult_le_compat; lra. }
  assert (K' : Rabs (round64 x - x) <= 12 / 10 * u * x) by (assert (0 < u * x) by (apply Rmult_lt_0_compat; auto); lra).
  set (y := round64 x) in *.
  assert (U2 : u <= / 1000) by (eapply Rle_trans; [exact U1|]; replace (/ 1000) with (/ 10 ^ 3) by (f_equal; ring); apply ten_inv; lia).
  assert (H' : - (12 / 10 * u * x) <= y - x <= 12 / 10 * u * x) by (revert K'; unfold Rabs; destruct (Rcase_abs (y - x)); lra).
  assert (UX : u * x <= / 1000 * x) by (apply Rmult_le_compat_r; lra).
  assert (Yr : / 10 ^ 13 <= y <= 10 ^ 13).
  { assert (E13 : 10 ^ 13 = 10 * 10 ^ 12) by ring. assert (I13 : / 10 ^ 13 = / 10 * / 10 ^ 12) by (rewrite E13, Rinv_mult; auto). lra. }
  exists y. split; [unfold fdiv; cbn [ndiv]; destruct (Reqb_spec r 0); [lra|]; cbn [fl_num]; fold x; rewrite F; auto|].
  split; [apply double_round; pose proof fmax_300; rewrite Rabs_pos_eq; lra|]. split; auto. split; auto.
  set (q := y / x). assert (Y0 : 0 < y) by lra. assert (Q : y = x * q) by (unfold q; field; lra).
  assert (Bq : - (12 / 10 * u) <= q - 1 <= 12 / 10 * u).
  { assert (E1 : q - 1 = (y - x) * / x) by (unfold q; field; lra). assert (Ix : 0 < / x) by (apply Rinv_0_lt_compat; auto).
    assert (F1 : 12 / 10 * u = 12 / 10 * u * x * / x) by (field; lra). rewrite E1. split.
    - replace (- (12 / 10 * u)) with (- (12 / 10 * u * x) * / x) by (field; lra). apply Rmult_le_compat_r; lra.
    - rewrite F1. apply Rmult_le_compat_r; lra. }
  assert (q0 : 0 < q) by lra. rewrite Q, ln_mult by auto. replace (ln x + ln q - ln x) with (ln q) by ring.
  assert (A : ln q <= q - 1). { pose proof (exp_ineq1_le (ln q)) as E2. rewrite exp_ln in E2 by auto. lra. }
  assert (B : - ln q <= / q - 1). { rewrite <- ln_Rinv by auto. pose proof (exp_ineq1_le (ln (/ q))) as E2. rewrite exp_ln in E2 by (apply Rinv_0_lt_compat; auto). lra. }
  assert (C : / q - 1 <= 123 / 100 * u).
  { replace (/ q - 1) with ((1 - q) * / q) by (field; lra). apply Rle_trans with (12 / 10 * u * / q); [apply Rmult_le_compat_r; [left; apply Rinv_0_lt_compat; auto|lra]|].
    assert (/ q <= / (99 / 100)) by (apply Rinv_le_contravar; lra). assert (12 / 10 * u * / q <= 12 / 10 * u * / (99 / 100)) by (apply Rmult_le_compat_l; lra). lra. }
  apply Rabs_le. lra.
Qed.
(** a rounded operation on numbers below 100 *)
Lemma rnd_small x c : Rabs x <= c -> c <= 100 -> fl x = Fin (round64 x) /\ Rabs (round64 x - x) <= (c + / 10) * u.
Proof.
  intros H C. destruct u_bounds as [U0 U1]. destruct et_bounds as [T0 T1]. assert (big : 100 <= 10 ^ 300) by (apply Rle_trans with (10 ^ 3); [lra|apply Rle_pow; [lra|lia]]).
  destruct (rnd x) as [F K]; [lra|]. split; auto. eapply Rle_trans; [exact K|].
  assert (u * Rabs x <= u * c) by (apply Rmult_le_compat_l; lra).
  assert (et <= u * / 10).
  { apply Rle_trans with (/ 10 ^ 16 * / 10 ^ 1); [rewrite <- Rinv_mult, <- pow_add; eapply Rle_trans; [exact T1|apply ten_inv; lia]|].
    pose proof u_low. pose proof (ten_inv_pos 16). pose proof (ten_inv_pos 1). replace (/ 10 ^ 1) with (/ 10) in * by (f_equal; ring). apply Rmult_le_compat; lra. }
  lra.
Qed.
(** the exponent *)
Lemma exponent_close log10f a b x y : accurate_log10 log10f -> double y -> / 10 ^ 13 <= y <= 10 ^ 13 -> / 10 ^ 12 <= x <= 10 ^ 12 -> Rabs (ln y - ln x) <= 123 / 100 * u ->
  -5 <= a <= 5 -> -1 <= b <= 1 ->
  exists q, fadd (Fin a) (fmul (Fin b) (log10f (Fin y))) = Fin q /\ double q /\ -20 <= q <= 20 /\ Rabs (q - (a + b * (ln x / ln 10))) <= 60 * u.
Proof.
  intros HL Dy Yr Xr K A B. destruct u_small as [U0 U1]. assert (U2 : u <= / 1000) by (eapply Rle_trans; [exact U1|]; replace (/ 1000) with (/ 10 ^ 3) by (f_equal; ring); apply ten_inv; lia).
  pose proof BinsDoubleProofs.ln10_ge as G. assert (Ig : 0 < / ln 10 <= 1) by (split; [apply Rinv_0_lt_compat; lra|rewrite <- Rinv_1; apply Rinv_le_contravar; lra]).
  pose proof (ten_inv_pos 13). destruct (HL y) as (l & El & Kl); [lra|auto|]. rewrite El.
  destruct (ln_range y 13 Yr) as [_ Ly]. destruct (ln_range x 12 Xr) as [_ Lx]. change (INR 13) with (IZR 13) in Ly || idtac. replace (INR 13) with 13 in Ly by (cbn; lra). replace (INR 12) with 12 in Lx by (cbn; lra).
  set (L := ln x / ln 10) in *. set (M := ln y / ln 10) in *.
  assert (ML : Rabs (M - L) <= 123 / 100 * u).
  { unfold M, L. replace (ln y / ln 10 - ln x / ln 10) with ((ln y - ln x) * / ln 10) by (unfold Rdiv; ring). rewrite Rabs_mult, (Rabs_pos_eq (/ ln 10)) by lra.
    apply Rle_trans with (123 / 100 * u * 1); [apply Rmult_le_compat; auto using Rabs_pos; lra|lra]. }
  assert (lL : Rabs (l - L) <= 28 * u).
  { replace (l - L) with ((l - M) + (M - L)) by ring. eapply Rle_trans; [apply Rabs_triang|]. assert (2 * u * Rabs M <= 2 * u * 13) by (apply Rmult_le_compat_l; lra). lra. }
  assert (Bb : Rabs b <= 1) by (apply Rabs_le; lra).
  assert (bl : Rabs (b * l - b * L) <= 28 * u).
  { replace (b * l - b * L) with (b * (l - L)) by ring. rewrite Rabs_mult. apply Rle_trans with (1 * (28 * u)); [apply Rmult_le_compat; auto using Rabs_pos|lra]. }
  assert (bL : Rabs (b * L) <= 12) by (rewrite Rabs_mult; apply Rle_trans with (1 * 12); [apply Rmult_le_compat; auto using Rabs_pos|lra]).
  assert (blb : Rabs (b * l) <= 121 / 10) by (pose proof (close_abs _ _ _ bl); lra).
  destruct (rnd_small (b * l) (121 / 10) blb) as [F1 K1]; [lra|]. set (m := round64 (b * l)) in *.
  assert (mb : Rabs (m - b * L) <= 403 / 10 * u). { replace (m - b * L) with ((m - b * l) + (b * l - b * L)) by ring. eapply Rle_trans; [apply Rabs_triang|]. lra. }
  assert (am : Rabs (a + m) <= 172 / 10).
  { eapply Rle_trans; [apply Rabs_triang|]. assert (Rabs a <= 5) by (apply Rabs_le; lra). pose proof (close_abs _ _ _ mb). lra. }
  destruct (rnd_small (a + m) (172 / 10) am) as [F2 K2]; [lra|]. set (q := round64 (a + m)) in *.
  assert (Kq : Rabs (q - (a + b * L)) <= 60 * u). { replace (q - (a + b * L)) with ((q - (a + m)) + (m - b * L)) by ring. eapply Rle_trans; [apply Rabs_triang|]. lra. }
  exists q. split; [unfold fmul; cbn [nmul fl_num]; rewrite F1; unfold fadd; cbn [nadd fl_num]; exact F2|].
  split; [apply double_round; pose proof fmax_300; assert (100 <= 10 ^ 300) by (apply Rle_trans with (10 ^ 3); [lra|apply Rle_pow; [lra|lia]]); lra|]. split; auto.
  pose proof (close_abs _ _ _ K2) as Cq. assert (Rabs q <= 20) by lra. apply Rabs_le_inv. auto.
Qed.
Theorem c100_flux pow log10f norm a b e_ref e : accurate_wide_power pow -> accurate_log10 log10f -> sized 30 norm -> double a -> double b -> -5 <= a <= 5 -> -1 <= b <= 1 -> usual e_ref -> usual e ->
  exists f, log_parabola_call_double pow log10f (Fin norm) a b e_ref (Fin e) = Fin f /\
    0 < log_parabola_flux norm a b e_ref e /\ Rabs (f - log_parabola_flux norm a b e_ref e) <= 2400 * u * log_parabola_flux norm a b e_ref e.
Proof.
  intros HP HL Nm _ _ A B Er Ee. destruct u_small as [U0 U1]. destruct (ratio_close e e_ref Ee Er) as (y & Ey & Dy & Yr & Xr & Ky).
  destruct (exponent_close log10f a b (e / e_ref) y HL Dy Yr Xr Ky A B) as (q & Eq & Dq & Qr & Kq).
  unfold log_parabola_call_double. cbv zeta. rewrite Ey, Eq. destruct (HP y q Dy Yr Dq Qr) as (z & Ez & Kz). rewrite Ez. unfold log_parabola_flux.
  set (x := e / e_ref) in *. set (p := a + b * (ln x / ln 10)) in *.
  destruct (ln_range y 13 Yr) as [Ly _]. destruct (ln_range x 12 Xr) as [_ Lx]. replace (INR 13) with 13 in Ly by (cbn; lra). replace (INR 12) with 12 in Lx by (cbn; lra).
  assert (Pb : Rabs p <= 17).
  { unfold p. eapply Rle_trans; [apply Rabs_triang|]. rewrite Rabs_mult. assert (Rabs a <= 5) by (apply Rabs_le; lra). assert (Rabs b <= 1) by (apply Rabs_le; lra).
    assert (Rabs b * Rabs (ln x / ln 10) <= 1 * 12) by (apply Rmult_le_compat; auto using Rabs_pos). lra. }
  assert (D : Rabs (q * ln y - p * ln x) <= 2060 * u).
  { replace (q * ln y - p * ln x) with ((q - p) * ln y + p * (ln y - ln x)) by ring. eapply Rle_trans; [apply Rabs_triang|]. rewrite !Rabs_mult.
    assert (Rabs (q - p) * Rabs (ln y) <= 60 * u * (13 * (26 / 10))) by (apply Rmult_le_compat; auto using Rabs_pos).
    assert (Rabs p * Rabs (ln y - ln x) <= 17 * (123 / 100 * u)) by (apply Rmult_le_compat; auto using Rabs_pos). lra. }
  assert (U3 : 10000 * u <= / 10 ^ 6).
  { assert (/ 10 ^ 12 = / 10000 * / 10 ^ 8) by (rewrite <- Rinv_mult; f_equal; ring). assert (/ 10 ^ 8 <= / 10 ^ 6) by (apply ten_inv; lia). lra. }
  assert (I6 : / 10 ^ 6 <= / 1000) by (replace (/ 1000) with (/ 10 ^ 3) by (f_equal; ring); apply ten_inv; lia).
  assert (PX : 0 < Rpower x p) by apply exp_pos. assert (PY : 0 < Rpower y q) by apply exp_pos.
  assert (K1 : Rabs (Rpower y q - Rpower x p) <= 2266 * u * Rpower x p).
  { unfold Rpower at 1. replace (q * ln y) with (p * ln x + (q * ln y - p * ln x)) by ring. rewrite exp_plus. fold (Rpower x p).
    replace (Rpower x p * exp (q * ln y - p * ln x) - Rpower x p) with ((exp (q * ln y - p * ln x) - 1) * Rpower x p) by ring.
    rewrite Rabs_mult, (Rabs_pos_eq (Rpower x p)) by lra. apply Rmult_le_compat_r; [lra|]. pose proof (BinsDoubleProofs.exp_close (q * ln y - p * ln x) ltac:(lra)). lra. }
  assert (K2 : Rabs (z - Rpower x p) <= 2270 * u * Rpower x p).
  { replace (z - Rpower x p) with ((z - Rpower y q) + (Rpower y q - Rpower x p)) by ring. eapply Rle_trans; [apply Rabs_triang|].
    pose proof (close_abs _ _ _ K1) as C. rewrite !Rabs_pos_eq in C by lra. assert (2266 * u * Rpower x p <= / 10 * Rpower x p) by (apply Rmult_le_compat_r; lra).
    assert (2 * u * Rpower y q <= 2 * u * (11 / 10 * Rpower x p)) by (apply Rmult_le_compat_l; lra). assert (0 < u * Rpower x p) by (apply Rmult_lt_0_compat; auto). lra. }
  assert (TU : u <= 10 * u) by lra. assert (T6 : 10 * u <= / 10 ^ 6) by lra.
  destruct Nm as [_ Nm]. pose proof (mag_pos _ _ Nm) as MN. pose proof (ten_inv_pos 30).
  assert (Az : apx (10 * u) 227 204 z (Rpower x p)).
  { split; [apply mag_pos, (power_bounds_abs x p 12 17); auto; apply Rabs_le_inv in Pb; cbn; lra|]. rewrite (Rabs_pos_eq (Rpower x p)) by lra. lra. }
  destruct (apx_mul (10 * u) TU T6 0 227 240 30 204 _ _ _ _ (apx_exact _ _ _ MN) Az) as (f & Ff & [_ Kf]); try lra; try lia.
  assert (Pos : 0 < norm * Rpower x p) by (apply Rmult_lt_0_compat; lra).
  exists f. split; auto. split; auto. rewrite (Rabs_pos_eq (norm * Rpower x p)) in Kf by lra. replace (2400 * u) with (240 * (10 * u)) by ring. auto.
Qed.
(** at the reference energy *)
Theorem c100_reference pow log10f norm a b e_ref : (forall p, pow (Fin 1) (Fin p) = Fin 1) -> accurate_log10 log10f -> sized 30 norm -> double a -> -5 <= a <= 5 -> usual e_ref ->
  log_parabola_call_double pow log10f (Fin norm) a b e_ref (Fin e_ref) = Fin norm.
Proof.
  intros HP HL [Dn Nm] Da A Er. pose proof (usual_pos e_ref Er). unfold log_parabola_call_double. cbv zeta. rewrite fdiv_self by lra.
  destruct (HL 1) as (l & -> & Kl); [lra|apply d_one|]. rewrite ln_1 in Kl. unfold Rdiv in Kl. rewrite Rmult_0_l, Rabs_R0, Rmult_0_r, Rminus_0_r in Kl.
  assert (l = 0) as -> by (destruct (Req_dec l 0); auto; pose proof (Rabs_pos_lt l ltac:(auto)); lra).
  rewrite fmul_zero. unfold fadd. cbn [nadd fl_num]. rewrite Rplus_0_r, fl_id; [|auto|].
  - rewrite HP. unfold fmul. cbn [nmul fl_num]. rewrite Rmult_1_r. apply fl_id; auto. pose proof (ten_inv_pos 30). rewrite Rabs_pos_eq by lra.
    assert (10 ^ 30 <= 10 ^ 300) by (apply Rle_pow; [lra|lia]). lra.
  - assert (Rabs a <= 5) by (apply Rabs_le; lra). assert (5 <= 10 ^ 300) by pw. lra.
Qed.
(** a power and a logarithm with these properties: the rounded ones *)
Lemma rounded_power_wide : accurate_wide_power rounded_power.
Proof.
  intros x p Dx T D B. exists (round64 (Rpower x p)). split; [reflexivity|].
  assert (R : Rabs (round64 (Rpower x p) - Rpower x p) <= u * Rabs (Rpower x p) + et) by (rewrite LiMaDouble2Proofs.eps53_u; apply round64_error).
  assert (P0 : 0 < Rpower x p) by apply exp_pos. rewrite (Rabs_pos_eq (Rpower x p)) in R by lra.
  assert (L : / 10 ^ 260 <= Rpower x p) by (apply (power_bounds_abs x p 13 20); auto; cbn; lra).
  destruct et_bounds as [E0 E1]. pose proof u_low as UL. pose proof (ten_inv_pos 16). pose proof (ten_inv_pos 260).
  assert (et <= u * Rpower x p); [|lra].
  apply Rle_trans with (/ 10 ^ 16 * / 10 ^ 260).
  - rewrite <- Rinv_mult, <- pow_add. eapply Rle_trans; [exact E1|]. apply ten_inv; lia.
  - apply Rmult_le_compat; lra.
Qed.
Lemma rounded_power_one p : rounded_power (Fin 1) (Fin p) = Fin 1.
Proof. cbn. unfold Rpower. rewrite ln_1, Rmult_0_r, exp_0. f_equal. apply one_int. Qed.
