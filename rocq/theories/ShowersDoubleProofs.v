(** * ShowersDoubleProofs: expected numbers of showers in double precision *)
From Coq Require Import Reals List Bool ZArith Lia Lra Psatz.
From Flocq Require Import Core.
From Verif Require PercentileDoubleProofs.
From Verif Require Import Num Numpy Lists Binning Simulations Double SpecDouble DoubleProofs NearProofs LiMaDoubleProofs LiMaDouble2Proofs WeightsDoubleProofs ShowersDouble SpecShowers.
Import ListNotations.
Notation length := List.length.
Open Scope R_scope.
Notation u := eps53.
Notation et := (bpow radix2 (-1075)).

(** ** A quotient as product with the reciprocal *)
Lemma reciprocal_product e n e' n' a b : / 10 ^ 60 <= Rabs n -> Rabs n <= 10 ^ 60 -> Rabs e <= Rabs n -> 0 <= a <= / 10 ^ 6 -> 0 <= b <= / 10 ^ 6 ->
  Rabs (e' - e) <= a * Rabs n -> Rabs (n' - n) <= b * Rabs n ->
  exists r, fmul (Fin e') (fdiv (Fin 1) (Fin n')) = Fin r /\ Rabs (r - e / n) <= 101 / 100 * (a + b) + 22 / 10 * u.
Proof.
  intros N1 N2 He Ha Hb Ea Eb. set (N := Rabs n) in *.
  assert (I60 : 0 < / 10 ^ 60) by (apply Rinv_0_lt_compat, pow_lt; lra).
  assert (NP : 0 < N) by lra.
  assert (Nn : n <> 0) by (intros ->; unfold N in NP; rewrite Rabs_R0 in NP; lra).
  destruct u_bounds as [U0 U1]. destruct et_bounds as [T0 T1]. pose proof u_low as UL.
  assert (S6 : / 10 ^ 6 <= / 1000) by (change (/1000) with (/ (IZR 1000)); replace (IZR 1000) with (10 ^ 3) by ring; apply ten_inv; lia).
  assert (S6' : / 10 ^ 6 = / 1000000) by (f_equal; ring).
  assert (N'1 : 999999 / 1000000 * N <= Rabs n').
  { pose proof (Rabs_triang_inv n (n - n')) as T. replace (n - (n - n')) with n' in T by ring. rewrite (Rabs_minus_sym n n') in T. fold N in T.
    assert (b * N <= / 1000000 * N) by (apply Rmult_le_compat_r; lra). lra. }
  assert (E'1 : Rabs e' <= 1000001 / 1000000 * N).
  { pose proof (close_abs e' e _ Ea). assert (a * N <= / 1000000 * N) by (apply Rmult_le_compat_r; lra). lra. }
  assert (N'P : 0 < Rabs n') by lra.
  assert (N'n : n' <> 0) by (intros ->; rewrite Rabs_R0 in N'P; lra).
  assert (Ip : 0 < / N) by (apply Rinv_0_lt_compat; auto).
  assert (IN : / Rabs n' <= 1000002 / 1000000 * / N).
  { apply Rle_trans with (/ (999999 / 1000000 * N)); [apply Rinv_le_contravar; lra|]. rewrite Rinv_mult. apply Rmult_le_compat_r; lra. }
  assert (IN60 : / N <= 10 ^ 60). { rewrite <- (Rinv_inv (10 ^ 60)). apply Rinv_le_contravar; auto. }
  assert (J61 : 1000002 / 1000000 * 10 ^ 60 <= 10 ^ 61). { replace (10 ^ 61) with (10 * 10 ^ 60) by ring. assert (0 < 10 ^ 60) by (apply pow_lt; lra). lra. }
  assert (B61 : 10 ^ 61 <= 10 ^ 300) by (apply Rle_pow; [lra|lia]).
  assert (Q0 : Rabs (1 / n') = / Rabs n'). { unfold Rdiv. rewrite Rmult_1_l, Rabs_inv. auto. }
  destruct (rnd (1 / n')) as [F1 K1]; [rewrite Q0; lra|]. rewrite Q0 in K1.
  set (r1 := round64 (1 / n')) in *.
  assert (P1 : Rabs (e' * r1 - e' / n') <= 1000004 / 1000000 * u + Rabs e' * et).
  { replace (e' * r1 - e' / n') with (e' * (r1 - 1 / n')) by (field; auto). rewrite Rabs_mult.
    apply Rle_trans with (Rabs e' * (u * / Rabs n' + et)); [apply Rmult_le_compat_l; auto using Rabs_pos|].
    rewrite Rmult_plus_distr_l. apply Rplus_le_compat_r.
    assert (M : Rabs e' * / Rabs n' <= 1000001 / 1000000 * N * (1000002 / 1000000 * / N)).
    { apply Rmult_le_compat; auto using Rabs_pos. left. apply Rinv_0_lt_compat. auto. }
    replace (1000001 / 1000000 * N * (1000002 / 1000000 * / N)) with (1000001 / 1000000 * (1000002 / 1000000)) in M by (field; lra).
    replace (Rabs e' * (u * / Rabs n')) with (u * (Rabs e' * / Rabs n')) by ring. rewrite (Rmult_comm (1000004 / 1000000)).
    apply Rmult_le_compat_l; lra. }
  assert (Q1 : Rabs (e' / n' - e / n) <= 1000002 / 1000000 * (a + b)).
  { replace (e' / n' - e / n) with (((e' - e) - e / n * (n' - n)) * / n') by (field; auto). rewrite Rabs_mult, Rabs_inv.
    assert (En : Rabs (e / n) <= 1).
    { unfold Rdiv. rewrite Rabs_mult, Rabs_inv. fold N. apply Rle_trans with (N * / N); [apply Rmult_le_compat_r; lra|]. rewrite Rinv_r; lra. }
    assert (M : Rabs (e' - e - e / n * (n' - n)) <= (a + b) * N).
    { eapply Rle_trans; [apply Rabs_triang|]. rewrite Rabs_Ropp, Rabs_mult.
      assert (Rabs (e / n) * Rabs (n' - n) <= 1 * (b * N)) by (apply Rmult_le_compat; auto using Rabs_pos). lra. }
    apply Rle_trans with ((a + b) * N * (1000002 / 1000000 * / N)).
    - apply Rmult_le_compat; auto using Rabs_pos. left. apply Rinv_0_lt_compat. auto.
    - right. field. lra. }
  assert (Te : Rabs e' * et <= u * / 1000).
  { apply Rle_trans with (10 ^ 61 * / 10 ^ 320).
    - apply Rmult_le_compat; auto using Rabs_pos; lra.
    - rewrite Rmult_comm. apply Rle_trans with (/ 10 ^ 19); [apply inv_le; rewrite <- pow_add; apply Rle_pow; [lra|lia]|].
      apply Rle_trans with (/ 10 ^ 16 * / 1000); [|apply Rmult_le_compat_r; lra]. rewrite <- Rinv_mult. right. f_equal. ring. }
  assert (T' : et <= u * / 1000).
  { apply Rle_trans with (/ 10 ^ 19); [eapply Rle_trans; [exact T1|apply ten_inv; lia]|].
    apply Rle_trans with (/ 10 ^ 16 * / 1000); [|apply Rmult_le_compat_r; lra]. rewrite <- Rinv_mult. right. f_equal. ring. }
  assert (En : Rabs (e / n) <= 1).
  { unfold Rdiv. rewrite Rabs_mult, Rabs_inv. fold N. apply Rle_trans with (N * / N); [apply Rmult_le_compat_r; lra|]. rewrite Rinv_r; lra. }
  assert (U15 : u <= / 1000) by (eapply Rle_trans; [exact U1|]; replace (/ 1000) with (/ 10 ^ 3) by (f_equal; ring); apply ten_inv; lia).
  assert (Pb : Rabs (e' * r1) <= 101 / 100).
  { pose proof (close_abs _ _ _ P1). pose proof (close_abs _ _ _ Q1).
    assert (U7 : u <= / 1000000) by (eapply Rle_trans; [exact U1|]; rewrite <- S6'; apply ten_inv; lia). lra. }
  assert (big : 101 / 100 <= 10 ^ 300) by (apply Rle_trans with (10 ^ 1); [lra|apply Rle_pow; [lra|lia]]).
  destruct (rnd (e' * r1)) as [F2 K2]; [lra|].
  exists (round64 (e' * r1)). split.
  - unfold fdiv, fmul. cbn [ndiv]. destruct (Reqb_spec n' 0); [contradiction|]. cbn [fl_num]. rewrite F1. cbn [nmul fl_num]. auto.
  - replace (round64 (e' * r1) - e / n) with ((round64 (e' * r1) - e' * r1) + ((e' * r1 - e' / n') + (e' / n' - e / n))) by ring.
    eapply Rle_trans; [apply Rabs_triang|]. eapply Rle_trans; [apply Rplus_le_compat_l, Rabs_triang|].
    assert (u * Rabs (e' * r1) <= u * (101 / 100)) by (apply Rmult_le_compat_l; lra). lra.
Qed.
(** a difference of two approximate values *)
Lemma approx_sub x y x' y' d : Rabs (x' - x) + Rabs (y' - y) <= d -> Rabs x + Rabs y + d <= 10 ^ 100 ->
  exists z, fsub (Fin x') (Fin y') = Fin z /\ Rabs (z - (x - y)) <= d + u * (Rabs x + Rabs y + d) + et.
Proof.
  intros D B. assert (X : Rabs (x' - y' - (x - y)) <= d).
  { replace (x' - y' - (x - y)) with ((x' - x) - (y' - y)) by ring. eapply Rle_trans; [apply Rabs_triang|]. rewrite Rabs_Ropp. auto. }
  assert (Y : Rabs (x' - y') <= Rabs x + Rabs y + d).
  { pose proof (close_abs _ _ _ X). assert (Rabs (x - y) <= Rabs x + Rabs y) by (unfold Rminus; eapply Rle_trans; [apply Rabs_triang|]; rewrite Rabs_Ropp; lra). lra. }
  assert (big : 10 ^ 100 <= 10 ^ 300) by (apply Rle_pow; [lra|lia]). destruct (rnd (x' - y')) as [F K]; [lra|].
  exists (round64 (x' - y')). split; [exact F|]. destruct u_bounds as [U0 _].
  assert (u * Rabs (x' - y') <= u * (Rabs x + Rabs y + d)) by (apply Rmult_le_compat_l; lra).
  replace (round64 (x' - y') - (x - y)) with ((round64 (x' - y') - (x' - y')) + (x' - y' - (x - y))) by ring.
  eapply Rle_trans; [apply Rabs_triang|]. lra.
Qed.
(** the last product with the number of showers *)
Lemma times_showers n r s d c : (1 <= n < 2 ^ 53)%Z -> Rabs s <= 1 -> 0 < c <= 2 -> 0 <= d <= 17 * u / c -> u / c <= / 2000 -> Rabs (r - s) <= d ->
  exists v, fmul (nz n) (Fin r) = Fin v /\ Rabs (v - IZR n * s) <= 20 * u * IZR n / c.
Proof.
  intros Hn Hs Hc Hd Hu Hr. destruct u_bounds as [U0 U1]. destruct et_bounds as [T0 T1].
  assert (N1 : 1 <= IZR n) by (apply IZR_le; lia). assert (N2 : IZR n <= 9007199254740992) by (apply IZR_le; lia).
  assert (Rb : Rabs r <= 27 / 10). { pose proof (close_abs _ _ _ Hr). assert (17 * u / c = 17 * (u / c)) by (field; lra). lra. }
  assert (P : Rabs (IZR n * r) <= 27 / 10 * IZR n). { rewrite Rabs_mult, (Rabs_pos_eq (IZR n)) by lra. rewrite Rmult_comm. apply Rmult_le_compat_r; lra. }
  assert (big : 27 / 10 * 9007199254740992 <= 10 ^ 300) by (apply Rle_trans with (10 ^ 17); [lra|apply Rle_pow; [lra|lia]]).
  destruct (rnd (IZR n * r)) as [F K]; [lra|]. exists (round64 (IZR n * r)). split; [exact F|].
  assert (Uc : u / 2 <= u / c) by (unfold Rdiv; apply Rmult_le_compat_l; [lra|]; apply Rinv_le_contravar; lra).
  assert (Rs : Rabs r <= 1 + d) by (pose proof (close_abs _ _ _ Hr); lra).
  assert (T' : et <= u * / 100).
  { apply Rle_trans with (/ 10 ^ 18); [eapply Rle_trans; [exact T1|apply ten_inv; lia]|]. pose proof u_low.
    apply Rle_trans with (/ 10 ^ 16 * / 100); [|apply Rmult_le_compat_r; lra]. rewrite <- Rinv_mult. right. f_equal. ring. }
  assert (Ud : u * d <= u * / 100).
  { apply Rmult_le_compat_l; [lra|]. assert (17 * u / c = 17 * (u / c)) by (field; lra). lra. }
  replace (round64 (IZR n * r) - IZR n * s) with ((round64 (IZR n * r) - IZR n * r) + IZR n * (r - s)) by ring.
  eapply Rle_trans; [apply Rabs_triang|]. rewrite (Rabs_mult (IZR n)), (Rabs_pos_eq (IZR n)) by lra.
  assert (A : IZR n * Rabs (r - s) <= IZR n * (17 * (u / c))). { apply Rmult_le_compat_l; [lra|]. unfold Rdiv in Hd |- *. lra. }
  assert (B : u * Rabs (IZR n * r) <= IZR n * (u * (101 / 100))).
  { rewrite Rabs_mult, (Rabs_pos_eq (IZR n)) by lra. replace (u * (IZR n * Rabs r)) with (IZR n * (u * Rabs r)) by ring. apply Rmult_le_compat_l; [lra|].
    assert (u * Rabs r <= u * (1 + d)) by (apply Rmult_le_compat_l; lra). lra. }
  assert (C : et <= IZR n * (u * / 100)) by (apply Rle_trans with (1 * (u * / 100)); [lra|apply Rmult_le_compat_r; lra]).
  replace (20 * u * IZR n / c) with (IZR n * (20 * (u / c))) by (unfold Rdiv; ring).
  assert (D : IZR n * (17 * (u / c)) + IZR n * (u * (101 / 100)) + IZR n * (u * / 100) <= IZR n * (20 * (u / c))).
  { rewrite <- !Rmult_plus_distr_l. apply Rmult_le_compat_l; lra. }
  lra.
Qed.

(** ** The spectrum *)
Lemma index_plus_one x : double x -> -5 <= x < -1 -> fadd (Fin x) (Fin 1) = Fin (x + 1) /\ double (x + 1).
Proof.
  intros (m & e & Hm & He & E) B. assert (D : double (x + 1)).
  { destruct (Z_le_gt_dec e 0) as [He0|He0].
    - exists (m + 2 ^ (- e))%Z, e. assert (P : (0 < 2 ^ (- e))%Z) by (apply Z.pow_pos_nonneg; lia).
      assert (W : IZR (2 ^ (- e)) * powerRZ 2 e = 1).
      { rewrite <- (bpow_powerRZ radix2). change 2%Z with (radix_val radix2). rewrite (IZR_Zpower radix2) by lia. rewrite <- bpow_plus. replace (- e + e)%Z with 0%Z by lia. reflexivity. }
      assert (Q : 0 < powerRZ 2 e) by (apply powerRZ_lt; lra).
      assert (Mm : (m < - 2 ^ (- e))%Z).
      { apply lt_IZR. rewrite opp_IZR. apply Rmult_lt_reg_r with (powerRZ 2 e); auto. lra. }
      split; [lia|]. split; [lia|]. rewrite plus_IZR, E. lra.
    - assert (V : x = IZR (m * 2 ^ e)).
      { rewrite E, mult_IZR. f_equal. rewrite <- (bpow_powerRZ radix2). change (2 ^ e)%Z with (radix_val radix2 ^ e)%Z. rewrite (IZR_Zpower radix2) by lia. auto. }
      assert (K1 : (-5 <= m * 2 ^ e)%Z) by (apply le_IZR; lra). assert (K2 : (m * 2 ^ e < -1)%Z) by (apply lt_IZR; lra).
      exists (m * 2 ^ e + 1)%Z, 0%Z. split; [lia|]. split; [lia|]. rewrite V, plus_IZR. cbn. lra. }
  split; auto. unfold fadd. cbn [nadd fl_num]. apply fl_id; auto. rewrite Rabs_left1 by lra. apply Rle_trans with 10; [lra|]. apply Rle_trans with (10 ^ 1); [lra|apply Rle_pow; [lra|lia]].
Qed.
Lemma tev_pos x : tev x -> 0 < x.
Proof. intros [_ [H _]]. apply Rlt_le_trans with (/ 10 ^ 10); auto. apply Rinv_0_lt_compat, pow_lt; lra. Qed.
Lemma power_decreases a b p : 0 < a -> a <= b -> p < 0 -> Rpower b p <= Rpower a p.
Proof.
  intros A B P. unfold Rpower. destruct (Req_dec a b) as [->|N]; [lra|]. left. apply exp_increasing. assert (ln a < ln b) by (apply ln_increasing; lra). nra.
Qed.
Lemma power_decreases' a b p : 0 < a -> a < b -> p < 0 -> Rpower b p < Rpower a p.
Proof. intros A B P. unfold Rpower. apply exp_increasing. assert (ln a < ln b) by (apply ln_increasing; lra). nra. Qed.
Lemma power_bounds x p n k : / 10 ^ n <= x <= 10 ^ n -> - INR k <= p <= 0 -> / 10 ^ (n * k) <= Rpower x p <= 10 ^ (n * k).
Proof.
  intros [X1 X2] P.
  assert (I : 0 < / 10 ^ n) by (apply Rinv_0_lt_compat, pow_lt; lra). assert (I' : 0 < 10 ^ n) by (apply pow_lt; lra). assert (X0 : 0 < x) by lra.
  assert (one : 1 <= 10 ^ n) by (apply pow_R1_Rle; lra).
  assert (ln0 : 0 <= ln (10 ^ n)) by (rewrite <- ln_1; destruct one as [o|<-]; [left; apply ln_increasing; lra|lra]).
  assert (lnx : - ln (10 ^ n) <= ln x <= ln (10 ^ n)).
  { rewrite <- ln_Rinv by auto. split; [destruct X1 as [X1| ->]|destruct X2 as [X2| ->]]; try lra; left; apply ln_increasing; auto. }
  assert (E : 10 ^ (n * k) = exp (INR k * ln (10 ^ n))). { rewrite pow_mult. rewrite <- (Rpower_pow k (10 ^ n)) by auto. reflexivity. }
  rewrite E, <- exp_Ropp. unfold Rpower. pose proof (pos_INR k).
  assert (B : - (INR k * ln (10 ^ n)) <= p * ln x <= INR k * ln (10 ^ n)).
  { destruct (Rle_dec 0 (ln x)) as [L|L]; split; nra. }
  assert (mono : forall a b, a <= b -> exp a <= exp b) by (intros a b [H'| ->]; [left; apply exp_increasing; auto|lra]).
  split; apply mono; lra.
Qed.
Lemma tev_power x p : tev x -> -4 <= p < 0 -> / 10 ^ 40 <= Rpower x p <= 10 ^ 40.
Proof. intros [_ H] P. apply (power_bounds x p 10 4); auto. cbn. lra. Qed.
Lemma tev_range x : tev x -> / 10 ^ 13 <= x <= 10 ^ 13.
Proof. intros [_ H]. assert (/ 10 ^ 13 <= / 10 ^ 10) by (apply ten_inv; lia). assert (10 ^ 10 <= 10 ^ 13) by (apply Rle_pow; [lra|lia]). lra. Qed.
Lemma u_contrast c : / 10 ^ 8 <= c -> 62 / 10 * u / c <= / 10 ^ 6 /\ u / c <= / 2000.
Proof.
  intros C. destruct u_bounds as [U0 U1]. assert (I8 : 0 < / 10 ^ 8) by (apply Rinv_0_lt_compat, pow_lt; lra).
  assert (K : u / c <= / 10 ^ 7).
  { unfold Rdiv. apply Rle_trans with (/ 10 ^ 15 * 10 ^ 8).
    - apply Rmult_le_compat; try lra; [left; apply Rinv_0_lt_compat; lra|]. rewrite <- (Rinv_inv (10 ^ 8)). apply Rinv_le_contravar; auto.
    - apply inv_le. rewrite <- pow_add. apply Rle_pow; [lra|lia]. }
  assert (E6 : / 10 ^ 6 = / 1000000) by (f_equal; ring). assert (E7 : / 10 ^ 7 = / 10000000) by (f_equal; ring).
  replace (62 / 10 * u / c) with (62 / 10 * (u / c)) by (unfold Rdiv; ring). lra.
Qed.
Lemma contrast_powers p emin emax : 0 < emin -> 0 < emax -> Rpower emin p * (1 - Rpower (emax / emin) p) = Rpower emin p - Rpower emax p.
Proof.
  intros A B. assert (E : Rpower emax p = Rpower emin p * Rpower (emax / emin) p).
  { rewrite Rpower_mult_distr; auto; [f_equal; field; lra|apply Rdiv_lt_0_compat; auto]. }
  rewrite E. ring.
Qed.
Lemma shares p emin emax lo hi : 0 < emin -> emin < emax -> emin <= lo -> lo <= hi -> hi <= emax -> p < 0 ->
  0 <= (Rpower lo p - Rpower hi p) <= Rpower emin p - Rpower emax p /\ 0 < Rpower emin p - Rpower emax p.
Proof.
  intros A B C D E P. pose proof (power_decreases emin lo p A C P). pose proof (power_decreases lo hi p ltac:(lra) D P). pose proof (power_decreases hi emax p ltac:(lra) E P).
  pose proof (power_decreases' emin emax p A B P). lra.
Qed.
Lemma pdf_ok pow index lo hi emin emax : accurate_power pow -> double index -> -5 <= index < -1 -> tev emin -> tev emax -> tev lo -> tev hi ->
  emin < emax -> emin <= lo -> lo <= hi -> hi <= emax -> / 10 ^ 8 <= contrast index emin emax ->
  0 <= spectrum_share index emin emax lo hi <= 1 /\
  exists r, powerlaw_pdf_double pow (Fin index) (Fin lo) (Fin hi) (Fin emin) (Fin emax) = Fin r /\
    Rabs (r - spectrum_share index emin emax lo hi) <= 17 * u / contrast index emin emax.
Proof.
  intros HP Di Bi T1 T2 T3 T4 L1 L2 L3 L4 HC. unfold spectrum_share, contrast in *.
  destruct (index_plus_one index Di Bi) as [Ei Dp]. set (p := index + 1) in *. assert (P : -4 <= p < 0) by (unfold p; lra).
  pose proof (tev_pos _ T1). pose proof (tev_pos _ T2). pose proof (tev_pos _ T3). pose proof (tev_pos _ T4).
  pose proof (contrast_powers p emin emax ltac:(auto) ltac:(auto)) as CP. set (c := 1 - Rpower (emax / emin) p) in *.
  destruct (shares p emin emax lo hi) as [[S1 S2] S3]; auto; try lra.
  assert (Cle : c <= 1). { unfold c. assert (0 < Rpower (emax / emin) p) by apply exp_pos. lra. }
  destruct (u_contrast c HC) as [U6 _]. destruct u_bounds as [U0 U1]. destruct et_bounds as [E0 E1].
  assert (I8 : 0 < / 10 ^ 8) by (apply Rinv_0_lt_compat, pow_lt; lra). assert (c0 : 0 < c) by lra.
  destruct (tev_power emin p T1 P) as [M1 M2]. set (M := Rpower emin p) in *.
  pose proof (power_decreases emin lo p ltac:(lra) ltac:(lra) ltac:(lra)) as Plo. pose proof (power_decreases emin hi p ltac:(lra) ltac:(lra) ltac:(lra)) as Phi. fold M in Plo, Phi.
  split.
  { split; [apply Rmult_le_pos; [lra|left; apply Rinv_0_lt_compat; lra]|]. apply Rmult_le_reg_r with (M - Rpower emax p); [lra|].
    unfold Rdiv. rewrite Rmult_assoc, Rinv_l, Rmult_1_r by lra. lra. }
  assert (sub : forall x y, tev x -> tev y -> Rpower x p <= M -> Rpower y p <= M ->
    exists z, fsub (pow (Fin x) (Fin p)) (pow (Fin y) (Fin p)) = Fin z /\ Rabs (z - (Rpower x p - Rpower y p)) <= 62 / 10 * u * M).
  { intros x y X Y Bx By. assert (P' : -5 <= p <= 0) by lra. destruct (HP x p (proj1 X) (tev_range x X) Dp P') as (x' & Ex & Kx). destruct (HP y p (proj1 Y) (tev_range y Y) Dp P') as (y' & Ey & Ky).
    rewrite Ex, Ey. assert (Px : 0 < Rpower x p) by apply exp_pos. assert (Py : 0 < Rpower y p) by apply exp_pos.
    assert (Sm : u * u <= u * / 1000).
    { apply Rmult_le_compat_l; [lra|]. eapply Rle_trans; [exact U1|]. replace (/ 1000) with (/ 10 ^ 3) by (f_equal; ring). apply ten_inv; lia. }
    assert (Ub : u <= 1) by (apply Rle_trans with (/ 10 ^ 15); auto; rewrite <- Rinv_1; apply Rinv_le_contravar; [lra|apply pow_R1_Rle; lra]).
    assert (M0 : 0 < M) by apply exp_pos.
    assert (UM : u * M <= 1 * M) by (apply Rmult_le_compat_r; lra).
    assert (KM : 2 * u * Rpower x p <= 2 * u * M) by (apply Rmult_le_compat_l; lra).
    assert (KM' : 2 * u * Rpower y p <= 2 * u * M) by (apply Rmult_le_compat_l; lra).
    destruct (approx_sub (Rpower x p) (Rpower y p) x' y' (4 * u * M)) as (z & Ez & Kz); [lra| |].
    { rewrite !Rabs_pos_eq by lra. apply Rle_trans with (6 * M); [lra|]. apply Rle_trans with (10 * 10 ^ 40); [lra|]. change (10 * 10 ^ 40) with (10 ^ 41). apply Rle_pow; [lra|lia]. }
    exists z. split; auto. rewrite (Rabs_pos_eq (Rpower x p)), (Rabs_pos_eq (Rpower y p)) in Kz by lra.
    assert (Et : et <= u * M * / 100).
    { apply Rle_trans with (/ 10 ^ 16 * / 10 ^ 40 * / 10 ^ 2).
      - rewrite <- !Rinv_mult, <- !pow_add. eapply Rle_trans; [exact E1|]. apply ten_inv; lia.
      - replace (/ 10 ^ 2) with (/ 100) by (f_equal; ring). apply Rmult_le_compat_r; [lra|]. pose proof u_low. assert (0 < / 10 ^ 40) by (apply Rinv_0_lt_compat, pow_lt; lra).
        apply Rmult_le_compat; auto; left; [apply Rinv_0_lt_compat, pow_lt; lra|auto]. }
    assert (W : u * (Rpower x p + Rpower y p + 4 * u * M) <= u * (M + M + / 100 * M)).
    { apply Rmult_le_compat_l; [lra|]. assert (4 * u * M <= / 100 * M); [|lra]. apply Rmult_le_compat_r; [lra|].
      assert (u <= / 1000) by (eapply Rle_trans; [exact U1|]; replace (/ 1000) with (/ 10 ^ 3) by (f_equal; ring); apply ten_inv; lia). lra. }
    assert (0 < u * M) by (apply Rmult_lt_0_compat; lra). lra. }
  destruct (sub hi lo) as (e' & Ee & Ke); auto.
  destruct (sub emax emin) as (n' & En & Kn); auto; [lra|unfold M; lra|].
  assert (MN : M = Rabs (Rpower emax p - M) / c). { rewrite Rabs_left1 by lra. replace (- (Rpower emax p - M)) with (M * c) by lra. field. lra. }
  assert (MN' : 62 / 10 * u * M = 62 / 10 * u / c * Rabs (Rpower emax p - M)). { rewrite MN at 1. unfold Rdiv. ring. }
  assert (A6 : 0 <= 62 / 10 * u / c) by (apply Rmult_le_pos; [lra|left; apply Rinv_0_lt_compat; lra]).
  fold M in Kn. rewrite MN' in Ke, Kn.
  destruct (reciprocal_product (Rpower hi p - Rpower lo p) (Rpower emax p - M) e' n' (62 / 10 * u / c) (62 / 10 * u / c)) as (r & Er & Kr); auto.
  - rewrite Rabs_left1 by lra. replace (- (Rpower emax p - M)) with (M * c) by lra. apply Rle_trans with (/ 10 ^ 40 * / 10 ^ 8).
    + rewrite <- Rinv_mult, <- pow_add. apply ten_inv. lia.
    + apply Rmult_le_compat; auto; left; auto. apply Rinv_0_lt_compat, pow_lt; lra.
  - rewrite Rabs_left1 by lra. replace (- (Rpower emax p - M)) with (M * c) by lra. apply Rle_trans with (10 ^ 40 * 1); [apply Rmult_le_compat; lra|]. rewrite Rmult_1_r. apply Rle_pow; [lra|lia].
  - rewrite !Rabs_left1 by lra. lra.
  - exists r. split.
    + unfold powerlaw_pdf_double. cbv zeta. rewrite Ei, Ee, En. exact Er.
    + replace ((Rpower lo p - Rpower hi p) / (M - Rpower emax p)) with ((Rpower hi p - Rpower lo p) / (Rpower emax p - M)) by (field; lra).
      eapply Rle_trans; [exact Kr|]. assert (u <= u / c).
      { apply Rmult_le_reg_r with c; auto. unfold Rdiv. rewrite Rmult_assoc, Rinv_l by lra. apply Rmult_le_compat_l; lra. }
      replace (62 / 10 * u / c) with (62 / 10 * (u / c)) by (unfold Rdiv; ring). replace (17 * u / c) with (17 * (u / c)) by (unfold Rdiv; ring). lra.
Qed.
(** ** The number in a bin *)
Lemma fmul_zero_n n : fmul (nz n) (Fin 0) = Fin 0.
Proof. apply fmul_zero. Qed.
Lemma integral_outside pow s lo hi : lo < hi -> hi <= energy_min s \/ energy_max s <= lo -> energy_min s < energy_max s -> energy_integral_double pow s (Fin lo) (Fin hi) = Fin 0.
Proof.
  intros L O E. unfold energy_integral_double, ngt, nge. cbn [nle nlt].
  destruct (Rltb_spec (energy_min s) hi), (Rltb_spec lo (energy_min s)), (Rltb_spec (energy_max s) hi), (Rltb_spec lo (energy_max s)), (Rleb_spec (energy_max s) lo), (Rleb_spec hi (energy_min s)); cbn [andb]; try lra; auto.
Qed.
Lemma integral_inside pow s lo hi : lo < hi -> energy_min s < hi -> lo < energy_max s -> ~ (lo < energy_min s /\ energy_max s < hi) ->
  energy_integral_double pow s (Fin lo) (Fin hi) =
  powerlaw_pdf_double pow (Fin (spectral_index s)) (Fin (Rmax lo (energy_min s))) (Fin (Rmin hi (energy_max s))) (Fin (energy_min s)) (Fin (energy_max s)).
Proof.
  intros L A B N. unfold energy_integral_double, ngt, nge. cbn [nle nlt].
  destruct (Rltb_spec (energy_min s) hi); [|lra]. destruct (Rltb_spec lo (energy_max s)); [|lra].
  destruct (Rleb_spec (energy_max s) lo); [lra|]. destruct (Rleb_spec hi (energy_min s)); [lra|].
  destruct (Rltb_spec lo (energy_min s)), (Rltb_spec (energy_max s) hi); cbn [andb].
  - exfalso; auto.
  - rewrite Rmax_right, Rmin_left by lra. reflexivity.
  - rewrite Rmax_left, Rmin_right by lra. reflexivity.
  - rewrite Rmax_left, Rmin_left by lra. reflexivity.
Qed.
Theorem c95_energy pow s bins k lo hi : accurate_power pow -> usable_simulation s -> / 10 ^ 8 <= contrast (spectral_index s) (energy_min s) (energy_max s) ->
  nth_error bins k = Some (Fin lo) -> nth_error bins (S k) = Some (Fin hi) -> tev lo -> tev hi -> lo < hi ->
  (hi <= energy_min s \/ energy_max s <= lo -> nth_error (calculate_n_showers_per_energy_double pow s bins) k = Some (Fin 0)) /\
  (energy_min s < hi -> lo < energy_max s -> ~ (lo < energy_min s /\ energy_max s < hi) ->
    exists v, nth_error (calculate_n_showers_per_energy_double pow s bins) k = Some (Fin v) /\
      Rabs (v - IZR (n_showers s) * spectrum_share (spectral_index s) (energy_min s) (energy_max s) (Rmax lo (energy_min s)) (Rmin hi (energy_max s)))
      <= 20 * u * IZR (n_showers s) / contrast (spectral_index s) (energy_min s) (energy_max s)).
Proof.
  intros HP (T1 & T2 & L & Di & Bi & Nn) HC H1 H2 Tl Th LH.
  assert (K : nth_error (calculate_n_showers_per_energy_double pow s bins) k = Some (fmul (nz (n_showers s)) (energy_integral_double pow s (Fin lo) (Fin hi)))).
  { unfold calculate_n_showers_per_energy_double. exact (adj_nth _ _ _ _ _ H1 H2). }
  rewrite K. split.
  - intros O. rewrite integral_outside by auto. now rewrite fmul_zero_n.
  - intros A B N. rewrite integral_inside by auto.
    destruct (pdf_ok pow (spectral_index s) (Rmax lo (energy_min s)) (Rmin hi (energy_max s)) (energy_min s) (energy_max s)) as [Sh (r & Er & Kr)]; auto.
    + unfold Rmax. destruct (Rle_dec _ _); auto.
    + unfold Rmin. destruct (Rle_dec _ _); auto.
    + apply Rmax_r.
    + apply Rmax_lub; apply Rmin_glb; lra.
    + apply Rmin_r.
    + rewrite Er. destruct (u_contrast _ HC) as [_ U2]. assert (0 < / 10 ^ 8) by (apply Rinv_0_lt_compat, pow_lt; lra).
      assert (C1 : contrast (spectral_index s) (energy_min s) (energy_max s) <= 1) by (unfold contrast; pose proof (exp_pos ((spectral_index s + 1) * ln (energy_max s / energy_min s))); unfold Rpower; lra).
      destruct (times_showers (n_showers s) r _ _ (contrast (spectral_index s) (energy_min s) (energy_max s)) Nn ltac:(rewrite Rabs_pos_eq; apply Sh) ltac:(lra)
        ltac:(split; [|apply Rle_refl]; apply Rmult_le_pos; [destruct u_bounds; lra|left; apply Rinv_0_lt_compat; lra]) U2 Kr) as (v & Ev & Kv).
      exists v. now rewrite Ev.
Qed.
(** ** The viewcone *)
Lemma cone_cos cosine a b : accurate_cos cosine -> double a -> double b -> 0 <= a <= PI -> 0 <= b <= PI ->
  exists z, fsub (cosine (Fin a)) (cosine (Fin b)) = Fin z /\ Rabs (z - (cos a - cos b)) <= 61 / 10 * u.
Proof.
  intros HC Da Db Ba Bb. pose proof PI_4. destruct (HC a ltac:(lra) Da) as (x & Ex & Kx). destruct (HC b ltac:(lra) Db) as (y & Ey & Ky). rewrite Ex, Ey.
  destruct u_bounds as [U0 U1]. destruct et_bounds as [E0 E1].
  assert (U3 : u <= / 1000) by (eapply Rle_trans; [exact U1|]; replace (/ 1000) with (/ 10 ^ 3) by (f_equal; ring); apply ten_inv; lia).
  assert (Ca : Rabs (cos a) <= 1) by (apply Rabs_le; pose proof (COS_bound a); lra). assert (Cb : Rabs (cos b) <= 1) by (apply Rabs_le; pose proof (COS_bound b); lra).
  assert (big : 3 <= 10 ^ 100) by (apply Rle_trans with (10 ^ 1); [lra|apply Rle_pow; [lra|lia]]).
  destruct (approx_sub (cos a) (cos b) x y (4 * u)) as (z & Ez & Kz); [lra|lra|]. exists z. split; auto.
  assert (W : u * (Rabs (cos a) + Rabs (cos b) + 4 * u) <= u * (201 / 100)) by (apply Rmult_le_compat_l; lra).
  assert (T' : et <= u * / 100).
  { apply Rle_trans with (/ 10 ^ 18); [eapply Rle_trans; [exact E1|apply ten_inv; lia]|]. pose proof u_low.
    apply Rle_trans with (/ 10 ^ 16 * / 100); [|apply Rmult_le_compat_r; lra]. rewrite <- Rinv_mult. right. f_equal. ring. }
  lra.
Qed.
Lemma cos_decreases a b : 0 <= a -> a <= b -> b <= PI -> cos b <= cos a.
Proof. intros A B C. apply cos_decr_1; lra. Qed.
Lemma cone_ok cosine vmin vmax lo hi : accurate_cos cosine -> double vmin -> double vmax -> double lo -> double hi -> 0 <= vmin -> vmax <= PI -> vmin < vmax ->
  / 10 ^ 8 <= cos vmin - cos vmax -> vmin <= lo -> lo <= hi -> hi <= vmax ->
  0 <= cone_share vmin vmax lo hi <= 1 /\
  exists r, fmul (fsub (cosine (Fin lo)) (cosine (Fin hi))) (fdiv (Fin 1) (fsub (cosine (Fin vmin)) (cosine (Fin vmax)))) = Fin r /\
    Rabs (r - cone_share vmin vmax lo hi) <= 17 * u / (cos vmin - cos vmax).
Proof.
  intros HC D1 D2 D3 D4 B1 B2 L HD L1 L2 L3. unfold cone_share. set (c := cos vmin - cos vmax) in *.
  pose proof (cos_decreases vmin lo B1 L1 ltac:(lra)). pose proof (cos_decreases lo hi ltac:(lra) L2 ltac:(lra)). pose proof (cos_decreases hi vmax ltac:(lra) L3 ltac:(lra)).
  assert (I8 : 0 < / 10 ^ 8) by (apply Rinv_0_lt_compat, pow_lt; lra). assert (c0 : 0 < c) by lra.
  assert (C2 : c <= 2) by (unfold c; pose proof (COS_bound vmin); pose proof (COS_bound vmax); lra).
  destruct (u_contrast c HD) as [U6 _]. destruct u_bounds as [U0 U1].
  assert (E1 : 0 <= cos lo - cos hi <= c) by (unfold c; lra).
  split.
  { split; [apply Rmult_le_pos; [lra|left; apply Rinv_0_lt_compat; lra]|]. apply Rmult_le_reg_r with c; [lra|].
    unfold Rdiv. rewrite Rmult_assoc, Rinv_l, Rmult_1_r by lra. lra. }
  destruct (cone_cos cosine lo hi HC D3 D4 ltac:(lra) ltac:(lra)) as (e' & Ee & Ke).
  destruct (cone_cos cosine vmin vmax HC D1 D2 ltac:(lra) ltac:(lra)) as (n' & En & Kn). rewrite Ee, En. fold c in Kn.
  assert (W : 61 / 10 * u = 61 / 10 * u / c * Rabs c) by (rewrite Rabs_pos_eq by lra; field; lra).
  assert (A6 : 0 <= 61 / 10 * (u / c)) by (apply Rmult_le_pos; [lra|apply Rmult_le_pos; [lra|left; apply Rinv_0_lt_compat; lra]]).
  assert (W1 : 61 / 10 * u / c = 61 / 10 * (u / c)) by (unfold Rdiv; ring). assert (W2 : 62 / 10 * u / c = 62 / 10 * (u / c)) by (unfold Rdiv; ring).
  destruct (reciprocal_product (cos lo - cos hi) c e' n' (61 / 10 * u / c) (61 / 10 * u / c)) as (r & Er & Kr); try lra.
  - rewrite Rabs_pos_eq by lra. apply Rle_trans with (/ 10 ^ 8); auto. apply ten_inv. lia.
  - rewrite Rabs_pos_eq by lra. apply Rle_trans with (10 ^ 1); [lra|apply Rle_pow; [lra|lia]].
  - rewrite !Rabs_pos_eq by lra. lra.
  - exists r. split; auto. eapply Rle_trans; [exact Kr|]. assert (u / 2 <= u / c) by (unfold Rdiv; apply Rmult_le_compat_l; [lra|]; apply Rinv_le_contravar; lra).
    replace (17 * u / c) with (17 * (u / c)) by (unfold Rdiv; ring). lra.
Qed.
Theorem c95_fov cosine s bins : accurate_cos cosine -> usable_cone s ->
  exists ns, calculate_n_showers_per_fov_double cosine s bins = Ok ns /\ length ns = (length bins - 1)%nat /\
  forall k lo hi, nth_error bins k = Some lo -> nth_error bins (S k) = Some hi -> double lo -> double hi -> lo < hi ->
    (hi < viewcone_min s \/ viewcone_max s < lo -> nth_error ns k = Some (Fin 0)) /\
    (viewcone_min s <= hi -> lo <= viewcone_max s -> exists v, nth_error ns k = Some (Fin v) /\
      Rabs (v - IZR (n_showers s) * cone_share (viewcone_min s) (viewcone_max s) (Rmax lo (viewcone_min s)) (Rmin hi (viewcone_max s)))
      <= 20 * u * IZR (n_showers s) / (cos (viewcone_min s) - cos (viewcone_max s))).
Proof.
  intros HC (D1 & D2 & B1 & B2 & HD & L & Nn). unfold calculate_n_showers_per_fov_double.
  destruct (Reqb_spec (viewcone_max s - viewcone_min s) 0); [lra|]. eexists. split; [reflexivity|]. split; [apply adj_length|].
  intros k lo hi H1 H2 Dl Dh LH. pose proof (adj_nth (fun lo hi => fmul (nz (n_showers s)) (viewcone_bin_double cosine (viewcone_min s) (viewcone_max s) lo hi)) _ _ _ _ H1 H2) as K. cbv beta in K. rewrite K. clear K.
  set (vmin := viewcone_min s) in *. set (vmax := viewcone_max s) in *. unfold viewcone_bin_double. cbv zeta.
  assert (C2 : cos vmin - cos vmax <= 2) by (pose proof (COS_bound vmin); pose proof (COS_bound vmax); lra).
  assert (I8 : 0 < / 10 ^ 8) by (apply Rinv_0_lt_compat, pow_lt; lra).
  destruct (u_contrast _ HD) as [U6 U2]. split.
  - intros O. assert (F : Rleb vmin hi && Rleb lo vmax = false).
    { destruct (Rleb_spec vmin hi), (Rleb_spec lo vmax); cbn; auto; lra. }
    rewrite F. destruct (cone_ok cosine vmin vmax vmin vmin HC D1 D2 D1 D1 B1 B2 L HD ltac:(lra) ltac:(lra) ltac:(lra)) as [_ (r & Er & _)].
    assert (Z : exists y, fdiv (Fin 1) (fsub (cosine (Fin vmin)) (cosine (Fin vmax))) = Fin y).
    { destruct (fsub (cosine (Fin vmin)) (cosine (Fin vmin))) eqn:A; destruct (fdiv (Fin 1) (fsub (cosine (Fin vmin)) (cosine (Fin vmax)))) eqn:B; eauto; exfalso;
      destruct (cone_cos cosine vmin vmin HC D1 D1 ltac:(lra) ltac:(lra)) as (z & Ez & _); rewrite A in Ez; try discriminate; 
      unfold fmul in Er; cbn [nmul fl_num] in Er; try discriminate; unfold inf_signed in Er; repeat destruct (Reqb _ _) in Er; repeat destruct (Rltb _ _) in Er; discriminate. }
    destruct Z as [y Ey]. rewrite Ey. f_equal. unfold fmul at 2. cbn [nmul fl_num]. rewrite Rmult_0_l, fl_zero. apply fmul_zero_n.
  - intros A B. destruct (Rleb_spec vmin hi); [|lra]. destruct (Rleb_spec lo vmax); [|lra]. cbn [andb].
    assert (M1 : (if Rltb vmin lo then lo else vmin) = Rmax lo vmin) by (destruct (Rltb_spec vmin lo); unfold Rmax; destruct (Rle_dec lo vmin); auto; lra).
    assert (M2 : (if Rltb hi vmax then hi else vmax) = Rmin hi vmax) by (destruct (Rltb_spec hi vmax); unfold Rmin; destruct (Rle_dec hi vmax); auto; lra).
    rewrite M1, M2. destruct (cone_ok cosine vmin vmax (Rmax lo vmin) (Rmin hi vmax)) as [Sh (q & Er & Kr)]; auto.
    + unfold Rmax. destruct (Rle_dec _ _); auto.
    + unfold Rmin. destruct (Rle_dec _ _); auto.
    + apply Rmax_r.
    + apply Rmax_lub; apply Rmin_glb; lra.
    + apply Rmin_r.
    + rewrite Er. destruct (times_showers (n_showers s) q _ _ (cos vmin - cos vmax) Nn ltac:(rewrite Rabs_pos_eq; apply Sh) ltac:(lra)
        ltac:(split; [|apply Rle_refl]; apply Rmult_le_pos; [destruct u_bounds; lra|left; apply Rinv_0_lt_compat; lra]) U2 Kr) as (v & Ev & Kv).
      exists v. now rewrite Ev.
Qed.
(** ** What is exact without rounding *)
Definition rounded_power (x p : num) : num := match x, p with Fin a, Fin b => Fin (round64 (Rpower a b)) | _, _ => NaN end.
Lemma rounded_power_accurate : accurate_power rounded_power.
Proof.
  intros x p Dx T D B. exists (round64 (Rpower x p)). split; [reflexivity|].
  assert (R : Rabs (round64 (Rpower x p) - Rpower x p) <= u * Rabs (Rpower x p) + et) by (rewrite eps53_u; apply round64_error).
  assert (P0 : 0 < Rpower x p) by apply exp_pos. rewrite (Rabs_pos_eq (Rpower x p)) in R by lra.
  assert (L : / 10 ^ 65 <= Rpower x p) by (apply (power_bounds x p 13 5); auto; cbn; lra).
  destruct et_bounds as [E0 E1]. pose proof u_low as UL.
  assert (et <= u * Rpower x p); [|lra].
  apply Rle_trans with (/ 10 ^ 16 * / 10 ^ 65).
  - rewrite <- Rinv_mult, <- pow_add. eapply Rle_trans; [exact E1|]. apply ten_inv; lia.
  - apply Rmult_le_compat; auto; left; apply Rinv_0_lt_compat, pow_lt; lra.
Qed.
Definition s20 : sim_info := mkSim 1 1 20 0 (-2) 0 1.
Lemma tev_q (m n : Z) : (Z.abs m < 2 ^ 53)%Z -> (0 <= n <= 1074)%Z -> / 10 ^ 10 <= IZR m / IZR (2 ^ n) <= 10 ^ 10 -> tev (IZR m / IZR (2 ^ n)).
Proof. intros A B C. split; auto. now apply double_q. Qed.
Lemma tev_small x : double x -> 1 <= x <= 20 -> tev x.
Proof.
  intros D B. split; auto. assert (20 <= 10 ^ 10) by pw. assert (/ 10 ^ 10 <= 1); [|lra]. rewrite <- Rinv_1. apply Rinv_le_contravar; [lra|]. apply pow_R1_Rle. lra.
Qed.
Lemma double_int (m : Z) : (Z.abs m < 2 ^ 53)%Z -> double (IZR m).
Proof. intros H. replace (IZR m) with (IZR m / IZR (2 ^ 0)) by (cbn; lra). apply double_q; auto. lia. Qed.
Lemma usable_20 : usable_simulation s20.
Proof.
  unfold usable_simulation, s20. cbn [energy_min energy_max spectral_index n_showers]. split; [apply tev_small; [apply d_one|lra]|]. split; [apply tev_small; [apply (double_int 20); lia|lra]|].
  split; [lra|]. split; [apply (double_int (-2)); lia|]. split; [lra|lia].
Qed.
Lemma contrast_20 : contrast (-2) 1 20 = 19 / 20.
Proof.
  unfold contrast. replace (-2 + 1) with (- (1)) by lra. rewrite Rpower_Ropp, Rpower_1 by lra. lra.
Qed.
Theorem c95_complete_refuted : exists pow s, accurate_power pow /\ usable_simulation s /\ / 10 ^ 8 <= contrast (spectral_index s) (energy_min s) (energy_max s) /\
  n_showers s = 1%Z /\ calculate_n_showers_per_energy_double pow s [Fin (energy_min s); Fin (energy_max s)] = [Fin (1 - / 2 ^ 53)].
Proof.
  exists rounded_power, s20. split; [apply rounded_power_accurate|]. split; [apply usable_20|]. cbn [spectral_index energy_min energy_max s20 n_showers].
  split; [rewrite contrast_20; apply Rle_trans with (/ 10 ^ 1); [apply ten_inv; lia|lra]|]. split; [reflexivity|].
  unfold calculate_n_showers_per_energy_double. cbn [but_last tl zipwith]. f_equal.
  rewrite integral_inside by (cbn; lra). cbn [spectral_index energy_min energy_max s20 n_showers]. rewrite Rmax_left, Rmin_left by lra.
  unfold powerlaw_pdf_double. cbv zeta. destruct (index_plus_one (-2)) as [E _]; [apply (double_int (-2)); lia|lra|]. rewrite E. replace (-2 + 1) with (- (1)) by lra.
  cbn [rounded_power]. rewrite !Rpower_Ropp, !Rpower_1 by lra. assert (big : 2 <= 10 ^ 300) by pw.
  replace (round64 (/ 1)) with 1 by (rewrite Rinv_1; symmetry; apply (round64_int 1); cbn; lia).
  assert (Q : round64 (/ 20) = 7205759403792794 / 144115188075855872) by (rq 7205759403792794%Z 57%Z). rewrite Q.
  assert (S : fsub (Fin (7205759403792794 / 144115188075855872)) (Fin 1) = Fin (- (8556839292003942 / 9007199254740992))).
  { unfold fsub. cbn [nsub nadd nneg fl_num]. replace (7205759403792794 / 144115188075855872 + - (1)) with (- (1 - 7205759403792794 / 144115188075855872)) by ring.
    rewrite fl_small by (rewrite Rabs_left; lra). rewrite round64_opp. f_equal. f_equal. rq 8556839292003942%Z 53%Z. }
  rewrite S.
  assert (I : fdiv (Fin 1) (Fin (- (8556839292003942 / 9007199254740992))) = Fin (- (4740631186705785 / 4503599627370496))).
  { unfold fdiv. cbn [ndiv]. destruct (Reqb_spec (- (8556839292003942 / 9007199254740992)) 0); [lra|]. cbn [fl_num].
    replace (1 / - (8556839292003942 / 9007199254740992)) with (- (9007199254740992 / 8556839292003942)) by (field; lra).
    rewrite fl_small by (rewrite Rabs_left; lra). rewrite round64_opp. f_equal. f_equal. rq 4740631186705785%Z 52%Z. }
  rewrite I.
  assert (M : fmul (Fin (- (8556839292003942 / 9007199254740992))) (Fin (- (4740631186705785 / 4503599627370496))) = Fin (9007199254740991 / 9007199254740992)).
  { unfold fmul. cbn [nmul fl_num]. rewrite Rmult_opp_opp. rewrite fl_small by (rewrite Rabs_pos_eq; lra). f_equal. rq 9007199254740991%Z 53%Z. }
  rewrite M. unfold nz, fmul. cbn [nmul fl_num]. rewrite Rmult_1_l. assert (H53 : 2 ^ 53 = 9007199254740992) by ring. rewrite H53.
  rewrite fl_id; [f_equal; lra|apply (double_q 9007199254740991 53); lia|]. rewrite Rabs_pos_eq; lra.
Qed.
Definition s54 : sim_info := mkSim 1 1 (5 / 4) 0 (- (4503599627370497 / 4503599627370496)) 0 1.
Theorem c95_flat_refuted : exists pow s, accurate_power pow /\ usable_simulation s /\
  calculate_n_showers_per_energy_double pow s [Fin (energy_min s); Fin (energy_max s)] = [NaN].
Proof.
  assert (Dx : double (- (4503599627370497 / 4503599627370496))).
  { replace (- (4503599627370497 / 4503599627370496)) with (IZR (-4503599627370497) / IZR (2 ^ 52)) by (change (IZR (2 ^ 52)) with 4503599627370496; lra). apply double_q; lia. }
  exists rounded_power, s54. split; [apply rounded_power_accurate|]. split.
  { unfold usable_simulation, s54. cbn [energy_min energy_max spectral_index n_showers]. split; [apply tev_small; [apply d_one|lra]|].
    split; [apply tev_small; [apply (double_q 5 2); lia|lra]|]. split; [lra|]. split; [auto|]. split; [lra|lia]. }
  unfold calculate_n_showers_per_energy_double. cbn [but_last tl zipwith energy_min energy_max s54]. f_equal.
  rewrite integral_inside by (cbn; lra). cbn [spectral_index energy_min energy_max s54 n_showers]. rewrite Rmax_left, Rmin_left by lra.
  unfold powerlaw_pdf_double. cbv zeta. destruct (index_plus_one (- (4503599627370497 / 4503599627370496)) Dx) as [E _]; [lra|]. rewrite E.
  replace (- (4503599627370497 / 4503599627370496) + 1) with (- (/ 4503599627370496)) by lra. set (p := - / 4503599627370496). cbn [rounded_power].
  assert (P1 : Rpower 1 p = 1) by (unfold Rpower; rewrite ln_1, Rmult_0_r; apply exp_0).
  assert (R1 : round64 (Rpower 1 p) = 1) by (rewrite P1; apply (round64_int 1); cbn; lia).
  assert (L : 0 < ln (5 / 4) < 1 / 4).
  { split; [rewrite <- ln_1; apply ln_increasing; lra|]. rewrite <- (ln_exp (1 / 4)). apply ln_increasing; [lra|]. pose proof (exp_ineq1 (1 / 4) ltac:(lra)). lra. }
  assert (B : 1 - / 18014398509481984 < Rpower (5 / 4) p < 1).
  { unfold Rpower, p. split.
    - eapply Rlt_le_trans; [|apply exp_ineq1_le]. lra.
    - rewrite <- exp_0. apply exp_increasing. lra. }
  assert (R2 : round64 (Rpower (5 / 4) p) = 1).
  { rewrite (round64_q 9007199254740992 53); [change (IZR (2 ^ 53)) with 9007199254740992; lra|lia| |].
    - change (IZR (2 ^ 52)) with 4503599627370496. change (IZR (2 ^ 53)) with 9007199254740992. lra.
    - change (IZR (2 ^ 53)) with 9007199254740992. apply Rabs_def1; lra. }
  rewrite R1, R2. rewrite fsub_self. unfold fdiv. cbn [ndiv]. destruct (Reqb_spec 0 0); [|lra]. destruct (Reqb_spec 1 0); [lra|]. destruct (Rltb_spec 0 1); [|lra].
  cbn [fl_num]. unfold fmul at 2. cbn [nmul]. unfold inf_signed. destruct (Reqb_spec 0 0); [|lra]. reflexivity.
Qed.
Definition s_cone : sim_info := mkSim 1000000 1 20 0 (-2) 0 1.
Lemma usable_cone_example : usable_cone s_cone.
Proof.
  unfold usable_cone, s_cone. cbn [viewcone_min viewcone_max n_showers]. pose proof PI2_1. pose proof PI_4. split; [apply d_zero|]. split; [apply d_one|]. split; [lra|]. split; [lra|].
  assert (C : cos 1 <= cos (PI / 4)) by (apply cos_decreases; lra). rewrite cos_PI4 in C.
  assert (Q : 5 / 4 <= sqrt 2) by (rewrite <- (sqrt_Rsqr (5 / 4)) by lra; apply sqrt_le_1; unfold Rsqr; lra).
  assert (I : 1 / sqrt 2 <= 4 / 5). { unfold Rdiv. rewrite !Rmult_1_l. replace (4 * / 5) with (/ (5 / 4)) by (field). apply Rinv_le_contravar; lra. }
  split; [rewrite cos_0; apply Rle_trans with (/ 10 ^ 1); [apply ten_inv; lia|lra]|]. split; [lra|lia].
Qed.
