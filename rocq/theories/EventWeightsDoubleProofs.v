(** * EventWeightsDoubleProofs: power laws and event weights in double precision *)
From Coq Require Import Reals List Bool ZArith Lia Lra Psatz.
From Flocq Require Import Core.
From Verif Require PercentileDoubleProofs PSFDoubleProofs.
From Verif Require Import Num Numpy Lists Simulations Spectral Double SpecDouble DoubleProofs NearProofs LiMaDoubleProofs LiMaDouble2Proofs WeightsDoubleProofs ShowersDouble SpecShowers ShowersDoubleProofs EventWeightsDouble SpecEventWeights.
Import ListNotations.
Notation length := List.length.
Open Scope R_scope.
Notation u := eps53.
Notation et := (bpow radix2 (-1075)).

(** ** Numbers of a limited size with a relative error *)
Definition mag (n : nat) (x : R) : Prop := / 10 ^ n <= Rabs x <= 10 ^ n.
Definition apx (t a : R) (n : nat) (y x : R) : Prop := mag n x /\ Rabs (y - x) <= a * t * Rabs x.
Lemma ten_pos n : 0 < 10 ^ n.
Proof. apply pow_lt. lra. Qed.
Lemma ten_inv_pos n : 0 < / 10 ^ n.
Proof. apply Rinv_0_lt_compat, ten_pos. Qed.
Lemma mag_mul n m x y : mag n x -> mag m y -> mag (n + m) (x * y).
Proof.
  intros [A B] [C D]. unfold mag. rewrite Rabs_mult, pow_add, Rinv_mult. pose proof (ten_inv_pos n). pose proof (ten_inv_pos m).
  split; apply Rmult_le_compat; auto using Rabs_pos; lra.
Qed.
Lemma mag_nonzero n x : mag n x -> x <> 0.
Proof. intros [A _] ->. rewrite Rabs_R0 in A. pose proof (ten_inv_pos n). lra. Qed.
Lemma mag_inv n x : mag n x -> mag n (/ x).
Proof.
  intros M. pose proof (mag_nonzero n x M) as N. destruct M as [A B]. unfold mag. rewrite Rabs_inv. pose proof (ten_inv_pos n).
  split; [apply Rinv_le_contravar; auto; lra|]. rewrite <- (Rinv_inv (10 ^ n)). apply Rinv_le_contravar; auto.
Qed.
Lemma mag_div n m x y : mag n x -> mag m y -> mag (n + m) (x / y).
Proof. intros A B. apply mag_mul; auto using mag_inv. Qed.
Lemma mag_pos n x : / 10 ^ n <= x <= 10 ^ n -> mag n x.
Proof. intros H. pose proof (ten_inv_pos n). unfold mag. rewrite Rabs_pos_eq by lra. auto. Qed.
Lemma mag_mono n m x : (n <= m)%nat -> mag n x -> mag m x.
Proof. intros L [A B]. pose proof (ten_inv m n L). assert (10 ^ n <= 10 ^ m) by (apply Rle_pow; [lra|lia]). unfold mag. lra. Qed.
Section Errors.
Variable t : R.
Hypothesis tu : u <= t.
Hypothesis t1 : t <= / 10 ^ 6.
Lemma t_bounds : 0 < t <= / 1000000.
Proof. split; [destruct u_bounds; lra|]. replace (/ 1000000) with (/ 10 ^ 6) by (f_equal; ring). auto. Qed.
Lemma apx_exact n x : mag n x -> apx t 0 n x x.
Proof. intros M. split; auto. rewrite Rminus_diag_eq, Rabs_R0 by auto. lra. Qed.
Lemma apx_more a b n m y x : a <= b -> (n <= m)%nat -> apx t a n y x -> apx t b m y x.
Proof.
  intros A L [M H]. split; [eapply mag_mono; eauto|]. destruct t_bounds. eapply Rle_trans; [exact H|].
  apply Rmult_le_compat_r; [apply Rabs_pos|]. apply Rmult_le_compat_r; lra.
Qed.
(** rounding *)
Lemma round_apx a r n y x : apx t a n y x -> 0 <= a -> 101 / 100 * (a + 1) <= r -> a <= 1000 -> (n <= 290)%nat -> exists z, fl y = Fin z /\ apx t r n z x.
Proof.
  intros [M H] A0 Hr A1 L. destruct t_bounds as [T0 T1]. destruct u_bounds as [U0 U1]. destruct et_bounds as [E0 E1].
  assert (AT : 0 <= a * t <= / 1000). { split; [apply Rmult_le_pos; lra|]. apply Rle_trans with (1000 * / 1000000); [apply Rmult_le_compat; lra|lra]. }
  assert (X : Rabs x <= 10 ^ 290) by (destruct M as [_ M]; eapply Rle_trans; [exact M|apply Rle_pow; [lra|auto]]).
  assert (X' : / 10 ^ 290 <= Rabs x) by (destruct M as [M _]; eapply Rle_trans; [apply ten_inv; exact L|exact M]).
  assert (Y : Rabs y <= 1001 / 1000 * Rabs x).
  { pose proof (close_abs _ _ _ H). assert (a * t * Rabs x <= / 1000 * Rabs x) by (apply Rmult_le_compat_r; [apply Rabs_pos|lra]). lra. }
  assert (Y' : Rabs y <= 10 ^ 300).
  { apply Rle_trans with (10 ^ 1 * 10 ^ 290); [apply Rle_trans with (1001 / 1000 * 10 ^ 290); [lra|apply Rmult_le_compat_r; [left; apply ten_pos|lra]]|]. rewrite <- pow_add. apply Rle_pow; [lra|lia]. }
  destruct (rnd y Y') as [F K]. exists (round64 y). split; auto. split; auto.
  assert (ET : et <= / 1000 * t * Rabs x).
  { assert (I3 : / 10 ^ 3 = / 1000) by (f_equal; ring). apply Rle_trans with (/ 10 ^ 3 * / 10 ^ 16 * / 10 ^ 290).
    - rewrite <- !Rinv_mult, <- !pow_add. eapply Rle_trans; [exact E1|]. apply ten_inv; lia.
    - pose proof (ten_inv_pos 3). pose proof (ten_inv_pos 16). pose proof (ten_inv_pos 290). pose proof u_low.
      apply Rmult_le_compat; lra. }
  assert (UY : u * Rabs y <= 1001 / 1000 * t * Rabs x).
  { apply Rle_trans with (t * (1001 / 1000 * Rabs x)); [|right; ring]. apply Rmult_le_compat; auto using Rabs_pos; lra. }
  replace (round64 y - x) with ((round64 y - y) + (y - x)) by ring. eapply Rle_trans; [apply Rabs_triang|].
  assert (W : (a + 1002 / 1000) * t * Rabs x <= r * t * Rabs x) by (apply Rmult_le_compat_r; [apply Rabs_pos|]; apply Rmult_le_compat_r; lra).
  lra.
Qed.
Lemma apx_mul a b r n m y x y' x' : apx t a n y x -> apx t b m y' x' -> 0 <= a -> 0 <= b -> 101 / 100 * (a + b + 2) <= r -> r <= 1000 -> (n + m <= 290)%nat ->
  exists z, fmul (Fin y) (Fin y') = Fin z /\ apx t r (n + m) z (x * x').
Proof.
  intros [M H] [M' H'] A B Hr Hr1 L. destruct t_bounds as [T0 T1]. unfold fmul. cbn [nmul fl_num].
  apply (round_apx (a + b + 1) r (n + m) (y * y') (x * x')); try lra; auto. split; [apply mag_mul; auto|].
  replace (y * y' - x * x') with ((y - x) * x' + x * (y' - x') + (y - x) * (y' - x')) by ring.
  eapply Rle_trans; [apply Rabs_triang|]. eapply Rle_trans; [apply Rplus_le_compat_r, Rabs_triang|]. rewrite !Rabs_mult.
  pose proof (Rabs_pos x) as X0. pose proof (Rabs_pos x') as X0'. set (X := Rabs x) in *. set (X' := Rabs x') in *.
  assert (K1 : Rabs (y - x) * X' <= a * t * X * X') by (apply Rmult_le_compat_r; auto).
  assert (K2 : X * Rabs (y' - x') <= X * (b * t * X')) by (apply Rmult_le_compat_l; auto).
  assert (AB : a * t * (b * t) <= 1 * t).
  { apply Rle_trans with (a * b * t * t); [right; ring|]. apply Rmult_le_compat_r; [lra|]. apply Rle_trans with (1000 * 1000 * / 1000000); [|lra].
    apply Rmult_le_compat; try lra; [apply Rmult_le_pos; auto|apply Rmult_le_compat; lra]. }
  assert (K3 : Rabs (y - x) * Rabs (y' - x') <= a * t * X * (b * t * X')) by (apply Rmult_le_compat; auto using Rabs_pos).
  assert (K4 : a * t * (b * t) * (X * X') <= 1 * t * (X * X')) by (apply Rmult_le_compat_r; [apply Rmult_le_pos; auto|auto]).
  lra.
Qed.
Lemma apx_div a b r n m y x y' x' : apx t a n y x -> apx t b m y' x' -> 0 <= a -> 0 <= b -> 101 / 100 * (a + b + 2) <= r -> r <= 900 -> (n + m <= 290)%nat ->
  exists z, fdiv (Fin y) (Fin y') = Fin z /\ apx t r (n + m) z (x / x').
Proof.
  intros [M H] [M' H'] A B Hr Hr1 L. destruct t_bounds as [T0 T1]. pose proof (mag_nonzero _ _ M') as N'.
  assert (BT : 0 <= b * t <= 9 / 10000). { split; [apply Rmult_le_pos; lra|]. apply Rle_trans with (900 * / 1000000); [apply Rmult_le_compat; lra|lra]. }
  pose proof (Rabs_pos_lt x' N') as X0'.
  assert (Y' : (1 - b * t) * Rabs x' <= Rabs y').
  { pose proof (Rabs_triang_inv x' (x' - y')) as T. replace (x' - (x' - y')) with y' in T by ring. rewrite (Rabs_minus_sym x' y') in T. lra. }
  assert (Y0 : 0 < Rabs y') by (eapply Rlt_le_trans; [|exact Y']; apply Rmult_lt_0_compat; lra).
  assert (Yn : y' <> 0) by (intros ->; rewrite Rabs_R0 in Y0; lra).
  unfold fdiv. cbn [ndiv]. destruct (Reqb_spec y' 0); [contradiction|]. cbn [fl_num].
  apply (round_apx (a + b + 1) r (n + m) (y / y') (x / x')); try lra; auto. split; [apply mag_div; auto|].
  replace (y / y' - x / x') with (((y - x) * x' - x * (y' - x')) / (y' * x')) by (field; auto).
  unfold Rdiv. rewrite !Rabs_mult, !Rabs_inv, Rabs_mult. set (X := Rabs x) in *. set (X' := Rabs x') in *.
  assert (K : Rabs ((y - x) * x' - x * (y' - x')) <= (a + b) * t * X * X').
  { unfold Rminus at 1. eapply Rle_trans; [apply Rabs_triang|]. rewrite Rabs_Ropp, !Rabs_mult. fold X X'.
    assert (K1 : Rabs (y - x) * X' <= a * t * X * X') by (apply Rmult_le_compat_r; lra).
    assert (K2 : X * Rabs (y' - x') <= X * (b * t * X')) by (apply Rmult_le_compat_l; auto; apply Rabs_pos). lra. }
  assert (X0 : 0 <= X) by apply Rabs_pos.
  apply Rmult_le_reg_r with (Rabs y' * X'); [apply Rmult_lt_0_compat; auto|].
  replace (Rabs ((y - x) * x' - x * (y' - x')) * / (Rabs y' * X') * (Rabs y' * X')) with (Rabs ((y - x) * x' - x * (y' - x'))) by (field; lra).
  replace ((a + b + 1) * t * (X * / X') * (Rabs y' * X')) with ((a + b + 1) * t * X * Rabs y') by (field; lra).
  eapply Rle_trans; [exact K|].
  apply Rle_trans with ((a + b + 1) * t * X * ((1 - b * t) * X')).
  - apply Rle_trans with ((a + b) * t * X * X'); [lra|].
    replace ((a + b + 1) * t * X * ((1 - b * t) * X')) with (((a + b + 1) * (1 - b * t)) * (t * X * X')) by ring. replace ((a + b) * t * X * X') with ((a + b) * (t * X * X')) by ring.
    apply Rmult_le_compat_r; [apply Rmult_le_pos; [apply Rmult_le_pos; lra|lra]|].
    assert ((a + b + 1) * (b * t) <= 900 * (9 / 10000)) by (apply Rmult_le_compat; lra). lra.
  - apply Rmult_le_compat_l; auto. apply Rmult_le_pos; [apply Rmult_le_pos; lra|auto].
Qed.
(** ** Powers *)
Lemma exp_small s : Rabs s <= / 10 -> Rabs (exp s - 1) <= 12 / 10 * Rabs s.
Proof.
  intros H. apply Rabs_le_inv in H || idtac. assert (H' : - / 10 <= s <= / 10) by (revert H; unfold Rabs; try destruct (Rcase_abs s); lra).
  pose proof (exp_ineq1_le s) as A. pose proof (exp_ineq1_le (- s)) as B. rewrite exp_Ropp in B.
  assert (P : 0 < exp s) by apply exp_pos.
  assert (C : exp s <= / (1 - s)). { rewrite <- (Rinv_inv (exp s)). apply Rinv_le_contravar; lra. }
  assert (D : / (1 - s) - 1 = s * / (1 - s)) by (field; lra).
  assert (I : / (11 / 10) <= / (1 - s) <= / (9 / 10)) by (split; apply Rinv_le_contravar; lra).
  destruct (Rle_dec 0 s) as [S|S].
  - rewrite !Rabs_pos_eq by lra. assert (s * / (1 - s) <= s * / (9 / 10)) by (apply Rmult_le_compat_l; lra). lra.
  - assert (exp s < 1) by (rewrite <- exp_0; apply exp_increasing; lra). rewrite !Rabs_left1 by lra. lra.
Qed.
Lemma power_perturbed x y p : 0 < x -> -5 <= p <= 0 -> Rabs (y - x) <= 12 / 10 * u * x -> 0 < y /\ Rabs (Rpower y p - Rpower x p) <= 75 / 10 * u * Rpower x p.
Proof.
  intros X P H. destruct u_bounds as [U0 U1]. assert (U2 : u <= / 1000) by (eapply Rle_trans; [exact U1|]; replace (/ 1000) with (/ 10 ^ 3) by (f_equal; ring); apply ten_inv; lia).
  assert (H' : - (12 / 10 * u * x) <= y - x <= 12 / 10 * u * x) by (revert H; unfold Rabs; destruct (Rcase_abs (y - x)); lra).
  assert (UX : u * x <= / 1000 * x) by (apply Rmult_le_compat_r; lra). assert (Y : 0 < y) by lra. split; auto.
  set (q := y / x). assert (Q : y = x * q) by (unfold q; field; lra).
  assert (Bq : - (12 / 10 * u) <= q - 1 <= 12 / 10 * u).
  { assert (E : q - 1 = (y - x) * / x) by (unfold q; field; lra). assert (Ix : 0 < / x) by (apply Rinv_0_lt_compat; auto).
    assert (F : 12 / 10 * u = 12 / 10 * u * x * / x) by (field; lra). rewrite E. split.
    - replace (- (12 / 10 * u)) with (- (12 / 10 * u * x) * / x) by (field; lra). apply Rmult_le_compat_r; lra.
    - rewrite F. apply Rmult_le_compat_r; lra. }
  assert (q0 : 0 < q) by lra.
  assert (L : Rabs (ln q) <= 123 / 100 * u).
  { assert (A : ln q <= q - 1). { pose proof (exp_ineq1_le (ln q)) as E. rewrite exp_ln in E by auto. lra. }
    assert (B : - ln q <= / q - 1). { rewrite <- ln_Rinv by auto. pose proof (exp_ineq1_le (ln (/ q))) as E. rewrite exp_ln in E by (apply Rinv_0_lt_compat; auto). lra. }
    assert (C : / q - 1 <= 123 / 100 * u).
    { replace (/ q - 1) with ((1 - q) * / q) by (field; lra). apply Rle_trans with (12 / 10 * u * / q); [apply Rmult_le_compat_r; [left; apply Rinv_0_lt_compat; auto|lra]|].
      assert (/ q <= / (99 / 100)) by (apply Rinv_le_contravar; lra). assert (12 / 10 * u * / q <= 12 / 10 * u * / (99 / 100)) by (apply Rmult_le_compat_l; lra). lra. }
    apply Rabs_le. lra. }
  assert (S : Rabs (p * ln q) <= 615 / 100 * u).
  { rewrite Rabs_mult. rewrite (Rabs_left1 p) by lra. apply Rle_trans with (5 * (123 / 100 * u)); [apply Rmult_le_compat; auto using Rabs_pos; lra|lra]. }
  rewrite Q, <- Rpower_mult_distr by auto. assert (PX : 0 < Rpower x p) by apply exp_pos.
  replace (Rpower x p * Rpower q p - Rpower x p) with ((Rpower q p - 1) * Rpower x p) by ring. rewrite Rabs_mult, (Rabs_pos_eq (Rpower x p)) by lra.
  apply Rmult_le_compat_r; [lra|]. unfold Rpower. pose proof (exp_small (p * ln q) ltac:(lra)). lra.
Qed.
Lemma usual_range x : usual x -> / 10 ^ 13 <= x <= 10 ^ 13.
Proof. intros [_ H]. assert (/ 10 ^ 13 <= / 10 ^ 6) by (apply ten_inv; lia). assert (10 ^ 6 <= 10 ^ 13) by (apply Rle_pow; [lra|lia]). lra. Qed.
Lemma usual_mag x : usual x -> mag 6 x.
Proof. intros [_ H]. now apply mag_pos. Qed.
Lemma usual_pos x : usual x -> 0 < x.
Proof. intros [_ H]. pose proof (ten_inv_pos 6). lra. Qed.
(** a power law at an energy *)
Lemma ratio_power pow e r p : accurate_power pow -> usual e -> usual r -> double p -> -5 <= p <= 0 ->
  exists y, pow (fdiv (Fin e) (Fin r)) (Fin p) = Fin y /\ apx t 10 60 y (Rpower (e / r) p).
Proof.
  intros HP E R D B. pose proof (usual_pos e E). pose proof (usual_pos r R). destruct u_bounds as [U0 U1]. destruct et_bounds as [T0 T1].
  assert (M : mag (6 + 6) (e / r)) by (apply mag_div; apply usual_mag; auto). cbn [Nat.add] in M.
  assert (X0 : 0 < e / r) by (apply Rdiv_lt_0_compat; auto). set (x := e / r) in *.
  assert (B12 : / 10 ^ 12 <= x <= 10 ^ 12) by (unfold mag in M; rewrite Rabs_pos_eq in M by lra; auto).
  assert (big : 10 ^ 12 <= 10 ^ 300) by (apply Rle_pow; [lra|lia]).
  destruct (rnd x) as [F K]; [rewrite Rabs_pos_eq; lra|]. rewrite (Rabs_pos_eq x) in K by lra.
  assert (ET : et <= / 10 * u * x).
  { assert (I1 : / 10 ^ 1 = / 10) by (f_equal; ring). apply Rle_trans with (/ 10 ^ 1 * / 10 ^ 16 * / 10 ^ 12).
    - rewrite <- !Rinv_mult, <- !pow_add. eapply Rle_trans; [exact T1|]. apply ten_inv; lia.
    - pose proof (ten_inv_pos 1). pose proof (ten_inv_pos 16). pose proof (ten_inv_pos 12). pose proof u_low.
      apply Rmult_le_compat; lra. }
  assert (K' : Rabs (round64 x - x) <= 12 / 10 * u * x) by (assert (0 < u * x) by (apply Rmult_lt_0_compat; auto); lra).
  destruct (power_perturbed x (round64 x) p X0 B K') as [Y0 Y]. set (y := round64 x) in *.
  assert (U2 : u <= / 1000) by (eapply Rle_trans; [exact U1|]; replace (/ 1000) with (/ 10 ^ 3) by (f_equal; ring); apply ten_inv; lia).
  assert (Yr : / 10 ^ 13 <= y <= 10 ^ 13).
  { assert (K2 : - (12 / 10 * u * x) <= y - x <= 12 / 10 * u * x) by (revert K'; unfold Rabs; destruct (Rcase_abs (y - x)); lra).
    assert (u * x <= / 1000 * x) by (apply Rmult_le_compat_r; lra).
    assert (E13 : 10 ^ 13 = 10 * 10 ^ 12) by ring. assert (I13 : / 10 ^ 13 = / 10 * / 10 ^ 12) by (rewrite E13, Rinv_mult; auto). lra. }
  assert (Dy : double y) by (apply double_round; pose proof fmax_300; rewrite Rabs_pos_eq; lra).
  destruct (HP y p Dy Yr D B) as (z & Ez & Kz). exists z. split.
  - unfold fdiv. cbn [ndiv]. destruct (Reqb_spec r 0); [lra|]. cbn [fl_num]. fold x. rewrite F. auto.
  - assert (PX : 0 < Rpower x p) by apply exp_pos. assert (PY : 0 < Rpower y p) by apply exp_pos.
    split; [apply mag_pos, (power_bounds x p 12 5); auto; cbn; lra|]. rewrite (Rabs_pos_eq (Rpower x p)) by lra.
    assert (Yle : Rpower y p <= 11 / 10 * Rpower x p).
    { pose proof (close_abs _ _ _ Y) as C. rewrite !Rabs_pos_eq in C by lra. assert (75 / 10 * u * Rpower x p <= / 10 * Rpower x p) by (apply Rmult_le_compat_r; lra). lra. }
    assert (Zb : Rabs (z - Rpower y p) <= 22 / 10 * u * Rpower x p).
    { eapply Rle_trans; [exact Kz|]. apply Rle_trans with (2 * u * (11 / 10 * Rpower x p)); [apply Rmult_le_compat_l; lra|lra]. }
    replace (z - Rpower x p) with ((z - Rpower y p) + (Rpower y p - Rpower x p)) by ring. eapply Rle_trans; [apply Rabs_triang|].
    assert (W : u * Rpower x p <= t * Rpower x p) by (apply Rmult_le_compat_r; lra). assert (0 < u * Rpower x p) by (apply Rmult_lt_0_compat; lra). lra.
Qed.
Lemma call_apx pow norm' norm U index e_ref e a n r : accurate_power pow -> usual e -> usual e_ref -> double index -> -5 <= index <= 0 ->
  apx t a n norm' norm -> 0 <= a -> 101 / 100 * (a + 12) <= r -> r <= 900 -> (n + 60 <= 290)%nat ->
  exists y, power_law_call_double pow (mkPL (Fin norm') U index e_ref) (Fin e) = Fin y /\ apx t r (n + 60) y (power_law_flux norm index e_ref e).
Proof.
  intros HP E R D B N A Hr Hr1 L. destruct (ratio_power pow e e_ref index HP E R D B) as (y & Ey & Ay).
  unfold power_law_call_double. cbv zeta. cbn [pl_norm pl_index pl_e_ref]. rewrite Ey. apply (apx_mul a 10 r n 60); auto; lra.
Qed.
(** ** The simulated spectrum *)
Lemma delta_apx pow s : accurate_power pow -> usual (energy_min s) -> usual (energy_max s) -> energy_min s < energy_max s -> double (spectral_index s) -> -5 <= spectral_index s < -1 ->
  / 10 ^ 8 <= contrast (spectral_index s) (energy_min s) (energy_max s) -> u / contrast (spectral_index s) (energy_min s) (energy_max s) <= t ->
  exists z, fsub (pow (Fin (energy_max s)) (Fin (spectral_index s + 1))) (pow (Fin (energy_min s)) (Fin (spectral_index s + 1))) = Fin z /\
    apx t (63 / 10) 32 z (Rpower (energy_max s) (spectral_index s + 1) - Rpower (energy_min s) (spectral_index s + 1)).
Proof.
  intros HP Emin Emax L Di Bi. destruct (index_plus_one _ Di Bi) as [_ Dp]. unfold contrast. set (p := spectral_index s + 1) in *. set (emin := energy_min s) in *. set (emax := energy_max s) in *.
  assert (P : -4 <= p < 0) by (unfold p; lra). pose proof (usual_pos _ Emin). pose proof (usual_pos _ Emax).
  pose proof (contrast_powers p emin emax ltac:(auto) ltac:(auto)) as CP. set (c := 1 - Rpower (emax / emin) p) in *. intros HC HT.
  destruct (shares p emin emax emin emax) as [_ S3]; auto; try lra.
  destruct (u_contrast c HC) as [U6 _]. destruct u_bounds as [U0 U1]. destruct et_bounds as [E0 E1]. destruct t_bounds as [T0 T1].
  assert (I8 : 0 < / 10 ^ 8) by (apply Rinv_0_lt_compat, pow_lt; lra). assert (c0 : 0 < c) by lra.
  assert (Cle : c <= 1). { unfold c. assert (0 < Rpower (emax / emin) p) by apply exp_pos. lra. }
  assert (MM : / 10 ^ 24 <= Rpower emin p <= 10 ^ 24) by (apply (power_bounds emin p 6 4); [apply Emin|cbn; lra]). set (M := Rpower emin p) in *.
  assert (M0 : 0 < M) by apply exp_pos. assert (X0 : 0 < Rpower emax p) by apply exp_pos.
  destruct (HP emax p (proj1 Emax) (usual_range _ Emax) Dp ltac:(lra)) as (x' & Ex & Kx). destruct (HP emin p (proj1 Emin) (usual_range _ Emin) Dp ltac:(lra)) as (y' & Ey & Ky). fold M in Ky.
  rewrite Ex, Ey.
  assert (U2 : u <= / 1000) by (eapply Rle_trans; [exact U1|]; replace (/ 1000) with (/ 10 ^ 3) by (f_equal; ring); apply ten_inv; lia).
  assert (UM : u * M <= / 1000 * M) by (apply Rmult_le_compat_r; lra). assert (UM0 : 0 < u * M) by (apply Rmult_lt_0_compat; lra).
  assert (KM : 2 * u * Rpower emax p <= 2 * u * M) by (apply Rmult_le_compat_l; lra).
  assert (big : 10 ^ 25 <= 10 ^ 100) by (apply Rle_pow; [lra|lia]). assert (T25 : 10 ^ 25 = 10 * 10 ^ 24) by ring.
  destruct (approx_sub (Rpower emax p) M x' y' (4 * u * M)) as (z & Ez & Kz); [lra|rewrite !Rabs_pos_eq by lra; lra|].
  exists z. split; auto. rewrite (Rabs_pos_eq (Rpower emax p)), (Rabs_pos_eq M) in Kz by lra.
  assert (Et : et <= u * M * / 100).
  { apply Rle_trans with (/ 10 ^ 16 * / 10 ^ 24 * / 10 ^ 2).
    - rewrite <- !Rinv_mult, <- !pow_add. eapply Rle_trans; [exact E1|]. apply ten_inv; lia.
    - replace (/ 10 ^ 2) with (/ 100) by (f_equal; ring). apply Rmult_le_compat_r; [lra|]. pose proof u_low. pose proof (ten_inv_pos 16). pose proof (ten_inv_pos 24). apply Rmult_le_compat; lra. }
  assert (W : u * (Rpower emax p + M + 4 * u * M) <= u * (M + M + / 100 * M)) by (apply Rmult_le_compat_l; lra).
  assert (R : Rabs (Rpower emax p - M) = M * c) by (rewrite Rabs_left1 by lra; lra).
  split.
  - unfold mag. rewrite R. pose proof (ten_inv_pos 24). split.
    + apply Rle_trans with (/ 10 ^ 24 * / 10 ^ 8); [rewrite <- Rinv_mult, <- pow_add; apply ten_inv; lia|apply Rmult_le_compat; lra].
    + apply Rle_trans with (10 ^ 24 * 1); [apply Rmult_le_compat; lra|]. rewrite Rmult_1_r. apply Rle_pow; [lra|lia].
  - rewrite R. assert (V : u * M <= t * (M * c)).
    { replace (t * (M * c)) with (t * c * M) by ring. apply Rmult_le_compat_r; [lra|]. replace u with (u / c * c) at 1 by (field; lra). apply Rmult_le_compat_r; lra. }
    lra.
Qed.
Lemma pi_apx : exists q, fl PI = Fin q /\ apx t (11 / 10) 1 q PI.
Proof.
  pose proof PI_4. pose proof PI2_1. destruct (round_apx 0 (11 / 10) 1 PI PI) as (z & E & A); try lra; try lia; eauto. apply apx_exact, mag_pos. lra.
Qed.
Lemma cone_apx cosine vmin vmax : accurate_cos cosine -> double vmin -> double vmax -> 0 <= vmin -> vmin < vmax -> vmax <= PI -> / 10 ^ 8 <= cos vmin - cos vmax -> u / (cos vmin - cos vmax) <= t ->
  exists z, fsub (cone_solid_angle_rad_double cosine vmax) (cone_solid_angle_rad_double cosine vmin) = Fin z /\ apx t 34 9 z (2 * PI * (cos vmin - cos vmax)).
Proof.
  intros HC D1 D2 B1 L B2 HD HT. set (d := cos vmin - cos vmax) in *. destruct u_bounds as [U0 U1]. destruct et_bounds as [E0 E1]. destruct t_bounds as [T0 T1].
  pose proof PI_4 as P4. pose proof PI2_1 as P2. assert (P3 : 3 <= PI) by (pose proof PI2_3_2; lra).
  assert (U2 : u <= / 100000) by (eapply Rle_trans; [exact U1|]; replace (/ 100000) with (/ 10 ^ 5) by (f_equal; ring); apply ten_inv; lia).
  assert (ET : et <= u * / 100).
  { apply Rle_trans with (/ 10 ^ 18); [eapply Rle_trans; [exact E1|apply ten_inv; lia]|]. pose proof u_low.
    apply Rle_trans with (/ 10 ^ 16 * / 100); [|apply Rmult_le_compat_r; lra]. rewrite <- Rinv_mult. right. f_equal. ring. }
  assert (big : 100 <= 10 ^ 100) by (apply Rle_trans with (10 ^ 2); [lra|apply Rle_pow; [lra|lia]]). assert (big' : 100 <= 10 ^ 300) by (apply Rle_trans with (10 ^ 2); [lra|apply Rle_pow; [lra|lia]]).
  destruct (rnd PI) as [Fp Kp]; [rewrite Rabs_pos_eq; lra|]. rewrite (Rabs_pos_eq PI) in Kp by lra. set (q := round64 PI) in *.
  assert (Kp' : u * PI <= u * 4) by (apply Rmult_le_compat_l; lra).
  assert (Q : - (41 / 10 * u) <= q - PI <= 41 / 10 * u) by (revert Kp; unfold Rabs; destruct (Rcase_abs (q - PI)); lra).
  destruct (rnd (2 * q)) as [F2 K2]; [rewrite Rabs_pos_eq; lra|]. rewrite (Rabs_pos_eq (2 * q)) in K2 by lra. set (T := round64 (2 * q)) in *.
  assert (K2' : u * (2 * q) <= u * (81 / 10)) by (apply Rmult_le_compat_l; lra).
  assert (HT2 : Rabs (T - 2 * PI) <= 164 / 10 * u).
  { replace (T - 2 * PI) with ((T - 2 * q) + 2 * (q - PI)) by ring. eapply Rle_trans; [apply Rabs_triang|]. rewrite (Rabs_mult 2), (Rabs_pos_eq 2) by lra.
    assert (Rabs (q - PI) <= 41 / 10 * u) by (apply Rabs_le; lra). lra. }
  assert (TT : Rabs T <= 81 / 10) by (pose proof (close_abs _ _ _ HT2) as C; rewrite (Rabs_pos_eq (2 * PI)) in C by lra; lra).
  assert (Om : forall v, double v -> 0 <= v <= PI -> exists z, cone_solid_angle_rad_double cosine v = Fin z /\ Rabs (z - 2 * PI * (1 - cos v)) <= 85 * u).
  { intros v Dv Bv. destruct (HC v ltac:(lra) Dv) as (x & Ex & Kx). pose proof (COS_bound v) as CB.
    destruct (approx_sub 1 (cos v) 1 x (2 * u)) as (w & Ew & Kw); [rewrite Rminus_diag_eq, Rabs_R0 by auto; lra|rewrite (Rabs_pos_eq 1) by lra; assert (Rabs (cos v) <= 1) by (apply Rabs_le; lra); lra|].
    assert (Kw' : Rabs (w - (1 - cos v)) <= 41 / 10 * u).
    { assert (C1 : Rabs (cos v) <= 1) by (apply Rabs_le; lra). rewrite (Rabs_pos_eq 1) in Kw by lra.
      assert (u * (1 + Rabs (cos v) + 2 * u) <= u * (201 / 100)) by (apply Rmult_le_compat_l; lra). lra. }
    assert (W : Rabs w <= 21 / 10) by (pose proof (close_abs _ _ _ Kw') as C; rewrite (Rabs_pos_eq (1 - cos v)) in C by lra; lra).
    assert (PB : Rabs (T * w) <= 18) by (rewrite Rabs_mult; apply Rle_trans with (81 / 10 * (21 / 10)); [apply Rmult_le_compat; auto using Rabs_pos|lra]).
    destruct (rnd (T * w)) as [Fz Kz]; [lra|]. exists (round64 (T * w)). split.
    - unfold cone_solid_angle_rad_double. rewrite Fp, Ex. change (fmul (Fin 2) (Fin q)) with (fl (2 * q)). rewrite F2. fold T. rewrite Ew. exact Fz.
    - assert (u * Rabs (T * w) <= u * 18) by (apply Rmult_le_compat_l; lra).
      replace (round64 (T * w) - 2 * PI * (1 - cos v)) with ((round64 (T * w) - T * w) + ((T - 2 * PI) * (1 - cos v) + T * (w - (1 - cos v)))) by ring.
      eapply Rle_trans; [apply Rabs_triang|]. eapply Rle_trans; [apply Rplus_le_compat_l, Rabs_triang|]. rewrite !Rabs_mult.
      assert (A1 : Rabs (T - 2 * PI) * Rabs (1 - cos v) <= 164 / 10 * u * 2) by (apply Rmult_le_compat; auto using Rabs_pos; rewrite Rabs_pos_eq; lra).
      assert (A2 : Rabs T * Rabs (w - (1 - cos v)) <= 81 / 10 * (41 / 10 * u)) by (apply Rmult_le_compat; auto using Rabs_pos). lra. }
  destruct (Om vmax D2 ltac:(lra)) as (x & Ex & Kx). destruct (Om vmin D1 ltac:(lra)) as (y & Ey & Ky). rewrite Ex, Ey.
  assert (C2 : 0 <= 1 - cos vmax <= 2) by (pose proof (COS_bound vmax); lra). assert (C1 : 0 <= 1 - cos vmin <= 2) by (pose proof (COS_bound vmin); lra).
  assert (S2 : 0 <= 2 * PI * (1 - cos vmax) <= 16) by (split; [apply Rmult_le_pos; lra|apply Rle_trans with (2 * PI * 2); [apply Rmult_le_compat_l; lra|lra]]).
  assert (S1 : 0 <= 2 * PI * (1 - cos vmin) <= 16) by (split; [apply Rmult_le_pos; lra|apply Rle_trans with (2 * PI * 2); [apply Rmult_le_compat_l; lra|lra]]).
  destruct (approx_sub (2 * PI * (1 - cos vmax)) (2 * PI * (1 - cos vmin)) x y (170 * u)) as (z & Ez & Kz); [lra|rewrite !Rabs_pos_eq by lra; lra|].
  exists z. split; auto. rewrite (Rabs_pos_eq (2 * PI * (1 - cos vmax))), (Rabs_pos_eq (2 * PI * (1 - cos vmin))) in Kz by lra.
  replace (2 * PI * (1 - cos vmax) - 2 * PI * (1 - cos vmin)) with (2 * PI * d) in Kz by (unfold d; ring).
  assert (W : u * (2 * PI * (1 - cos vmax) + 2 * PI * (1 - cos vmin) + 170 * u) <= u * 33) by (apply Rmult_le_compat_l; lra).
  assert (I8 : 0 < / 10 ^ 8) by apply ten_inv_pos. assert (d0 : 0 < d <= 2) by (split; [lra|unfold d; lra]).
  assert (Pd : 6 * d <= 2 * PI * d <= 16) by (split; [apply Rmult_le_compat_r; lra|apply Rle_trans with (2 * PI * 2); [apply Rmult_le_compat_l; lra|lra]]).
  split.
  - apply mag_pos. assert (10 ^ 9 = 10 * 10 ^ 8) by ring. assert (/ 10 ^ 9 <= / 10 ^ 8) by (apply ten_inv; lia). assert (16 <= 10 ^ 9) by (apply Rle_trans with (10 ^ 2); [lra|apply Rle_pow; [lra|lia]]). lra.
  - rewrite (Rabs_pos_eq (2 * PI * d)) by lra.
    assert (V : u <= t * d). { replace u with (u / d * d) at 1 by (field; lra). apply Rmult_le_compat_r; lra. }
    assert (V2 : 34 * t * (6 * d) <= 34 * t * (2 * PI * d)) by (apply Rmult_le_compat_l; lra). lra.
Qed.
End Errors.
(** ** Weights *)
Definition amount (s : sim_info) (omega l : R) : Prop := simulated_solid_angle s omega /\ loss s l.
Lemma simulated_norm pow cosine s obstime e_ref omega l : accurate_power pow -> accurate_cos cosine -> usual_simulation s -> sized 8 obstime -> usual e_ref ->
  simulated_solid_angle s omega -> loss s l ->
  let p := spectral_index s + 1 in
  let norm := p * Rpower e_ref (spectral_index s) * IZR (n_showers s) / (PI * (max_impact s * max_impact s) * obstime * omega * (Rpower (energy_max s) p - Rpower (energy_min s) p)) in
  u <= u * l /\ u * l <= / 10 ^ 6 /\
  exists z U, from_simulation_double pow cosine s obstime e_ref = Ok (mkPL (Fin z) U (spectral_index s) e_ref) /\
    (U = Diffuse <-> viewcone_min s < viewcone_max s) /\ apx (u * l) 62 128 z norm.
Proof.
  intros HP HC (Emin & Emax & L & Di & Bi & Con & Imp & Nn & D1 & D2 & B1 & B2 & Cone) Ob Er Om Lo p norm.
  destruct u_bounds as [U0 U1]. destruct (u_contrast _ Con) as [U6 _]. set (c := contrast (spectral_index s) (energy_min s) (energy_max s)) in *.
  assert (I8 : 0 < / 10 ^ 8) by apply ten_inv_pos. assert (c0 : 0 < c) by lra. assert (I6 : / 10 ^ 6 = / 1000000) by (f_equal; ring).
  assert (c1 : c <= 1) by (unfold c, contrast; pose proof (exp_pos ((spectral_index s + 1) * ln (energy_max s / energy_min s))); unfold Rpower; lra).
  assert (ic : 1 <= / c) by (rewrite <- Rinv_1; apply Rinv_le_contravar; lra).
  replace (62 / 10 * u / c) with (62 / 10 * (u * / c)) in U6 by (unfold Rdiv; ring).
  assert (uc : u <= u * / c) by (rewrite <- (Rmult_1_r u) at 1; apply Rmult_le_compat_l; lra).
  assert (Lt : u <= u * l /\ u * l <= / 10 ^ 6 /\ u / c <= u * l /\ (viewcone_min s < viewcone_max s -> u / (cos (viewcone_min s) - cos (viewcone_max s)) <= u * l)).
  { unfold Rdiv. destruct Lo as [[V ->]|[V ->]].
    - fold c. repeat split; try lra.
    - fold c. destruct Cone as [W|[_ W]]; [lra|]. set (d := cos (viewcone_min s) - cos (viewcone_max s)) in *.
      destruct (u_contrast d W) as [D6 _]. replace (62 / 10 * u / d) with (62 / 10 * (u * / d)) in D6 by (unfold Rdiv; ring).
      assert (0 < / d) by (apply Rinv_0_lt_compat; lra). assert (0 < u * / d) by (apply Rmult_lt_0_compat; auto). rewrite Rmult_plus_distr_l. repeat split; try lra. }
  destruct Lt as (TU & T6 & TC & TD). split; auto. split; auto. set (t := u * l) in *.
  destruct (index_plus_one _ Di Bi) as [Ei Dp]. fold p in Ei, Dp. assert (P : -4 <= p < 0) by (unfold p; lra).
  pose proof (usual_pos _ Emin) as P1. pose proof (usual_pos _ Emax) as P2. pose proof (usual_pos _ Er) as P3. pose proof (usual_pos _ Imp) as P4.
  (* numbers *)
  destruct (pi_apx t TU T6) as (q & Fq & Aq).
  destruct (apx_mul t TU T6 0 0 (21 / 10) 6 6 _ _ _ _ (apx_exact t _ _ (usual_mag _ Imp)) (apx_exact t _ _ (usual_mag _ Imp))) as (r2 & Fr & Ar); try lra; try lia.
  destruct (apx_mul t TU T6 (11 / 10) (21 / 10) (53 / 10) 1 12 _ _ _ _ Aq Ar) as (A & FA & AA); try lra; try lia.
  destruct Ob as [_ Ob]. apply mag_pos in Ob.
  destruct (apx_mul t TU T6 (53 / 10) 0 (74 / 10) 13 8 _ _ _ _ AA (apx_exact t _ _ Ob)) as (At & FAt & AAt); try lra; try lia.
  assert (Sol : exists w U, (if Rltb 0 (viewcone_max s - viewcone_min s)
      then (fsub (cone_solid_angle_rad_double cosine (viewcone_max s)) (cone_solid_angle_rad_double cosine (viewcone_min s)), Diffuse)
      else (Fin 1, PointSource)) = (Fin w, U) /\ (U = Diffuse <-> viewcone_min s < viewcone_max s) /\ apx t 34 9 w omega).
  { destruct Om as [[V ->]|[V ->]].
    - destruct (Rltb_spec 0 (viewcone_max s - viewcone_min s)); [lra|]. exists 1, PointSource. split; auto. split; [split; [discriminate|lra]|].
      apply (apx_more t TU T6 0 34 0 9); [lra|lia|]. apply apx_exact; auto. apply mag_pos. cbn. lra.
    - destruct (Rltb_spec 0 (viewcone_max s - viewcone_min s)); [|lra]. destruct Cone as [W|[_ W]]; [lra|].
      destruct (cone_apx t TU T6 cosine (viewcone_min s) (viewcone_max s) HC D1 D2 B1 V B2 W (TD V)) as (w & Fw & Aw).
      exists w, Diffuse. rewrite Fw. split; auto. split; auto. split; auto. }
  destruct Sol as (w & U & Fw & HU & Aw).
  destruct (apx_mul t TU T6 (74 / 10) 34 44 21 9 _ _ _ _ AAt Aw) as (Ats & FAts & AAts); try lra; try lia.
  destruct (delta_apx t TU T6 pow s HP Emin Emax L Di Bi Con TC) as (dl & Fd & Ad). fold p in Fd, Ad.
  destruct (apx_mul t TU T6 44 (63 / 10) 53 30 32 _ _ _ _ AAts Ad) as (dn & Fdn & Adn); try lra; try lia.
  assert (Mp : mag 20 p).
  { pose proof (contrast_powers p (energy_min s) (energy_max s) P1 P2) as CP. change (1 - Rpower (energy_max s / energy_min s) p) with c in CP.
    assert (Cp : c <= - p * (energy_max s / energy_min s)).
    { assert (Q : 0 < energy_max s / energy_min s) by (apply Rdiv_lt_0_compat; auto). unfold c, contrast. fold p. set (q' := energy_max s / energy_min s) in *.
      unfold Rpower. pose proof (exp_ineq1_le (p * ln q')) as X. pose proof (exp_ineq1_le (ln q')) as Y. rewrite exp_ln in Y by auto.
      assert (- p * ln q' <= - p * q') by (apply Rmult_le_compat_l; lra). lra. }
    assert (Q12 : energy_max s / energy_min s <= 10 ^ 12).
    { pose proof (mag_div 6 6 _ _ (usual_mag _ Emax) (usual_mag _ Emin)) as [_ M]. rewrite Rabs_pos_eq in M; auto. left. apply Rdiv_lt_0_compat; auto. }
    assert (C2 : / 10 ^ 8 <= - p * 10 ^ 12) by (assert (- p * (energy_max s / energy_min s) <= - p * 10 ^ 12) by (apply Rmult_le_compat_l; lra); lra).
    unfold mag. rewrite Rabs_left1 by lra. split.
    - replace (10 ^ 20) with (10 ^ 8 * 10 ^ 12) by ring. rewrite Rinv_mult. pose proof (ten_pos 12). apply Rmult_le_reg_r with (10 ^ 12); auto. rewrite Rmult_assoc, Rinv_l, Rmult_1_r by lra. auto.
    - apply Rle_trans with (10 ^ 1); [lra|apply Rle_pow; [lra|lia]]. }
  assert (Ae : exists y, pow (Fin e_ref) (Fin (spectral_index s)) = Fin y /\ apx t 2 30 y (Rpower e_ref (spectral_index s))).
  { destruct (HP e_ref (spectral_index s) (proj1 Er) (usual_range _ Er) Di ltac:(lra)) as (y & Fy & Ky). exists y. split; auto.
    assert (0 < Rpower e_ref (spectral_index s)) by apply exp_pos. split; [apply mag_pos, (power_bounds e_ref _ 6 5); [apply Er|cbn; lra]|]. rewrite (Rabs_pos_eq (Rpower _ _)) by lra.
    eapply Rle_trans; [exact Ky|]. apply Rmult_le_compat_r; lra. }
  destruct Ae as (y & Fy & Ay).
  destruct (apx_mul t TU T6 0 2 (41 / 10) 20 30 _ _ _ _ (apx_exact t _ _ Mp) Ay) as (n1 & Fn1 & An1); try lra; try lia.
  assert (Mn : mag 16 (IZR (n_showers s))).
  { assert (N1 : 1 <= IZR (n_showers s)) by (apply IZR_le; lia). assert (N2 : IZR (n_showers s) <= 9007199254740992) by (apply IZR_le; lia). apply mag_pos. split.
    - apply Rle_trans with (/ 10 ^ 0); [apply ten_inv; lia|cbn; lra].
    - apply Rle_trans with 9007199254740992; [auto|]. rewrite pow_IZR. apply IZR_le. vm_compute. discriminate. }
  destruct (apx_mul t TU T6 (41 / 10) 0 (62 / 10) 50 16 _ _ _ _ An1 (apx_exact t _ _ Mn)) as (n2 & Fn2 & An2); try lra; try lia.
  destruct (apx_div t TU T6 (62 / 10) 53 62 66 62 _ _ _ _ An2 Adn) as (z & Fz & Az); try lra; try lia.
  exists z, U. split; [|split; [exact HU|exact Az]].
  unfold from_simulation_double. cbv zeta. rewrite Fw, Fq, Ei, Fr, FA, FAt, FAts, Fd, Fdn, Fy, Fn1. unfold nz. rewrite Fn2, Fz.
  unfold power_law_init. destruct (Rltb_spec 0 (spectral_index s)); [lra|]. reflexivity.
Qed.
Lemma flux_of_norm s obstime e_ref omega e : usual e_ref -> usual e -> double (spectral_index s) -> usual (max_impact s) -> 0 < obstime -> omega <> 0 ->
  Rpower (energy_max s) (spectral_index s + 1) - Rpower (energy_min s) (spectral_index s + 1) <> 0 ->
  power_law_flux ((spectral_index s + 1) * Rpower e_ref (spectral_index s) * IZR (n_showers s) /
    (PI * (max_impact s * max_impact s) * obstime * omega * (Rpower (energy_max s) (spectral_index s + 1) - Rpower (energy_min s) (spectral_index s + 1)))) (spectral_index s) e_ref e =
  simulated_flux s obstime omega e.
Proof.
  intros R E _ I T O D. pose proof (usual_pos _ R). pose proof (usual_pos _ E). pose proof (usual_pos _ I). pose proof PI_RGT_0.
  unfold power_law_flux, simulated_flux. cbv zeta.
  assert (X : Rpower e (spectral_index s) = Rpower e_ref (spectral_index s) * Rpower (e / e_ref) (spectral_index s)).
  { rewrite Rpower_mult_distr; auto; [f_equal; field; lra|apply Rdiv_lt_0_compat; auto]. }
  rewrite X. field. repeat split; auto; lra.
Qed.
Lemma delta_negative s : usual_simulation s -> Rpower (energy_max s) (spectral_index s + 1) - Rpower (energy_min s) (spectral_index s + 1) < 0.
Proof.
  intros (Emin & Emax & L & Di & Bi & _). pose proof (usual_pos _ Emin). pose proof (power_decreases' (energy_min s) (energy_max s) (spectral_index s + 1) ltac:(auto) L ltac:(lra)). lra.
Qed.
Lemma omega_positive s omega : usual_simulation s -> simulated_solid_angle s omega -> 0 < omega.
Proof.
  intros (_ & _ & _ & _ & _ & _ & _ & _ & _ & _ & _ & _ & Cone) [[V ->]|[V ->]]; [lra|]. destruct Cone as [W|[_ W]]; [lra|]. pose proof (ten_inv_pos 8). pose proof PI_RGT_0.
  apply Rmult_lt_0_compat; lra.
Qed.
Theorem c96_simulated_flux pow cosine s obstime e_ref omega l : accurate_power pow -> accurate_cos cosine -> usual_simulation s -> sized 8 obstime -> usual e_ref ->
  simulated_solid_angle s omega -> loss s l ->
  exists sim, from_simulation_double pow cosine s obstime e_ref = Ok sim /\ pl_index sim = spectral_index s /\ pl_e_ref sim = e_ref /\ (pl_unit sim = Diffuse <-> viewcone_min s < viewcone_max s) /\
  forall e, usual e -> exists f, power_law_call_double pow sim (Fin e) = Fin f /\ Rabs (f - simulated_flux s obstime omega e) <= 75 * (u * l) * Rabs (simulated_flux s obstime omega e).
Proof.
  intros HP HC US Ob Er Om Lo. destruct (simulated_norm pow cosine s obstime e_ref omega l HP HC US Ob Er Om Lo) as (TU & T6 & z & U & E & HU & A).
  exists (mkPL (Fin z) U (spectral_index s) e_ref). cbn [pl_index pl_e_ref pl_unit]. repeat (split; [auto; apply HU|]).
  intros e He. pose proof (delta_negative s US) as DN. pose proof (omega_positive s omega US Om) as OP. destruct US as (_ & _ & _ & Di & Bi & _ & Imp & _).
  destruct (call_apx (u * l) TU T6 pow z _ U (spectral_index s) e_ref e 62 128 75 HP He Er Di ltac:(lra) A) as (y & Ey & [_ Ay]); try lra; try lia.
  exists y. split; auto. rewrite (flux_of_norm s obstime e_ref omega e) in Ay; auto; try lra. destruct Ob as [_ Ob]. pose proof (ten_inv_pos 8). lra.
Qed.
Theorem c96_weights pow cosine s obstime e_ref omega l norm U index t_ref energies : accurate_power pow -> accurate_cos cosine -> usual_simulation s -> sized 8 obstime -> usual e_ref ->
  simulated_solid_angle s omega -> loss s l ->
  sized 30 norm -> double index -> -5 <= index <= 0 -> usual t_ref -> (forall e, In e energies -> usual e) ->
  exists sim, from_simulation_double pow cosine s obstime e_ref = Ok sim /\
  (~ (U = Diffuse <-> viewcone_min s < viewcone_max s) ->
    calculate_event_weights_double pow (map Fin energies) (mkPL (Fin norm) U index t_ref) sim = Err UnitConversionError) /\
  ((U = Diffuse <-> viewcone_min s < viewcone_max s) ->
    exists ws, calculate_event_weights_double pow (map Fin energies) (mkPL (Fin norm) U index t_ref) sim = Ok ws /\ length ws = length energies /\
    forall i e, nth_error energies i = Some e -> exists w, nth_error ws i = Some (Fin w) /\
      let weight := power_law_flux norm index t_ref e / simulated_flux s obstime omega e in
      0 < weight /\ Rabs (w - weight) <= 100 * eps53 * l * weight).
Proof.
  intros HP HC US Ob Er Om Lo Hn Di' Bi' Tr He. destruct (simulated_norm pow cosine s obstime e_ref omega l HP HC US Ob Er Om Lo) as (TU & T6 & z & V & E & HV & A).
  exists (mkPL (Fin z) V (spectral_index s) e_ref). split; auto. unfold calculate_event_weights_double. cbn [pl_unit]. split.
  - intros N. destruct U, V; cbn [unit_eqb]; auto; exfalso; apply N; auto.
  - intros HU. assert (UV : unit_eqb U V = true).
    { destruct U, V; cbn [unit_eqb]; auto; exfalso; [assert (X : Diffuse = Diffuse) by auto; apply HV, HU in X; discriminate|assert (X : Diffuse = Diffuse) by auto; apply HU, HV in X; discriminate]. }
    rewrite UV. eexists. split; [reflexivity|]. split; [rewrite !map_length; auto|].
    intros i e Hi. pose proof (He e (nth_error_In _ _ Hi)) as Ue.
    pose proof (delta_negative s US) as DN. pose proof (omega_positive s omega US Om) as OP.
    assert (Nn : 0 < IZR (n_showers s)). { destruct US as (_ & _ & _ & _ & _ & _ & _ & Nn & _). apply IZR_lt. lia. }
    destruct US as (_ & _ & _ & Di & Bi & _ & Imp & _).
    assert (OB : 0 < obstime) by (destruct Ob as [_ Ob]; pose proof (ten_inv_pos 8); lra).
    destruct (call_apx (u * l) TU T6 pow z _ V (spectral_index s) e_ref e 62 128 75 HP Ue Er Di ltac:(lra) A) as (y & Ey & Ay); try lra; try lia.
    rewrite (flux_of_norm s obstime e_ref omega e) in Ay; auto; try lra.
    destruct (call_apx (u * l) TU T6 pow norm norm U index t_ref e 0 30 13 HP Ue Tr Di' Bi' (apx_exact _ _ _ (mag_pos _ _ (proj2 Hn)))) as (x & Ex & Ax); try lra; try lia.
    destruct (apx_div (u * l) TU T6 13 75 100 90 188 _ _ _ _ Ax Ay) as (w & Fw & [Mw Aw]); try lra; try lia.
    exists w. split.
    + rewrite map_map. rewrite nth_error_map, Hi. cbn [option_map]. rewrite Ex, Ey, Fw. reflexivity.
    + cbv zeta. assert (W : 0 < power_law_flux norm index t_ref e / simulated_flux s obstime omega e).
      { apply Rdiv_lt_0_compat.
        - unfold power_law_flux. apply Rmult_lt_0_compat; [destruct Hn as [_ Hn]; pose proof (ten_inv_pos 30); lra|apply exp_pos].
        - unfold simulated_flux. cbv zeta. pose proof PI_RGT_0. pose proof (usual_pos _ Imp).
          assert (PI2 : 0 < max_impact s ^ 2) by (apply pow_lt; auto).
          apply Rdiv_lt_0_compat; [apply Rmult_lt_0_compat; auto|apply Rmult_lt_0_compat; auto; apply Rmult_lt_0_compat; auto; apply Rmult_lt_0_compat; auto].
          assert (PE : 0 < Rpower e (spectral_index s)) by apply exp_pos.
          set (dd := Rpower (energy_max s) (spectral_index s + 1) - Rpower (energy_min s) (spectral_index s + 1)) in *.
          replace ((spectral_index s + 1) * Rpower e (spectral_index s) / dd) with (- (spectral_index s + 1) * Rpower e (spectral_index s) / - dd) by (field; lra).
          apply Rdiv_lt_0_compat; [apply Rmult_lt_0_compat; lra|lra]. }
      split; auto. rewrite (Rabs_pos_eq (_ / _)) in Aw by lra. rewrite Rmult_assoc. rewrite Rmult_assoc in Aw. rewrite <- Rmult_assoc in Aw. lra.
Qed.
Theorem c96_same_spectrum pow cosine s obstime e_ref energies : accurate_power pow -> accurate_cos cosine -> usual_simulation s -> sized 8 obstime -> usual e_ref ->
  (forall e, In e energies -> usual e) ->
  exists sim, from_simulation_double pow cosine s obstime e_ref = Ok sim /\
    calculate_event_weights_double pow (map Fin energies) sim sim = Ok (map (fun _ => Fin 1) energies).
Proof.
  intros HP HC US Ob Er He.
  assert (OL : exists omega l, simulated_solid_angle s omega /\ loss s l).
  { pose proof US as (_ & _ & _ & _ & _ & _ & _ & _ & _ & _ & _ & _ & [V|[V _]]).
    - exists 1, (/ contrast (spectral_index s) (energy_min s) (energy_max s)). split; left; auto.
    - eexists _, _. split; right; split; auto. }
  destruct OL as (omega & l & Om & Lo).
  pose proof (simulated_norm pow cosine s obstime e_ref omega l HP HC US Ob Er Om Lo) as (TU & T6 & _).
  destruct (c96_simulated_flux pow cosine s obstime e_ref omega l HP HC US Ob Er Om Lo) as (sim & E & _ & _ & _ & F).
  exists sim. split; auto. unfold calculate_event_weights_double. replace (unit_eqb (pl_unit sim) (pl_unit sim)) with true by (destruct (pl_unit sim); auto).
  f_equal. rewrite map_map. apply map_ext_in. intros e H. destruct (F e (He e H)) as (f & Ef & Kf). rewrite Ef. apply fdiv_self. intros ->.
  pose proof (delta_negative s US) as DN. pose proof (omega_positive s omega US Om) as OP.
  assert (Z : simulated_flux s obstime omega e <> 0).
  { assert (Nn : 0 < IZR (n_showers s)). { destruct US as (_ & _ & _ & _ & _ & _ & _ & Nn & _). apply IZR_lt. lia. }
    destruct US as (_ & _ & _ & Di & Bi & _ & Imp & _). pose proof (usual_pos _ Imp). pose proof PI_RGT_0.
    assert (OB : 0 < obstime) by (destruct Ob as [_ Ob]; pose proof (ten_inv_pos 8); lra).
    assert (PE : 0 < Rpower e (spectral_index s)) by apply exp_pos. assert (PI2 : 0 < max_impact s ^ 2) by (apply pow_lt; auto).
    assert (D : 0 < PI * max_impact s ^ 2 * obstime * omega) by (apply Rmult_lt_0_compat; auto; apply Rmult_lt_0_compat; auto; apply Rmult_lt_0_compat; auto).
    unfold simulated_flux, Rdiv. cbv zeta. apply Rmult_integral_contrapositive_currified; [|apply Rinv_neq_0_compat; lra].
    apply Rmult_integral_contrapositive_currified; [lra|]. apply Rmult_integral_contrapositive_currified; [|apply Rinv_neq_0_compat; lra]. apply Rmult_integral_contrapositive_currified; lra. }
  apply Rabs_pos_lt in Z. replace (0 - simulated_flux s obstime omega e) with (- simulated_flux s obstime omega e) in Kf by ring. rewrite Rabs_Ropp in Kf.
  assert (I6 : / 10 ^ 6 = / 1000000) by (f_equal; ring).
  assert (75 * (u * l) * Rabs (simulated_flux s obstime omega e) <= / 1000 * Rabs (simulated_flux s obstime omega e)) by (apply Rmult_le_compat_r; lra). lra.
Qed.
(** ** A flat spectrum *)
Lemma one_int : round64 1 = 1.
Proof. apply (round64_int 1). cbn. lia. Qed.
Theorem c96_flat_refuted : exists pow cosine index sim, accurate_power pow /\ accurate_cos cosine /\ double index /\ -5 <= index < -1 /\
  from_simulation_double pow cosine (mkSim 1 1 (5 / 4) 1 index 0 0) 1 1 = Ok sim /\ pl_norm sim = NInf /\
  calculate_event_weights_double pow [Fin 1] (mkPL (Fin 1) PointSource (-2) 1) sim = Ok [Fin 0].
Proof.
  assert (Dx : double (- (4503599627370497 / 4503599627370496))).
  { replace (- (4503599627370497 / 4503599627370496)) with (IZR (-4503599627370497) / IZR (2 ^ 52)) by (change (IZR (2 ^ 52)) with 4503599627370496; lra). apply double_q; lia. }
  set (p := - / 4503599627370496).
  assert (P1 : forall q, rounded_power (Fin 1) (Fin q) = Fin 1).
  { intros q. cbn [rounded_power]. f_equal. replace (Rpower 1 q) with 1 by (unfold Rpower; rewrite ln_1, Rmult_0_r; symmetry; apply exp_0). apply one_int. }
  assert (L : 0 < ln (5 / 4) < 1 / 4).
  { split; [rewrite <- ln_1; apply ln_increasing; lra|]. rewrite <- (ln_exp (1 / 4)). apply ln_increasing; [lra|]. pose proof (exp_ineq1 (1 / 4) ltac:(lra)). lra. }
  assert (B : 1 - / 18014398509481984 < Rpower (5 / 4) p < 1).
  { unfold Rpower, p. split.
    - eapply Rlt_le_trans; [|apply exp_ineq1_le]. lra.
    - rewrite <- exp_0. apply exp_increasing. lra. }
  assert (R2 : rounded_power (Fin (5 / 4)) (Fin p) = Fin 1).
  { cbn [rounded_power]. f_equal. rewrite (round64_q 9007199254740992 53); [change (IZR (2 ^ 53)) with 9007199254740992; lra|lia| |].
    - change (IZR (2 ^ 52)) with 4503599627370496. change (IZR (2 ^ 53)) with 9007199254740992. lra.
    - change (IZR (2 ^ 53)) with 9007199254740992. apply Rabs_def1; lra. }
  assert (big : 10 <= 10 ^ 300) by (apply Rle_trans with (10 ^ 1); [lra|apply Rle_pow; [lra|lia]]).
  assert (one : fmul (Fin 1) (Fin 1) = Fin 1) by (unfold fmul; cbn [nmul fl_num]; rewrite Rmult_1_r; apply fl_one).
  assert (Dp : double p).
  { unfold p. replace (- / 4503599627370496) with (IZR (-1) / IZR (2 ^ 52)) by (change (IZR (2 ^ 52)) with 4503599627370496; lra). apply double_q; lia. }
  assert (pone : fmul (Fin p) (Fin 1) = Fin p).
  { unfold fmul. cbn [nmul fl_num]. rewrite Rmult_1_r. apply fl_id; auto. unfold p. rewrite Rabs_Ropp, Rabs_pos_eq; lra. }
  assert (A : exists a, fl PI = Fin a).
  { pose proof PI_4. pose proof PI_RGT_0. exists (round64 PI). apply fl_small. rewrite Rabs_pos_eq; lra. }
  destruct A as [a Ea].
  assert (Pos : Rabs a <= 5).
  { pose proof PI_4. pose proof PI_RGT_0. destruct (rnd PI) as [F K]; [rewrite Rabs_pos_eq; lra|]. rewrite Ea in F. injection F as ->. pose proof (close_abs _ _ _ K) as C.
    rewrite (Rabs_pos_eq PI) in C by lra. destruct u_bounds as [U0 U1]. destruct et_bounds as [E0 E1].
    assert (/ 10 ^ 15 <= / 10 ^ 1) by (apply ten_inv; lia). assert (/ 10 ^ 320 <= / 10 ^ 1) by (apply ten_inv; lia). replace (/ 10 ^ 1) with (/ 10) in * by (f_equal; ring). assert (u * PI <= / 10 * 4) by (apply Rmult_le_compat; lra). lra. }
  assert (ma : forall b, Rabs b <= 10 -> exists c, fmul (Fin b) (Fin 1) = Fin c /\ Rabs c <= 10).
  { intros b Hb. unfold fmul. cbn [nmul fl_num]. rewrite Rmult_1_r, fl_small by lra. eexists. split; [reflexivity|]. apply Rabs_le_inv in Hb. apply Rabs_le.
    split; [replace (- (10)) with (round64 (- (10))) by (rewrite round64_opp; f_equal; apply (round64_int 10); cbn; lia)|replace 10 with (round64 10) by (apply (round64_int 10); cbn; lia)]; apply round64_mono; lra. }
  destruct (ma a ltac:(lra)) as (a1 & E1 & B1). destruct (ma a1 B1) as (a2 & E2 & B2). destruct (ma a2 B2) as (a3 & E3 & B3).
  destruct (index_plus_one _ Dx ltac:(lra)) as [Ei _]. replace (- (4503599627370497 / 4503599627370496) + 1) with p in Ei by (unfold p; lra).
  assert (Fr : from_simulation_double rounded_power PSFDoubleProofs.rounded_cos (mkSim 1 1 (5 / 4) 1 (- (4503599627370497 / 4503599627370496)) 0 0) 1 1 =
    Ok (mkPL NInf PointSource (- (4503599627370497 / 4503599627370496)) 1)).
  { unfold from_simulation_double. cbn [spectral_index viewcone_max viewcone_min max_impact energy_max energy_min n_showers]. destruct (Rltb_spec 0 (0 - 0)); [lra|]. cbv zeta.
    rewrite Ei, !P1, R2, one, Ea, E1, E2, E3, pone. unfold nz. rewrite pone, fsub_self, fmul_zero. unfold fdiv. cbn [ndiv]. destruct (Reqb_spec 0 0); [|lra].
    destruct (Reqb_spec p 0); [unfold p in *; lra|]. destruct (Rltb_spec 0 p); [unfold p in *; lra|]. cbn [fl_num]. unfold power_law_init. destruct (Rltb_spec 0 (- (4503599627370497 / 4503599627370496))); [lra|]. reflexivity. }
  exists rounded_power, PSFDoubleProofs.rounded_cos, (- (4503599627370497 / 4503599627370496)), (mkPL NInf PointSource (- (4503599627370497 / 4503599627370496)) 1).
  split; [apply rounded_power_accurate|]. split; [apply PSFDoubleProofs.rounded_cos_accurate|]. split; auto. split; [lra|]. split; auto. split; auto.
  unfold calculate_event_weights_double. cbn [pl_unit unit_eqb map]. f_equal. f_equal. unfold power_law_call_double. cbv zeta. cbn [pl_norm pl_e_ref pl_index].
  rewrite (fdiv_self 1) by lra. rewrite !P1, one. unfold fmul. cbn [nmul]. unfold inf_signed. destruct (Reqb_spec 1 0); [lra|]. destruct (Rltb_spec 0 1); [|lra]. cbn. apply fl_zero.
Qed.
(** a simulation with all properties *)
Definition s_diffuse : sim_info := mkSim 1000000 1 20 1000 (-2) 0 1.
Lemma sized_int n (m : Z) : (1 <= m < 2 ^ 53)%Z -> IZR m <= 10 ^ n -> sized n (IZR m).
Proof.
  intros H B. split; [apply double_int; lia|]. split; auto. assert (1 <= IZR m) by (apply IZR_le; lia). assert (/ 10 ^ n <= / 10 ^ 0) by (apply ten_inv; lia). cbn in *. lra.
Qed.
Lemma usual_diffuse : usual_simulation s_diffuse.
Proof.
  destruct usable_cone_example as (D1 & D2 & B1 & B2 & C & L & Nn). unfold usual_simulation, s_diffuse. cbn [energy_min energy_max spectral_index max_impact n_showers viewcone_min viewcone_max].
  split; [apply (sized_int 6 1); [lia|lra]|]. split; [apply (sized_int 6 20); [lia|lra]|]. split; [lra|]. split; [apply (double_int (-2)); lia|]. split; [lra|].
  split; [rewrite contrast_20; apply Rle_trans with (/ 10 ^ 1); [apply ten_inv; lia|lra]|]. split; [apply (sized_int 6 1000); [lia|lra]|]. split; [lia|].
  cbn [s_cone viewcone_min viewcone_max] in *. repeat (split; auto). 
Qed.
