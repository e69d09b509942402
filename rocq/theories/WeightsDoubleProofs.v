(** * WeightsDoubleProofs: C93 *)
From Coq Require Import Reals List Bool ZArith Lia Lra Psatz.
From Flocq Require Import Core.
From Verif Require PercentileDoubleProofs.
From Verif Require Import Num Numpy Lists Binning Double SpecDouble DoubleProofs NearProofs LiMaDoubleProofs LiMaDouble2Proofs HistDouble2Proofs WeightsDouble SpecWeights.
Import ListNotations.
Notation length := List.length.
Open Scope R_scope.

Notation et := (bpow radix2 (-1075)).
Notation u := eps53.
Lemma u_bounds : 0 < u /\ u <= / 10 ^ 15.
Proof.
  unfold eps53. split; [apply Rinv_0_lt_compat, pow_lt; lra|]. apply Rinv_le_contravar; [apply pow_lt; lra|]. rewrite !pow_IZR. apply IZR_le. vm_compute. discriminate.
Qed.
Lemma u_low : / 10 ^ 16 <= u.
Proof. unfold eps53. apply Rinv_le_contravar; [apply pow_lt; lra|]. rewrite !pow_IZR. apply IZR_le. vm_compute. discriminate. Qed.
Lemma et_bounds : 0 < et /\ et <= / 10 ^ 320.
Proof.
  split; [apply bpow_gt_0|]. change (-1075)%Z with (- (1075))%Z. rewrite bpow_opp, <- (IZR_Zpower radix2 1075) by lia.
  apply Rinv_le_contravar; [apply pow_lt; lra|]. rewrite pow_IZR. apply IZR_le. vm_compute. discriminate.
Qed.
Lemma fmax_300 : 10 ^ 300 <= fmax.
Proof.
  eapply Rle_trans; [|apply (bpow_fmax 1000); lia]. rewrite <- (IZR_Zpower radix2 1000) by lia. rewrite pow_IZR. apply IZR_le. vm_compute. discriminate.
Qed.
Lemma ten_inv n m : (m <= n)%nat -> / 10 ^ n <= / 10 ^ m.
Proof. intros H. apply Rinv_le_contravar; [apply pow_lt; lra|]. apply Rle_pow; [lra|lia]. Qed.
(** one rounding *)
Lemma rnd x : Rabs x <= 10 ^ 300 -> fl x = Fin (round64 x) /\ Rabs (round64 x - x) <= u * Rabs x + et.
Proof.
  intros H. split; [apply fl_fin; pose proof fmax_300; lra|]. rewrite eps53_u. apply round64_error.
Qed.
(** a number with a relative and an absolute error *)
Definition off (k tau y x : R) : Prop := Rabs (y - x) <= k * u * Rabs x + tau.
Ltac pw := rewrite ?pow_IZR, <- ?mult_IZR; apply IZR_le; vm_compute; discriminate.
Lemma off_sub a b : Rabs a <= 10 ^ 60 -> Rabs b <= 10 ^ 60 -> exists y, fl (a - b) = Fin y /\ off 1 et y (a - b).
Proof.
  intros Ha Hb. destruct (rnd (a - b)) as [E K].
  - eapply Rle_trans; [apply Rabs_triang|]. rewrite Rabs_Ropp. assert (2 * 10 ^ 60 <= 10 ^ 300) by pw. lra.
  - exists (round64 (a - b)). split; auto. unfold off. lra.
Qed.
Lemma off_opp k tau y x : off k tau y x -> off k tau (- y) (- x).
Proof. unfold off. intros H. replace (- y - - x) with (- (y - x)) by ring. rewrite !Rabs_Ropp. auto. Qed.
Lemma close_abs y x d : Rabs (y - x) <= d -> Rabs y <= Rabs x + d.
Proof. intros H. pose proof (Rabs_triang (y - x) x) as T. replace (y - x + x) with y in T by ring. lra. Qed.
Lemma inv_le n m a : a * 10 ^ m <= 10 ^ n -> / 10 ^ n * a <= / 10 ^ m.
Proof.
  intros H. assert (P : 0 < 10 ^ n) by (apply pow_lt; lra). assert (Q : 0 < 10 ^ m) by (apply pow_lt; lra).
  apply (Rmult_le_reg_l (10 ^ n)); auto. rewrite <- Rmult_assoc, Rinv_r, Rmult_1_l by lra.
  apply (Rmult_le_reg_r (10 ^ m)); auto. replace (10 ^ n * / 10 ^ m * 10 ^ m) with (10 ^ n) by (field; lra). auto.
Qed.
Lemma off_prod a b a' b' : Rabs a <= 2 * 10 ^ 60 -> Rabs b <= 2 * 10 ^ 60 -> off 1 et a' a -> off 1 et b' b ->
  exists y, fl (a' * b') = Fin y /\ off 4 (/ 10 ^ 200) y (a * b) /\ Rabs (a * b) <= 10 ^ 122.
Proof.
  intros HA HB Ha Hb. unfold off in *. rewrite Rmult_1_l in *. destruct u_bounds as [U0 U1]. destruct et_bounds as [H0 H1].
  assert (U2 : u <= / 100) by (eapply Rle_trans; [exact U1|apply (Rle_trans _ (/ 10 ^ 2)); [apply ten_inv; lia|lra]]).
  set (e := u) in *. set (h := et) in *. set (M := 10 ^ 60) in *. assert (M1 : 1 <= M) by (apply pow_R1_Rle; lra).
  assert (D : Rabs (a' * b' - a * b) <= (2 * e + e * e) * (Rabs a * Rabs b) + h * (5 * M) + h * h).
  { replace (a' * b' - a * b) with (a * (b' - b) + ((a' - a) * b + (a' - a) * (b' - b))) by ring.
    eapply Rle_trans; [apply Rabs_triang|]. eapply Rle_trans; [apply Rplus_le_compat_l, Rabs_triang|]. rewrite !Rabs_mult.
    pose proof (Rabs_pos a). pose proof (Rabs_pos b). pose proof (Rabs_pos (a' - a)). pose proof (Rabs_pos (b' - b)).
    assert (K1 : Rabs a * Rabs (b' - b) <= Rabs a * (e * Rabs b + h)) by (apply Rmult_le_compat_l; auto).
    assert (K2 : Rabs (a' - a) * Rabs b <= (e * Rabs a + h) * Rabs b) by (apply Rmult_le_compat_r; auto).
    assert (K3 : Rabs (a' - a) * Rabs (b' - b) <= (e * Rabs a + h) * (e * Rabs b + h)) by (apply Rmult_le_compat; auto).
    assert (K4 : h * (Rabs a * (1 + e) + Rabs b * (1 + e)) <= h * (5 * M)).
    { apply Rmult_le_compat_l; [lra|]. assert (Rabs a * (1 + e) <= (2 * M) * (1 + / 100)) by (apply Rmult_le_compat; lra).
      assert (Rabs b * (1 + e) <= (2 * M) * (1 + / 100)) by (apply Rmult_le_compat; lra). lra. }
    nra. }
  assert (HM : h * (5 * M) + h * h <= / 10 ^ 250).
  { apply Rle_trans with (h * (6 * M)); [assert (h * h <= h * M); [apply Rmult_le_compat_l; [lra|]; apply Rle_trans with 1; [|lra]; apply Rle_trans with (/ 10 ^ 320); [auto|]; apply (Rle_trans _ (/ 10 ^ 0)); [apply ten_inv; lia|lra]|lra]|].
    apply Rle_trans with (/ 10 ^ 320 * (6 * M)); [apply Rmult_le_compat_r; lra|].
    apply inv_le. unfold M. pw. }
  assert (P0 : 0 <= Rabs a * Rabs b) by (apply Rmult_le_pos; apply Rabs_pos).
  assert (P1 : Rabs a * Rabs b <= 10 ^ 121) by (apply Rle_trans with ((2 * M) * (2 * M)); [apply Rmult_le_compat; auto; apply Rabs_pos|unfold M; pw]).
  set (P := Rabs a * Rabs b) in *. set (s := / 10 ^ 250) in *.
  assert (s1 : s <= 1) by (unfold s; apply (Rle_trans _ (/ 10 ^ 0)); [apply ten_inv; lia|lra]). assert (s0 : 0 < s) by (apply Rinv_0_lt_compat, pow_lt; lra).
  assert (D' : Rabs (a' * b' - a * b) <= (2 * e + e * e) * P + s) by lra.
  assert (E2 : e * e <= e / 100) by (unfold Rdiv; apply Rmult_le_compat_l; lra).
  assert (E3 : (2 * e + e * e) * P <= (e * (201 / 100)) * P) by (apply Rmult_le_compat_r; lra).
  assert (N : Rabs (a' * b') <= P + (e * (201 / 100)) * P + s).
  { pose proof (close_abs _ _ _ D') as C. rewrite (Rabs_mult a b) in C. fold P in C. lra. }
  assert (Pe : (e * (201 / 100)) * P <= (/ 100 * (201 / 100)) * P) by (apply Rmult_le_compat_r; lra).
  destruct (rnd (a' * b')) as [E K]. { assert (10 ^ 121 + 10 ^ 121 + 10 ^ 121 <= 10 ^ 300) by (rewrite !pow_IZR, <- !plus_IZR; apply IZR_le; vm_compute; discriminate).
    assert (1 <= 10 ^ 121) by (apply pow_R1_Rle; lra). lra. }
  exists (round64 (a' * b')). split; [auto|]. split.
  - rewrite Rabs_mult. fold P. fold e h in K. apply Rle_trans with (Rabs (round64 (a' * b') - a' * b') + Rabs (a' * b' - a * b)).
    { replace (round64 (a' * b') - a * b) with ((round64 (a' * b') - a' * b') + (a' * b' - a * b)) by ring. apply Rabs_triang. }
    assert (K' : e * Rabs (a' * b') <= e * (P + (/ 100 * (201 / 100)) * P + s)) by (apply Rmult_le_compat_l; lra).
    assert (T : e * s + s + h <= / 10 ^ 200).
    { assert (e * s <= 1 * s) by (apply Rmult_le_compat_r; lra). assert (h <= s) by (unfold s; apply Rle_trans with (/ 10 ^ 320); [auto|apply ten_inv; lia]).
      apply Rle_trans with (3 * s); [lra|]. rewrite Rmult_comm. apply inv_le. pw. }
    assert (Q : 0 <= e * P) by (apply Rmult_le_pos; lra).
    replace (e * (P + (/ 100 * (201 / 100)) * P + s)) with ((e * P) * (1 + / 100 * (201 / 100)) + e * s) in K' by ring.
    replace ((e * (201 / 100)) * P) with ((e * P) * (201 / 100)) in E3 by ring. replace (4 * e * P) with (4 * (e * P)) by ring.
    set (Z := e * P) in *. lra.
  - rewrite Rabs_mult. fold P. apply Rle_trans with (10 ^ 121); [auto|pw].
Qed.
Notation tau := (/ 10 ^ 200).
Notation tol := (/ 10 ^ 190).
Lemma off_sum x y x' y' : Rabs x <= 10 ^ 122 -> Rabs y <= 10 ^ 122 -> off 4 tau x' x -> off 4 tau y' y ->
  exists z, fl (x' + y') = Fin z /\ Rabs (z - (x + y)) <= 6 * u * (Rabs x + Rabs y) + tol.
Proof.
  intros HX HY Hx Hy. unfold off in *. destruct u_bounds as [U0 U1]. destruct et_bounds as [H0 H1].
  assert (U2 : u <= / 100) by (eapply Rle_trans; [exact U1|apply (Rle_trans _ (/ 10 ^ 2)); [apply ten_inv; lia|lra]]).
  assert (T0 : 0 < tau) by (apply Rinv_0_lt_compat, pow_lt; lra). assert (T1 : tau <= 1) by (apply (Rle_trans _ (/ 10 ^ 0)); [apply ten_inv; lia|lra]).
  assert (H2 : et <= tau) by (eapply Rle_trans; [exact H1|apply ten_inv; lia]).
  assert (T2 : 10 * tau <= tol) by (rewrite Rmult_comm; apply inv_le; pw).
  set (e := u) in *. set (P := Rabs x + Rabs y).
  assert (D : Rabs (x' + y' - (x + y)) <= 4 * (e * P) + 2 * tau).
  { replace (x' + y' - (x + y)) with ((x' - x) + (y' - y)) by ring. eapply Rle_trans; [apply Rabs_triang|].
    unfold P. replace (4 * (e * (Rabs x + Rabs y))) with (4 * e * Rabs x + 4 * e * Rabs y) by ring. lra. }
  assert (Pxy : Rabs (x + y) <= P) by apply Rabs_triang. assert (P0 : 0 <= P) by (unfold P; pose proof (Rabs_pos x); pose proof (Rabs_pos y); lra).
  assert (C := close_abs _ _ _ D). assert (eP : e * P <= / 100 * P) by (apply Rmult_le_compat_r; lra). assert (eP0 : 0 <= e * P) by (apply Rmult_le_pos; lra).
  destruct (rnd (x' + y')) as [E K].
  { assert (10 ^ 122 * 4 <= 10 ^ 300) by pw. assert (1 <= 10 ^ 122) by (apply pow_R1_Rle; lra). assert (P <= 2 * 10 ^ 122) by (unfold P; lra). lra. }
  exists (round64 (x' + y')). split; auto. fold e in K. fold P.
  assert (K' : e * Rabs (x' + y') <= e * (P * (104 / 100) + 2 * tau)) by (apply Rmult_le_compat_l; lra).
  assert (eT : e * tau <= / 100 * tau) by (apply Rmult_le_compat_r; lra).
  replace (e * (P * (104 / 100) + 2 * tau)) with ((e * P) * (104 / 100) + 2 * (e * tau)) in K' by ring.
  replace (round64 (x' + y') - (x + y)) with ((round64 (x' + y') - (x' + y')) + (x' + y' - (x + y))) by ring.
  eapply Rle_trans; [apply Rabs_triang|]. replace (6 * e * P) with (6 * (e * P)) by ring. lra.
Qed.
Lemma off_quotient n d s1 s n' d' : Rabs n <= s1 -> s1 <= 2 * 10 ^ 122 -> / 10 ^ 60 <= Rabs d -> Rabs d <= s -> s <= 10 ^ 9 * Rabs d ->
  Rabs (n' - n) <= 6 * u * s1 + tol -> Rabs (d' - d) <= 6 * u * s + tol ->
  d' <> 0 /\ exists w, fl (n' / d') = Fin w /\ Rabs (w - n / d) <= 10 * u * ((s1 + Rabs (n / d) * s) / Rabs d) + / 10 ^ 100 /\ Rabs w <= 10 ^ 200.
Proof.
  intros Hn Hs1 Hd Hds Hs Hn' Hd'. destruct u_bounds as [U0 U1]. destruct et_bounds as [H0 H1].
  assert (U2 : u * 10 ^ 9 <= / 10 ^ 6). { apply Rle_trans with (/ 10 ^ 15 * 10 ^ 9); [apply Rmult_le_compat_r; [apply pow_le; lra|auto]|apply inv_le; pw]. }
  assert (U3 : u <= / 10 ^ 6) by (eapply Rle_trans; [exact U1|apply ten_inv; lia]).
  assert (T0 : 0 < tol) by (apply Rinv_0_lt_compat, pow_lt; lra).
  assert (d0 : 0 < Rabs d) by (apply Rlt_le_trans with (/ 10 ^ 60); [apply Rinv_0_lt_compat, pow_lt; lra|auto]).
  assert (s0 : 0 < s) by lra.
  (* the absolute errors are negligible *)
  assert (T1 : tol <= / 100 * (u * s)).
  { apply Rle_trans with (/ 100 * (/ 10 ^ 16 * / 10 ^ 60)).
    - apply (Rle_trans _ (/ 10 ^ 80)); [apply ten_inv; lia|]. rewrite <- Rinv_mult. replace (/ 100) with (/ 10 ^ 2) by (f_equal; ring). rewrite <- Rinv_mult, <- !pow_add. apply ten_inv. lia.
    - apply Rmult_le_compat_l; [lra|]. apply Rmult_le_compat; [left; apply Rinv_0_lt_compat, pow_lt; lra|left; apply Rinv_0_lt_compat, pow_lt; lra|apply u_low|lra]. }
  assert (T2 : tol <= / 10 ^ 130 * Rabs d).
  { apply Rle_trans with (/ 10 ^ 130 * / 10 ^ 60); [rewrite <- Rinv_mult, <- pow_add; apply ten_inv; lia|]. apply Rmult_le_compat_l; [left; apply Rinv_0_lt_compat, pow_lt; lra|auto]. }
  set (e := u) in *. assert (es : e * s <= / 10 ^ 6 * Rabs d).
  { apply Rle_trans with (e * (10 ^ 9 * Rabs d)); [apply Rmult_le_compat_l; lra|]. rewrite <- Rmult_assoc. apply Rmult_le_compat_r; lra. }
  assert (six : / 10 ^ 6 = / 1000000) by (f_equal; ring).
  assert (Dd : Rabs (d' - d) <= / 1000 * Rabs d) by (rewrite six in *; replace (6 * e * s) with (6 * (e * s)) in Hd' by ring; lra).
  assert (D1 : 999 / 1000 * Rabs d <= Rabs d').
  { pose proof (Rabs_triang_inv d (d - d')) as T. replace (d - (d - d')) with d' in T by ring. rewrite (Rabs_minus_sym d d') in T. lra. }
  assert (Nd : d <> 0) by (intros ->; rewrite Rabs_R0 in d0; lra). assert (Nd' : d' <> 0) by (intros ->; rewrite Rabs_R0 in D1; lra).
  split; auto. set (q := n / d). assert (Q0 := Rabs_pos q).
  set (W := s1 + Rabs q * s). set (X := W / Rabs d).
  assert (s10 : 0 <= s1) by (pose proof (Rabs_pos n); lra). assert (W0 : 0 <= W) by (unfold W; assert (0 <= Rabs q * s) by (apply Rmult_le_pos; lra); lra).
  assert (id : 0 < / Rabs d) by (apply Rinv_0_lt_compat; auto).
  assert (X0 : 0 <= X) by (apply Rmult_le_pos; lra).
  assert (qX : Rabs q <= X).
  { unfold q, Rdiv. rewrite Rabs_mult, Rabs_inv. unfold X, Rdiv. apply Rmult_le_compat_r; [lra|]. unfold W. assert (0 <= Rabs q * s) by (apply Rmult_le_pos; lra). lra. }
  assert (num : Rabs ((n' - n) - q * (d' - d)) <= 7 * (e * W) + tol).
  { eapply Rle_trans; [apply Rabs_triang|]. rewrite Rabs_Ropp, Rabs_mult.
    assert (K : Rabs q * Rabs (d' - d) <= Rabs q * (7 * (e * s))) by (apply Rmult_le_compat_l; auto; replace (6 * e * s) with (6 * (e * s)) in Hd' by ring; assert (0 < e * s) by (apply Rmult_lt_0_compat; auto); lra).
    unfold W. replace (7 * (e * (s1 + Rabs q * s))) with (7 * (e * s1) + Rabs q * (7 * (e * s))) by ring. replace (6 * e * s1) with (6 * (e * s1)) in Hn' by ring.
    assert (0 <= e * s1) by (apply Rmult_le_pos; lra). lra. }
  assert (D : Rabs (n' / d' - q) <= 8 * (e * X) + / 10 ^ 120).
  { replace (n' / d' - q) with (((n' - n) - q * (d' - d)) / d') by (unfold q; field; auto). unfold Rdiv. rewrite Rabs_mult, Rabs_inv.
    assert (iD : / Rabs d' <= 1001 / 1000 * / Rabs d + / 1000 * / Rabs d).
    { apply Rle_trans with (/ (999 / 1000 * Rabs d)); [apply Rinv_le_contravar; [apply Rmult_lt_0_compat; lra|auto]|]. rewrite Rinv_mult. replace (/ (999 / 1000)) with (1000 / 999) by field.
      replace (1001 / 1000 * / Rabs d + / 1000 * / Rabs d) with (1002 / 1000 * / Rabs d) by lra. apply Rmult_le_compat_r; lra. }
    apply Rle_trans with ((7 * (e * W) + tol) * (1002 / 1000 * / Rabs d)).
    { apply Rmult_le_compat; [apply Rabs_pos|left; apply Rinv_0_lt_compat, Rabs_pos_lt; auto|auto|]. replace (1002 / 1000 * / Rabs d) with (1001 / 1000 * / Rabs d + / 1000 * / Rabs d) by lra. auto. }
    replace ((7 * (e * W) + tol) * (1002 / 1000 * / Rabs d)) with (7 * (1002 / 1000) * (e * X) + 1002 / 1000 * (tol * / Rabs d)).
    - assert (0 <= e * X) by (apply Rmult_le_pos; lra). assert (tol * / Rabs d <= / 10 ^ 130).
      { apply (Rmult_le_reg_r (Rabs d)); auto. rewrite Rmult_assoc, Rinv_l, Rmult_1_r by lra. auto. }
      assert (/ 10 ^ 130 * 10 <= / 10 ^ 120) by (apply inv_le; pw). assert (0 < / 10 ^ 130) by (apply Rinv_0_lt_compat, pow_lt; lra). lra.
    - unfold X, Rdiv. field. lra. }
  assert (small : 0 < / 10 ^ 120 /\ / 10 ^ 120 * 10 <= / 10 ^ 100) by (split; [apply Rinv_0_lt_compat, pow_lt; lra|apply inv_le; pw]).
  assert (h1 : et <= / 10 ^ 120) by (eapply Rle_trans; [exact H1|apply ten_inv; lia]).
  assert (eX : e * X <= / 10 ^ 6 * X) by (apply Rmult_le_compat_r; auto). assert (eX0 : 0 <= e * X) by (apply Rmult_le_pos; lra).
  assert (C := close_abs _ _ _ D).
  assert (one : / 10 ^ 100 <= 1) by (apply (Rle_trans _ (/ 10 ^ 0)); [apply ten_inv; lia|lra]).
  assert (XX : X <= 10 ^ 193).
  { unfold X, W, Rdiv. assert (i60 : / Rabs d <= 10 ^ 60). { rewrite <- (Rinv_inv (10 ^ 60)). apply Rinv_le_contravar; auto. apply Rinv_0_lt_compat, pow_lt; lra. }
    assert (q1 : Rabs q <= 2 * 10 ^ 122 * 10 ^ 60). { unfold q, Rdiv. rewrite Rabs_mult, Rabs_inv. apply Rmult_le_compat; try lra; apply Rabs_pos. }
    assert (sd : s * / Rabs d <= 10 ^ 9). { apply (Rmult_le_reg_r (Rabs d)); auto. rewrite Rmult_assoc, Rinv_l, Rmult_1_r by lra. auto. }
    replace ((s1 + Rabs q * s) * / Rabs d) with (s1 * / Rabs d + Rabs q * (s * / Rabs d)) by ring.
    assert (A1 : s1 * / Rabs d <= 2 * 10 ^ 122 * 10 ^ 60) by (apply Rmult_le_compat; lra).
    assert (A2 : Rabs q * (s * / Rabs d) <= 2 * 10 ^ 122 * 10 ^ 60 * 10 ^ 9) by (apply Rmult_le_compat; auto; apply Rmult_le_pos; lra).
    assert (A3 : 2 * 10 ^ 122 * 10 ^ 60 * 10 ^ 9 * 2 <= 10 ^ 193) by pw. assert (A4 : 2 * 10 ^ 122 * 10 ^ 60 <= 2 * 10 ^ 122 * 10 ^ 60 * 10 ^ 9) by (rewrite !pow_IZR, <- !mult_IZR; apply IZR_le; vm_compute; discriminate). lra. }
  assert (B : Rabs (n' / d') <= 2 * X + 1) by (rewrite six in *; lra).
  assert (big : 10 ^ 193 * 9 <= 10 ^ 200) by pw. assert (big' : 10 ^ 200 <= 10 ^ 300) by pw. assert (big0 : 1 <= 10 ^ 193) by (apply pow_R1_Rle; lra).
  destruct (rnd (n' / d')) as [E K]; [lra|]. exists (round64 (n' / d')). split; auto.
  assert (K' : e * Rabs (n' / d') <= e * (X * (101 / 100) + / 10 ^ 120)) by (apply Rmult_le_compat_l; [lra|]; rewrite six in *; lra).
  replace (e * (X * (101 / 100) + / 10 ^ 120)) with ((e * X) * (101 / 100) + e * / 10 ^ 120) in K' by ring.
  assert (eh : e * / 10 ^ 120 <= 1 * / 10 ^ 120) by (apply Rmult_le_compat_r; [lra|]; rewrite six in *; lra).
  fold e in K. assert (F : Rabs (round64 (n' / d') - q) <= 10 * (e * X) + / 10 ^ 100).
  { replace (round64 (n' / d') - q) with ((round64 (n' / d') - n' / d') + (n' / d' - q)) by ring. eapply Rle_trans; [apply Rabs_triang|]. lra. }
  split; [replace (10 * e * X) with (10 * (e * X)) by ring; exact F|]. pose proof (close_abs _ _ _ F). rewrite six in *. lra.
Qed.
Lemma coord_diff a b : coordinate a -> coordinate b -> Rabs (a - b) <= 2 * 10 ^ 60.
Proof. intros [_ Ha] [_ Hb]. eapply Rle_trans; [apply Rabs_triang|]. rewrite Rabs_Ropp. lra. Qed.
Lemma det_double a b c d a' b' c' d' : Rabs a <= 2 * 10 ^ 60 -> Rabs b <= 2 * 10 ^ 60 -> Rabs c <= 2 * 10 ^ 60 -> Rabs d <= 2 * 10 ^ 60 ->
  off 1 et a' a -> off 1 et b' b -> off 1 et c' c -> off 1 et d' d ->
  exists z, fadd (fmul (Fin a') (Fin b')) (fmul (Fin (- c')) (Fin d')) = Fin z /\ fadd (fmul (Fin (- c')) (Fin d')) (fmul (Fin a') (Fin b')) = Fin z /\
    Rabs (z - (a * b - c * d)) <= 6 * u * (Rabs (a * b) + Rabs (c * d)) + tol /\ Rabs (a * b) + Rabs (c * d) <= 2 * 10 ^ 122.
Proof.
  intros A B C D OA OB OC OD. destruct (off_prod a b a' b' A B OA OB) as (z1 & E1 & K1 & M1).
  destruct (off_prod (- c) d (- c') d') as (z2 & E2 & K2 & M2); auto; [rewrite Rabs_Ropp; auto|apply off_opp; auto|].
  destruct (off_sum (a * b) (- c * d) z1 z2 M1 M2 K1 K2) as (z & E & K). exists z.
  assert (Q : Rabs (- c * d) = Rabs (c * d)) by (rewrite <- Ropp_mult_distr_l, Rabs_Ropp; auto). rewrite Q in *.
  unfold fadd, fmul. cbn [nmul]. cbn [fl_num]. rewrite E1, E2. cbn [nadd fl_num]. split; [auto|]. split; [rewrite Rplus_comm; auto|].
  split; [|lra]. replace (a * b - c * d) with (a * b + - c * d) by ring. auto.
Qed.
Lemma fsub_coord a b : coordinate a -> coordinate b -> exists y, fsub (Fin a) (Fin b) = Fin y /\ off 1 et y (a - b).
Proof. intros [_ Ha] [_ Hb]. destruct (off_sub a b Ha Hb) as (y & E & O). exists y. split; auto. Qed.
Lemma area2_products a b c : Rabs (area2 a b c) <= products a b c.
Proof. unfold area2, products. eapply Rle_trans; [apply Rabs_triang|]. rewrite Rabs_Ropp. lra. Qed.
Lemma fl_small x : Rabs x <= 10 ^ 300 -> fl x = Fin (round64 x).
Proof. intros H. apply rnd; auto. Qed.
Lemma last_weight w1 w2 : Rabs w1 <= 10 ^ 200 -> Rabs w2 <= 10 ^ 200 ->
  exists w3, fsub (fsub (Fin 1) (Fin w1)) (Fin w2) = Fin w3 /\ Rabs (w1 + w2 + w3 - 1) <= 3 * u * (1 + Rabs w1 + Rabs w2).
Proof.
  intros H1 H2. destruct u_bounds as [U0 U1]. destruct et_bounds as [T0 T1].
  assert (U2 : u <= / 100) by (eapply Rle_trans; [exact U1|apply (Rle_trans _ (/ 10 ^ 2)); [apply ten_inv; lia|lra]]).
  assert (E10 : et <= / 100 * u). { apply Rle_trans with (/ 100 * / 10 ^ 16); [|apply Rmult_le_compat_l; [lra|apply u_low]]. replace (/ 100) with (/ 10 ^ 2) by (f_equal; ring). rewrite <- Rinv_mult, <- pow_add. eapply Rle_trans; [exact T1|apply ten_inv; lia]. }
  assert (big : 10 ^ 200 * 5 <= 10 ^ 300) by pw. assert (one : 1 <= 10 ^ 200) by (apply pow_R1_Rle; lra).
  assert (B1 : Rabs (1 - w1) <= 1 + Rabs w1) by (eapply Rle_trans; [apply Rabs_triang|]; rewrite Rabs_Ropp, Rabs_R1; lra).
  destruct (rnd (1 - w1)) as [E1 K1]; [lra|]. set (r := round64 (1 - w1)) in *. set (e := u) in *. set (A := 1 + Rabs w1 + Rabs w2).
  pose proof (Rabs_pos w1). pose proof (Rabs_pos w2).
  assert (R1 : Rabs (r - (1 - w1)) <= e * (1 + Rabs w1) + et) by (assert (e * Rabs (1 - w1) <= e * (1 + Rabs w1)) by (apply Rmult_le_compat_l; lra); lra).
  assert (R2 : Rabs r <= (1 + Rabs w1) + e * (1 + Rabs w1) + et) by (pose proof (close_abs _ _ _ R1); lra).
  assert (eA : e * (1 + Rabs w1) <= / 100 * (1 + Rabs w1)) by (apply Rmult_le_compat_r; lra).
  assert (B2 : Rabs (r - w2) <= 102 / 100 * A). { eapply Rle_trans; [apply Rabs_triang|]. rewrite Rabs_Ropp. unfold A. lra. }
  destruct (rnd (r - w2)) as [E2 K2]; [unfold A in B2; lra|]. exists (round64 (r - w2)). 
  split; [change (fsub (Fin 1) (Fin w1)) with (fl (1 - w1)); rewrite E1; exact E2|].
  fold e in K2. assert (e * Rabs (r - w2) <= e * (102 / 100 * A)) by (apply Rmult_le_compat_l; lra).
  replace (w1 + w2 + round64 (r - w2) - 1) with ((round64 (r - w2) - (r - w2)) + (r - (1 - w1))) by ring.
  eapply Rle_trans; [apply Rabs_triang|]. assert (e * (1 + Rabs w1) <= e * A) by (apply Rmult_le_compat_l; unfold A; lra).
  assert (e * 1 <= e * A) by (apply Rmult_le_compat_l; unfold A; lra).
  replace (3 * e * A) with (3 * (e * A)) by ring. replace (e * (102 / 100 * A)) with (102 / 100 * (e * A)) in * by ring. lra.
Qed.
Theorem barycentric_ok p1 p2 p3 t : location p1 -> location p2 -> location p3 -> location t -> fat p1 p2 p3 ->
  exists w1 w2 w3, barycentric_double (fin p1) (fin p2) (fin p3) (fin t) = [Fin w1; Fin w2; Fin w3] /\
    close_weight w1 (area2 t p2 p3) (products t p2 p3) (area2 p1 p2 p3) (products p1 p2 p3) /\
    close_weight w2 (area2 p1 t p3) (products p1 t p3) (area2 p1 p2 p3) (products p1 p2 p3) /\
    Rabs (w1 + w2 + w3 - 1) <= 3 * u * (1 + Rabs w1 + Rabs w2).
Proof.
  intros [L1x L1y] [L2x L2y] [L3x L3y] [Tx Ty] [F1 F2]. unfold barycentric_double, fin. cbn [fst snd].
  destruct (fsub_coord _ _ L1x L3x) as (ax & Eax & Oax). destruct (fsub_coord _ _ L1y L3y) as (ay & Eay & Oay).
  destruct (fsub_coord _ _ L2x L3x) as (bx & Ebx & Obx). destruct (fsub_coord _ _ L2y L3y) as (by_ & Eby & Oby).
  destruct (fsub_coord _ _ Tx L3x) as (tx & Etx & Otx). destruct (fsub_coord _ _ Ty L3y) as (ty & Ety & Oty).
  rewrite Eax, Eay, Ebx, Eby, Etx, Ety. cbn [nneg].
  assert (Cax := coord_diff _ _ L1x L3x). assert (Cay := coord_diff _ _ L1y L3y). assert (Cbx := coord_diff _ _ L2x L3x).
  assert (Cby := coord_diff _ _ L2y L3y). assert (Ctx := coord_diff _ _ Tx L3x). assert (Cty := coord_diff _ _ Ty L3y).
  destruct (det_double _ _ _ _ by_ ax bx ay Cby Cax Cbx Cay Oby Oax Obx Oay) as (D & ED & _ & KD & MD).
  destruct (det_double _ _ _ _ by_ tx bx ty Cby Ctx Cbx Cty Oby Otx Obx Oty) as (N1 & EN1 & _ & KN1 & MN1).
  destruct (det_double _ _ _ _ ax ty ay tx Cax Cty Cay Ctx Oax Oty Oay Otx) as (N2 & _ & EN2 & KN2 & MN2).
  rewrite ED, EN1, EN2.
  assert (I : forall n sn N, Rabs n <= sn -> sn <= 2 * 10 ^ 122 -> Rabs (N - n) <= 6 * u * sn + tol ->
    exists w, fdiv (Fin N) (Fin D) = Fin w /\ close_weight w n sn (area2 p1 p2 p3) (products p1 p2 p3) /\ Rabs w <= 10 ^ 200).
  { intros n sn N H1 H2 H3. destruct (off_quotient n (area2 p1 p2 p3) sn (products p1 p2 p3) N D) as (Nz & w & E & K & M); auto; [apply area2_products|].
    exists w. split; [|split; auto]. unfold fdiv. cbn [ndiv]. destruct (Reqb_spec D 0); [contradiction|]. cbn [fl_num]. auto. }
  destruct (I (area2 t p2 p3) (products t p2 p3) N1) as (w1 & E1 & K1 & M1); [apply area2_products|exact MN1|exact KN1|].
  destruct (I (area2 p1 t p3) (products p1 t p3) N2) as (w2 & E2 & K2 & M2); [apply area2_products| | |].
  { unfold products. rewrite (Rmult_comm (snd t - snd p3)), (Rmult_comm (fst t - fst p3)). exact MN2. }
  { unfold products, area2. rewrite (Rmult_comm (snd t - snd p3)), (Rmult_comm (fst t - fst p3)). exact KN2. }
  rewrite E1, E2. destruct (last_weight w1 w2 M1 M2) as (w3 & E3 & K3). rewrite E3. exists w1, w2, w3. auto.
Qed.
(** at the grid points *)
Lemma fl_zero : fl 0 = Fin 0.
Proof. rewrite fl_small by (rewrite Rabs_R0; apply pow_le; lra). f_equal. apply (round64_int 0). cbn. lia. Qed.
Lemma fl_one : fl 1 = Fin 1.
Proof. rewrite fl_small by (rewrite Rabs_R1; apply pow_R1_Rle; lra). f_equal. apply (round64_int 1). cbn. lia. Qed.
Lemma fmul_small a b : Rabs (a * b) <= 10 ^ 300 -> fmul (Fin a) (Fin b) = Fin (round64 (a * b)).
Proof. intros H. unfold fmul. cbn [nmul fl_num]. apply fl_small; auto. Qed.
Lemma cancel a b : Rabs (a * b) <= 10 ^ 300 -> fadd (fmul (Fin a) (Fin b)) (fmul (Fin (- b)) (Fin a)) = Fin 0.
Proof.
  intros H. assert (E : - b * a = - (a * b)) by ring. rewrite !fmul_small by (rewrite ?E, ?Rabs_Ropp; auto). rewrite E, round64_opp.
  unfold fadd. cbn [nadd fl_num]. rewrite Rplus_opp_r. apply fl_zero.
Qed.
Lemma cancel' a b : Rabs (a * b) <= 10 ^ 300 -> fadd (fmul (Fin (- a)) (Fin b)) (fmul (Fin b) (Fin a)) = Fin 0.
Proof.
  intros H. assert (E : - a * b = - (a * b)) by ring. rewrite !fmul_small by (rewrite ?E, ?(Rmult_comm b a), ?Rabs_Ropp; auto). rewrite E, (Rmult_comm b a), round64_opp.
  unfold fadd. cbn [nadd fl_num]. rewrite Rplus_opp_l. apply fl_zero.
Qed.
Lemma fmul_zero a : fmul (Fin a) (Fin 0) = Fin 0.
Proof. unfold fmul. cbn [nmul fl_num]. rewrite Rmult_0_r. apply fl_zero. Qed.
Lemma off_bound a y : Rabs a <= 2 * 10 ^ 60 -> off 1 et y a -> Rabs y <= 10 ^ 61.
Proof.
  intros A O. unfold off in O. pose proof (close_abs _ _ _ O) as C. destruct u_bounds as [U0 U1]. destruct et_bounds as [T0 T1].
  assert (u <= / 100) by (eapply Rle_trans; [exact U1|apply (Rle_trans _ (/ 10 ^ 2)); [apply ten_inv; lia|lra]]).
  assert (et <= 1) by (eapply Rle_trans; [exact T1|]; apply (Rle_trans _ (/ 10 ^ 0)); [apply ten_inv; lia|lra]).
  assert (u * Rabs a <= / 100 * Rabs a) by (apply Rmult_le_compat_r; [apply Rabs_pos|auto]).
  assert (3 * 10 ^ 60 <= 10 ^ 61) by pw. assert (1 <= 10 ^ 60) by (apply pow_R1_Rle; lra). lra.
Qed.
Lemma prod_bound a b : Rabs a <= 10 ^ 61 -> Rabs b <= 10 ^ 61 -> Rabs (a * b) <= 10 ^ 300.
Proof.
  intros A B. rewrite Rabs_mult. apply Rle_trans with (10 ^ 61 * 10 ^ 61); [apply Rmult_le_compat; auto; apply Rabs_pos|]. rewrite <- pow_add. apply Rle_pow; [lra|lia].
Qed.
Lemma fsub_self a : fsub (Fin a) (Fin a) = Fin 0.
Proof. change (fsub (Fin a) (Fin a)) with (fl (a - a)). rewrite Rminus_diag_eq by auto. apply fl_zero. Qed.
Lemma fdiv_self a : a <> 0 -> fdiv (Fin a) (Fin a) = Fin 1.
Proof. intros H. unfold fdiv. cbn [ndiv]. destruct (Reqb_spec a 0); [contradiction|]. cbn [fl_num]. unfold Rdiv. rewrite Rinv_r by auto. apply fl_one. Qed.
Lemma fdiv_zero a : a <> 0 -> fdiv (Fin 0) (Fin a) = Fin 0.
Proof. intros H. unfold fdiv. cbn [ndiv]. destruct (Reqb_spec a 0); [contradiction|]. cbn [fl_num]. unfold Rdiv. rewrite Rmult_0_l. apply fl_zero. Qed.
Lemma w_100 : fsub (fsub (Fin 1) (Fin 1)) (Fin 0) = Fin 0.
Proof. rewrite fsub_self. apply fsub_self. Qed.
Lemma w_010 : fsub (fsub (Fin 1) (Fin 0)) (Fin 1) = Fin 0.
Proof. change (fsub (Fin 1) (Fin 0)) with (fl (1 - 0)). rewrite Rminus_0_r, fl_one. apply fsub_self. Qed.
Lemma w_001 : fsub (fsub (Fin 1) (Fin 0)) (Fin 0) = Fin 1.
Proof. change (fsub (Fin 1) (Fin 0)) with (fl (1 - 0)). rewrite Rminus_0_r, fl_one. change (fsub (Fin 1) (Fin 0)) with (fl (1 - 0)). rewrite Rminus_0_r. apply fl_one. Qed.
Theorem barycentric_at_points p1 p2 p3 : location p1 -> location p2 -> location p3 -> fat p1 p2 p3 ->
  barycentric_double (fin p1) (fin p2) (fin p3) (fin p1) = [Fin 1; Fin 0; Fin 0] /\
  barycentric_double (fin p1) (fin p2) (fin p3) (fin p2) = [Fin 0; Fin 1; Fin 0] /\
  barycentric_double (fin p1) (fin p2) (fin p3) (fin p3) = [Fin 0; Fin 0; Fin 1].
Proof.
  intros [L1x L1y] [L2x L2y] [L3x L3y] [F1 F2]. unfold barycentric_double, fin. cbn [fst snd].
  destruct (fsub_coord _ _ L1x L3x) as (ax & Eax & Oax). destruct (fsub_coord _ _ L1y L3y) as (ay & Eay & Oay).
  destruct (fsub_coord _ _ L2x L3x) as (bx & Ebx & Obx). destruct (fsub_coord _ _ L2y L3y) as (by_ & Eby & Oby).
  rewrite Eax, Eay, Ebx, Eby, !fsub_self. cbn [nneg].
  assert (Cax := coord_diff _ _ L1x L3x). assert (Cay := coord_diff _ _ L1y L3y). assert (Cbx := coord_diff _ _ L2x L3x). assert (Cby := coord_diff _ _ L2y L3y).
  destruct (det_double _ _ _ _ by_ ax bx ay Cby Cax Cbx Cay Oby Oax Obx Oay) as (D & ED & ED' & KD & MD).
  assert (Bax := off_bound _ _ Cax Oax). assert (Bay := off_bound _ _ Cay Oay). assert (Bbx := off_bound _ _ Cbx Obx). assert (Bby := off_bound _ _ Cby Oby).
  assert (Dn : D <> 0).
  { destruct (off_quotient 0 (area2 p1 p2 p3) 0 (products p1 p2 p3) 0 D) as (Nz & _); auto; [rewrite Rabs_R0; lra|apply Rmult_le_pos; [lra|apply pow_le; lra]|apply area2_products|].
    rewrite Rminus_diag_eq, Rabs_R0 by auto. rewrite Rmult_0_r, Rplus_0_l. left. apply Rinv_0_lt_compat, pow_lt; lra. }
  rewrite ED. split; [|split].
  - rewrite cancel' by (apply prod_bound; auto). rewrite fdiv_self, fdiv_zero by auto. now rewrite w_100.
  - rewrite cancel by (apply prod_bound; auto).
    replace (fadd (fmul (Fin (- ay)) (Fin bx)) (fmul (Fin ax) (Fin by_))) with (Fin D).
    + rewrite fdiv_self, fdiv_zero by auto. now rewrite w_010.
    + rewrite <- ED'. unfold fmul. cbn [nmul]. f_equal; f_equal; f_equal; ring.
  - rewrite !fmul_zero. unfold fadd. cbn [nadd fl_num]. rewrite Rplus_0_r, fl_zero. rewrite fdiv_zero by auto. now rewrite w_001.
Qed.
(** ** Thin triangles *)
Lemma double_q (m n : Z) : (Z.abs m < 2 ^ 53)%Z -> (0 <= n <= 1074)%Z -> double (IZR m / IZR (2 ^ n)).
Proof.
  intros Hm Hn. exists m, (- n)%Z. split; [auto|]. split; [lia|]. unfold Rdiv. f_equal.
  rewrite <- (bpow_powerRZ radix2), bpow_opp. f_equal. rewrite <- (IZR_Zpower radix2) by lia. reflexivity.
Qed.
Definition thin1 : R * R := (1, 268435455 / 268435456).
Definition thin2 : R * R := (268435457 / 268435456, 1).
Lemma fl_id x : double x -> Rabs x <= 10 ^ 300 -> fl x = Fin x.
Proof. intros H B. rewrite fl_small by auto. f_equal. apply round64_id, PercentileDoubleProofs.format_of, H. Qed.
Lemma d_one : double 1.
Proof. replace 1 with (IZR 1 / IZR (2 ^ 0)) by (cbn; lra). apply double_q; cbn; lia. Qed.
Lemma d_zero : double 0.
Proof. replace 0 with (IZR 0 / IZR (2 ^ 0)) by (cbn; lra). apply double_q; cbn; lia. Qed.
Lemma le_60 x : Rabs x <= 2 -> Rabs x <= 10 ^ 60.
Proof. intros H. assert (2 <= 10 ^ 60) by pw. lra. Qed.
Lemma thin_location : location thin1 /\ location thin2 /\ location (0, 0).
Proof.
  assert (A : double (268435455 / 268435456)) by (apply (double_q 268435455 28); cbn; lia).
  assert (B : double (268435457 / 268435456)) by (apply (double_q 268435457 28); cbn; lia).
  repeat split; cbn [fst snd thin1 thin2]; auto using d_one, d_zero; apply le_60; apply Rabs_le; lra.
Qed.
Lemma fsub_zero x : double x -> Rabs x <= 2 -> fsub (Fin x) (Fin 0) = Fin x.
Proof.
  intros D B. change (fsub (Fin x) (Fin 0)) with (fl (x - 0)). rewrite Rminus_0_r. apply fl_id; auto. assert (2 <= 10 ^ 300) by pw. lra.
Qed.
Theorem thin_triangle_nan : area2 thin1 thin2 (0, 0) = / 2 ^ 56 /\
  barycentric_double (fin thin1) (fin thin2) (fin (0, 0)) (fin thin1) = [NaN; NaN; NaN].
Proof.
  split. { unfold area2, thin1, thin2. cbn [fst snd]. field. }
  assert (A : double (268435455 / 268435456)) by (apply (double_q 268435455 28); cbn; lia).
  assert (B : double (268435457 / 268435456)) by (apply (double_q 268435457 28); cbn; lia).
  unfold barycentric_double, fin, thin1, thin2. cbn [fst snd].
  rewrite !fsub_zero by (auto using d_one; apply Rabs_le; lra). cbn [nneg].
  assert (T : 2 <= 10 ^ 300) by pw.
  assert (E1 : fmul (Fin 1) (Fin 1) = Fin 1) by (rewrite fmul_small by (apply Rle_trans with 2; [apply Rabs_le; lra|auto]); rewrite Rmult_1_r; f_equal; apply (round64_int 1); cbn; lia).
  assert (E2 : fmul (Fin (- (268435457 / 268435456))) (Fin (268435455 / 268435456)) = Fin (- 1)).
  { rewrite fmul_small by (apply Rle_trans with 2; [apply Rabs_le; lra|auto]). f_equal.
    replace (- (268435457 / 268435456) * (268435455 / 268435456)) with (- (72057594037927935 / 72057594037927936)) by lra. rewrite round64_opp.
    transitivity (- (9007199254740992 / 9007199254740992)); [f_equal; rq 9007199254740992%Z 53%Z|lra]. }
  rewrite E1, E2.
  assert (E3 : fadd (Fin 1) (Fin (- 1)) = Fin 0). { unfold fadd. cbn [nadd fl_num]. replace (1 + - 1) with 0 by ring. apply fl_zero. }
  rewrite E3.
  rewrite cancel' by (apply Rle_trans with 2; [apply Rabs_le; lra|auto]).
  unfold fdiv. cbn [ndiv]. destruct (Reqb_spec 0 0); [|lra]. reflexivity.
Qed.
(** ** One dimension *)
Lemma segment_at_g0 inverse g0 g1 : (exists a b, inverse (fsub (Fin g1) (Fin g0)) = (Fin a, Fin b)) ->
  segment_double inverse (Fin g0) (Fin g1) (Fin g0) = [Fin 1; Fin 0].
Proof.
  intros (a & b & E). unfold segment_double. rewrite E, fsub_self. cbn [fst snd]. unfold fmul. cbn [nmul fl_num]. rewrite !Rmult_0_l, Rmult_1_l, Rmult_0_r, fl_zero, fl_one.
  unfold fadd. cbn [nadd fl_num]. rewrite !Rplus_0_r, fl_zero, fl_one. reflexivity.
Qed.
Lemma off_double a b y : coordinate a -> coordinate b -> fl (a - b) = Fin y -> double y.
Proof.
  intros [_ Ha] [_ Hb] E. destruct (rnd (a - b)) as [E' _].
  - eapply Rle_trans; [apply Rabs_triang|]. rewrite Rabs_Ropp. assert (2 * 10 ^ 60 <= 10 ^ 300) by pw. lra.
  - rewrite E in E'. injection E' as ->. apply double_round. pose proof fmax_300. eapply Rle_trans; [apply Rabs_triang|]. rewrite Rabs_Ropp. assert (2 * 10 ^ 60 <= 10 ^ 300) by pw. lra.
Qed.
(** the product of a difference and an entry of the inverse *)
Lemma inverse_prod x d x' d' b (s : R) : s = 1 \/ s = - 1 -> Rabs x <= 2 * 10 ^ 60 -> / 10 ^ 60 <= Rabs d -> off 1 et x' x -> off 1 et d' d -> 
  Rabs (b - s * / d') <= 2 * u * Rabs (/ d') -> exists y, fmul (Fin x') (Fin b) = Fin y /\ Rabs (y - s * (x / d)) <= 7 * (u * Rabs (x / d)) + / 10 ^ 150.
Proof.
  intros Hs Hx Hd Ox Od Hb. destruct u_bounds as [U0 U1]. destruct et_bounds as [T0 T1]. unfold off in Ox, Od. rewrite Rmult_1_l in *.
  assert (U2 : u <= / 1000) by (eapply Rle_trans; [exact U1|apply (Rle_trans _ (/ 10 ^ 3)); [apply ten_inv; lia|apply Req_le; f_equal; ring]]).
  assert (d0 : 0 < Rabs d) by (apply Rlt_le_trans with (/ 10 ^ 60); [apply Rinv_0_lt_compat, pow_lt; lra|auto]).
  set (e := u) in *. set (h := et) in *.
  assert (hd : h <= / 10 ^ 3 * (e * Rabs d)).
  { apply Rle_trans with (/ 10 ^ 3 * (/ 10 ^ 16 * / 10 ^ 60)).
    - rewrite <- !Rinv_mult, <- !pow_add. eapply Rle_trans; [exact T1|apply ten_inv; lia].
    - apply Rmult_le_compat_l; [left; apply Rinv_0_lt_compat, pow_lt; lra|]. apply Rmult_le_compat; [left; apply Rinv_0_lt_compat, pow_lt; lra|left; apply Rinv_0_lt_compat, pow_lt; lra|apply u_low|lra]. }
  assert (th : / 10 ^ 3 = / 1000) by (f_equal; ring). rewrite th in hd.
  assert (ed : e * Rabs d <= / 1000 * Rabs d) by (apply Rmult_le_compat_r; lra). assert (ed0 : 0 < e * Rabs d) by (apply Rmult_lt_0_compat; auto).
  assert (Dd : Rabs (d' - d) <= 1001 / 1000 * (e * Rabs d)) by lra.
  assert (D1 : 998 / 1000 * Rabs d <= Rabs d').
  { pose proof (Rabs_triang_inv d (d - d')) as T. replace (d - (d - d')) with d' in T by ring. rewrite (Rabs_minus_sym d d') in T. lra. }
  assert (Nd : d <> 0) by (intros ->; rewrite Rabs_R0 in d0; lra). assert (Nd' : d' <> 0) by (intros ->; rewrite Rabs_R0 in D1; lra).
  assert (iD : Rabs (/ d') <= 1003 / 1000 * / Rabs d).
  { rewrite Rabs_inv. apply Rle_trans with (/ (998 / 1000 * Rabs d)); [apply Rinv_le_contravar; [apply Rmult_lt_0_compat; lra|auto]|]. rewrite Rinv_mult. apply Rmult_le_compat_r; [left; apply Rinv_0_lt_compat; auto|lra]. }
  assert (id : 0 < / Rabs d) by (apply Rinv_0_lt_compat; auto). set (I := / Rabs d) in *.
  assert (iE : Rabs (/ d' - / d) <= 1005 / 1000 * (e * I)).
  { replace (/ d' - / d) with ((d - d') * (/ d' * / d)) by (field; auto). rewrite !Rabs_mult, (Rabs_minus_sym d d'), (Rabs_inv d). fold I.
    apply Rle_trans with (1001 / 1000 * (e * Rabs d) * (1003 / 1000 * I * I)).
    - apply Rmult_le_compat; auto; [apply Rabs_pos|apply Rmult_le_pos; [apply Rabs_pos|lra]|]. apply Rmult_le_compat_r; lra.
    - replace (1001 / 1000 * (e * Rabs d) * (1003 / 1000 * I * I)) with ((1001 / 1000 * (1003 / 1000)) * (e * I)) by (unfold I; field; lra).
      assert (0 < e * I) by (apply Rmult_lt_0_compat; auto). apply Rmult_le_compat_r; lra. }
  assert (eI : 0 < e * I) by (apply Rmult_lt_0_compat; auto). assert (eI1 : e * I <= / 1000 * I) by (apply Rmult_le_compat_r; lra).
  assert (S1 : Rabs s = 1) by (destruct Hs as [-> | ->]; [apply Rabs_R1|change (-1) with (- (1)); rewrite Rabs_Ropp; apply Rabs_R1]).
  assert (bE : Rabs (b - s * / d) <= 4 * (e * I)).
  { replace (b - s * / d) with ((b - s * / d') + s * (/ d' - / d)) by ring. eapply Rle_trans; [apply Rabs_triang|]. rewrite (Rabs_mult s), S1, Rmult_1_l.
    assert (2 * e * Rabs (/ d') <= 2 * e * (1003 / 1000 * I)) by (apply Rmult_le_compat_l; lra). lra. }
  assert (bB : Rabs b <= 1004 / 1000 * I). { pose proof (close_abs _ _ _ bE) as C. rewrite Rabs_mult, S1, Rmult_1_l, Rabs_inv in C. fold I in C. lra. }
  set (q := x / d). assert (qE : Rabs q = Rabs x * I) by (unfold q, Rdiv, I; rewrite Rabs_mult, Rabs_inv; auto).
  assert (I60 : I <= 10 ^ 60). { unfold I. rewrite <- (Rinv_inv (10 ^ 60)). apply Rinv_le_contravar; auto. apply Rinv_0_lt_compat, pow_lt; lra. }
  assert (hI : h * I <= / 10 ^ 250).
  { apply Rle_trans with (/ 10 ^ 320 * 10 ^ 60); [apply Rmult_le_compat; try lra|apply inv_le; pw]. }
  assert (P : Rabs (x' * b - s * q) <= 51 / 10 * (e * Rabs q) + 2 * / 10 ^ 250).
  { replace (x' * b - s * q) with ((x' - x) * b + x * (b - s * / d)) by (unfold q; field; auto). eapply Rle_trans; [apply Rabs_triang|]. rewrite !Rabs_mult.
    assert (K1 : Rabs (x' - x) * Rabs b <= (e * Rabs x + h) * (1004 / 1000 * I)) by (apply Rmult_le_compat; auto; apply Rabs_pos).
    assert (K2 : Rabs x * Rabs (b - s * / d) <= Rabs x * (4 * (e * I))) by (apply Rmult_le_compat_l; [apply Rabs_pos|auto]).
    replace ((e * Rabs x + h) * (1004 / 1000 * I)) with (1004 / 1000 * (e * (Rabs x * I)) + 1004 / 1000 * (h * I)) in K1 by ring.
    replace (Rabs x * (4 * (e * I))) with (4 * (e * (Rabs x * I))) in K2 by ring. rewrite <- qE in *. assert (0 <= e * Rabs q) by (apply Rmult_le_pos; [lra|apply Rabs_pos]).
    assert (0 < / 10 ^ 250) by (apply Rinv_0_lt_compat, pow_lt; lra). lra. }
  assert (eq : e * Rabs q <= / 1000 * Rabs q) by (apply Rmult_le_compat_r; [apply Rabs_pos|lra]). assert (eq0 : 0 <= e * Rabs q) by (apply Rmult_le_pos; [lra|apply Rabs_pos]).
  assert (sm : / 10 ^ 250 <= 1) by (apply (Rle_trans _ (/ 10 ^ 0)); [apply ten_inv; lia|lra]). assert (sm0 : 0 < / 10 ^ 250) by (apply Rinv_0_lt_compat, pow_lt; lra).
  assert (qB : Rabs q <= 10 ^ 121).
  { rewrite qE. apply Rle_trans with (2 * 10 ^ 60 * 10 ^ 60); [apply Rmult_le_compat; try lra; apply Rabs_pos|]. rewrite !pow_IZR, <- !mult_IZR. apply IZR_le. vm_compute. discriminate. }
  pose proof (close_abs _ _ _ P) as C. rewrite (Rabs_mult s q), S1, Rmult_1_l in C.
  assert (big : 10 ^ 121 * 4 <= 10 ^ 300) by pw. assert (big1 : 1 <= 10 ^ 121) by (apply pow_R1_Rle; lra).
  destruct (rnd (x' * b)) as [E K]; [lra|]. exists (round64 (x' * b)). split; [exact E|].
  fold e h in K. assert (K' : e * Rabs (x' * b) <= e * (101 / 100 * Rabs q + 2 * / 10 ^ 250)) by (apply Rmult_le_compat_l; lra).
  assert (hs : h <= / 10 ^ 250) by (unfold h; eapply Rle_trans; [exact T1|apply ten_inv; lia]).
  assert (es : e * / 10 ^ 250 <= 1 * / 10 ^ 250) by (apply Rmult_le_compat_r; lra).
  assert (fin150 : / 10 ^ 250 * 10 <= / 10 ^ 150) by (apply inv_le; pw).
  replace (e * (101 / 100 * Rabs q + 2 * / 10 ^ 250)) with (101 / 100 * (e * Rabs q) + 2 * (e * / 10 ^ 250)) in K' by ring.
  replace (round64 (x' * b) - s * q) with ((round64 (x' * b) - x' * b) + (x' * b - s * q)) by ring. eapply Rle_trans; [apply Rabs_triang|].
  set (z := / 10 ^ 250) in *. set (z' := / 10 ^ 150) in *. lra.
Qed.
Lemma one_plus y : Rabs y <= 10 ^ 200 -> exists z, fadd (Fin 1) (Fin y) = Fin z /\ Rabs (z - (1 + y)) <= 2 * u * (1 + Rabs y).
Proof.
  intros H. assert (B : Rabs (1 + y) <= 1 + Rabs y) by (eapply Rle_trans; [apply Rabs_triang|]; rewrite Rabs_R1; lra).
  assert (10 ^ 200 * 2 <= 10 ^ 300) by pw. assert (1 <= 10 ^ 200) by (apply pow_R1_Rle; lra).
  destruct (rnd (1 + y)) as [E K]; [lra|]. exists (round64 (1 + y)). split; [exact E|]. destruct u_bounds as [U0 U1]. destruct et_bounds as [T0 T1].
  assert (et <= u) by (eapply Rle_trans; [exact T1|]; apply Rle_trans with (/ 10 ^ 16); [apply ten_inv; lia|apply u_low]).
  assert (u * Rabs (1 + y) <= u * (1 + Rabs y)) by (apply Rmult_le_compat_l; lra). pose proof (Rabs_pos y). assert (u * 0 <= u * Rabs y) by (apply Rmult_le_compat_l; lra). lra.
Qed.
Theorem segment_ok inverse g0 g1 t : accurate_inverse inverse -> coordinate g0 -> coordinate g1 -> coordinate t -> / 10 ^ 60 <= Rabs (g1 - g0) ->
  exists w0 w1, segment_double inverse (Fin g0) (Fin g1) (Fin t) = [Fin w0; Fin w1] /\
    Rabs (w0 - (g1 - t) / (g1 - g0)) <= 10 * u * (1 + Rabs ((t - g0) / (g1 - g0))) /\
    Rabs (w1 - (t - g0) / (g1 - g0)) <= 10 * u * Rabs ((t - g0) / (g1 - g0)) + / 10 ^ 100.
Proof.
  intros HI C0 C1 Ct Hd. unfold segment_double.
  destruct (fsub_coord _ _ C1 C0) as (d' & Ed & Od). destruct (fsub_coord _ _ Ct C0) as (x' & Ex & Ox). rewrite Ed, Ex.
  assert (Dd := off_double _ _ _ C1 C0 Ed).
  assert (Bd := off_bound _ _ (coord_diff _ _ C1 C0) Od). assert (Bx := coord_diff _ _ Ct C0). set (d := g1 - g0) in *. set (x := t - g0) in *.
  destruct u_bounds as [U0 U1]. destruct et_bounds as [T0 T1].
  assert (U2 : u <= / 100) by (eapply Rle_trans; [exact U1|apply (Rle_trans _ (/ 10 ^ 2)); [apply ten_inv; lia|lra]]).
  assert (Ld : / 10 ^ 61 <= Rabs d').
  { pose proof (Rabs_triang_inv d (d - d')) as T. replace (d - (d - d')) with d' in T by ring. rewrite (Rabs_minus_sym d d') in T. unfold off in Od. rewrite Rmult_1_l in Od.
    assert (u * Rabs d <= / 100 * Rabs d) by (apply Rmult_le_compat_r; [apply Rabs_pos|auto]).
    assert (L2 : / 10 ^ 61 * 10 = / 10 ^ 60) by (replace (10 ^ 61) with (10 ^ 60 * 10) by ring; rewrite Rinv_mult; lra).
    assert (et <= / 10 ^ 61) by (eapply Rle_trans; [exact T1|apply ten_inv; lia]). lra. }
  destruct (HI d' Dd (conj Ld Bd)) as (a & b & E & Ha & Hb). rewrite E. cbn [fst snd].
  destruct (inverse_prod x d x' d' a (- 1)) as (y0 & E0 & K0); auto. { replace (a - -1 * / d') with (a + / d') by ring. auto. }
  destruct (inverse_prod x d x' d' b 1) as (y1 & E1 & K1); auto. { rewrite Rmult_1_l. auto. }
  rewrite E0, E1. set (q := x / d) in *. rewrite Rmult_1_l in K1.
  assert (s0 : 0 < / 10 ^ 150) by (apply Rinv_0_lt_compat, pow_lt; lra). assert (s1 : / 10 ^ 150 * 10 <= / 10 ^ 100) by (apply inv_le; pw).
  assert (s2 : / 10 ^ 150 * 10 <= u) by (eapply Rle_trans; [|apply u_low]; apply inv_le; pw).
  assert (eq0 : 0 <= u * Rabs q) by (apply Rmult_le_pos; [lra|apply Rabs_pos]). assert (eq1 : u * Rabs q <= / 100 * Rabs q) by (apply Rmult_le_compat_r; [apply Rabs_pos|lra]).
  assert (Nd : d <> 0). { intros Z. rewrite Z, Rabs_R0 in Hd. assert (0 < / 10 ^ 60) by (apply Rinv_0_lt_compat, pow_lt; lra). lra. }
  assert (qB : Rabs q <= 10 ^ 121).
  { unfold q, Rdiv. rewrite Rabs_mult, Rabs_inv. assert (/ Rabs d <= 10 ^ 60). { rewrite <- (Rinv_inv (10 ^ 60)). apply Rinv_le_contravar; auto. apply Rinv_0_lt_compat, pow_lt; lra. }
    apply Rle_trans with (2 * 10 ^ 60 * 10 ^ 60); [apply Rmult_le_compat; auto; [apply Rabs_pos|left; apply Rinv_0_lt_compat, Rabs_pos_lt; auto]|]. rewrite !pow_IZR, <- !mult_IZR. apply IZR_le. vm_compute. discriminate. }
  assert (big : 10 ^ 121 * 2 <= 10 ^ 200) by pw. assert (big1 : 1 <= 10 ^ 121) by (apply pow_R1_Rle; lra).
  assert (B0 : Rabs y0 <= 110 / 100 * Rabs q + u). { pose proof (close_abs _ _ _ K0) as C. rewrite Rabs_mult in C. replace (Rabs (-1)) with 1 in C by (change (-1) with (- (1)); rewrite Rabs_Ropp, Rabs_R1; auto). lra. }
  assert (B1 : Rabs y1 <= 110 / 100 * Rabs q + u) by (pose proof (close_abs _ _ _ K1) as C; lra).
  assert (F1 : fmul (Fin 1) (Fin 1) = Fin 1) by (unfold fmul; cbn [nmul fl_num]; rewrite Rmult_1_r; apply fl_one). rewrite F1, fmul_zero.
  destruct (one_plus y0) as (w0 & Ew0 & Kw0); [lra|]. rewrite Ew0.
  assert (Bw : Rabs y1 <= 10 ^ 300) by (assert (10 ^ 200 <= 10 ^ 300) by (apply Rle_pow; [lra|lia]); lra).
  assert (Ew1 : fadd (Fin 0) (Fin y1) = Fin y1).
  { unfold fadd. cbn [nadd fl_num]. rewrite Rplus_0_l. apply fl_id; auto.
    unfold fmul in E1. cbn [nmul] in E1. change (fl_num (Fin (x' * b))) with (fl (x' * b)) in E1. unfold fl in E1. cbv zeta in E1. destruct (Rltb fmax _); [destruct (Rltb 0 _); discriminate|].
    injection E1 as <-. apply double_format; [apply generic_format_round; auto with typeclass_instances|eapply Rle_trans; [exact Bw|exact fmax_300]]. }
  rewrite Ew1. exists w0, y1. split; [auto|]. split.
  - replace ((g1 - t) / d) with (1 - q) by (unfold q, x, d in *; field; auto). replace (w0 - (1 - q)) with ((w0 - (1 + y0)) + (y0 - -1 * q)) by ring. eapply Rle_trans; [apply Rabs_triang|].
    assert (u * Rabs y0 <= u * (110 / 100 * Rabs q + u)) by (apply Rmult_le_compat_l; lra).
    assert (u * u <= / 100 * u) by (apply Rmult_le_compat_r; lra). lra.
  - lra.
Qed.
(** numpy's inverse if its entries are correctly rounded *)
Definition rounded_inverse (d : num) : num * num := (fdiv (Fin (- 1)) d, fdiv (Fin 1) d).
Lemma rounded_inverse_accurate : accurate_inverse rounded_inverse.
Proof.
  intros d Dd [D1 D2]. assert (P : 0 < Rabs d) by (apply Rlt_le_trans with (/ 10 ^ 61); [apply Rinv_0_lt_compat, pow_lt; lra|auto]).
  assert (N : d <> 0) by (intros ->; rewrite Rabs_R0 in P; lra). unfold rounded_inverse, fdiv. cbn [ndiv]. destruct (Reqb_spec d 0); [contradiction|]. cbn [fl_num].
  assert (I61 : Rabs (/ d) <= 10 ^ 61). { rewrite Rabs_inv, <- (Rinv_inv (10 ^ 61)). apply Rinv_le_contravar; auto. apply Rinv_0_lt_compat, pow_lt; lra. }
  assert (J61 : / 10 ^ 61 <= Rabs (/ d)). { rewrite Rabs_inv. apply Rinv_le_contravar; auto. }
  assert (big : 10 ^ 61 <= 10 ^ 300) by (apply Rle_pow; [lra|lia]). destruct et_bounds as [T0 T1]. destruct u_bounds as [U0 U1].
  assert (T : et <= u * Rabs (/ d)).
  { apply Rle_trans with (/ 10 ^ 16 * / 10 ^ 61); [rewrite <- Rinv_mult, <- pow_add; eapply Rle_trans; [exact T1|apply ten_inv; lia]|].
    apply Rmult_le_compat; auto using u_low; left; apply Rinv_0_lt_compat, pow_lt; lra. }
  replace (-1 / d) with (- / d) by (field; auto). replace (1 / d) with (/ d) by (field; auto).
  destruct (rnd (- / d)) as [E1 K1]; [rewrite Rabs_Ropp; lra|]. destruct (rnd (/ d)) as [E2 K2]; [lra|]. rewrite Rabs_Ropp in K1.
  exists (round64 (- / d)), (round64 (/ d)). rewrite E1, E2. split; [auto|]. split; [replace (round64 (- / d) + / d) with (round64 (- / d) - - / d) by ring|]; lra.
Qed.
Theorem segment_other_point : segment_double rounded_inverse (Fin 0) (Fin 49) (Fin 49) = [Fin (/ 2 ^ 53); Fin (1 - / 2 ^ 53)].
Proof.
  assert (T : 100 <= 10 ^ 300) by pw.
  assert (E49 : fsub (Fin 49) (Fin 0) = Fin 49).
  { change (fsub (Fin 49) (Fin 0)) with (fl (49 - 0)). rewrite Rminus_0_r. rewrite fl_small by (rewrite Rabs_right; lra). f_equal. apply (round64_int 49). cbn. lia. }
  assert (P : Rabs (1 / 49) <= 10 ^ 300) by (rewrite Rabs_right; lra).
  assert (Q : round64 (1 / 49) = 5882252574524729 / 288230376151711744) by (rq 5882252574524729%Z 58%Z).
  assert (Ei : fdiv (Fin 1) (Fin 49) = Fin (5882252574524729 / 288230376151711744)).
  { unfold fdiv. cbn [ndiv]. destruct (Reqb_spec 49 0); [lra|]. cbn [fl_num]. rewrite fl_small by auto. now rewrite Q. }
  assert (Em : fdiv (Fin (-1)) (Fin 49) = Fin (- (5882252574524729 / 288230376151711744))).
  { unfold fdiv. cbn [ndiv]. destruct (Reqb_spec 49 0); [lra|]. cbn [fl_num]. replace (-1 / 49) with (- (1 / 49)) by lra.
    rewrite fl_small by (rewrite Rabs_Ropp; auto). now rewrite round64_opp, Q. }
  unfold segment_double, rounded_inverse. rewrite E49, Ei, Em. cbn [fst snd].
  assert (R : round64 (49 * (5882252574524729 / 288230376151711744)) = 9007199254740991 / 9007199254740992) by (rq 9007199254740991%Z 53%Z).
  assert (F1 : fmul (Fin 1) (Fin 1) = Fin 1) by (unfold fmul; cbn [nmul fl_num]; rewrite Rmult_1_r; apply fl_one). rewrite F1, fmul_zero.
  rewrite !fmul_small by (apply Rle_trans with 100; [apply Rabs_le; lra|auto]).
  replace (49 * - (5882252574524729 / 288230376151711744)) with (- (49 * (5882252574524729 / 288230376151711744))) by ring. rewrite round64_opp, R.
  assert (H53 : 2 ^ 53 = 9007199254740992) by ring.
  unfold fadd. cbn [nadd fl_num]. f_equal; [|f_equal].
  - replace (1 + - (9007199254740991 / 9007199254740992)) with (1 / IZR (2 ^ 53)) by (change (IZR (2 ^ 53)) with 9007199254740992; lra).
    rewrite fl_id; [f_equal; rewrite H53; change (IZR (2 ^ 53)) with 9007199254740992; lra|apply (double_q 1 53); cbn; lia|].
    change (IZR (2 ^ 53)) with 9007199254740992. rewrite Rabs_right; lra.
  - rewrite Rplus_0_l. rewrite fl_id; [f_equal; rewrite H53; lra|apply (double_q 9007199254740991 53); cbn; lia|]. rewrite Rabs_right; lra.
Qed.
(** ** The weighted sum *)
Lemma nth_zipwith_fadd l : forall l' j, length l = length l' -> nth j (zipwith fadd l l') NaN = fadd (nth j l NaN) (nth j l' NaN).
Proof.
  induction l as [|a l IH]; intros [|b l'] j H; try discriminate; destruct j; cbn; auto.
Qed.
Lemma length_zipwith_fadd l : forall l', length l = length l' -> length (zipwith fadd l l') = length l.
Proof. intros l' H. rewrite zipwith_length. lia. Qed.
Lemma nth_fold_rows n j rows : forall r, length r = n -> (forall x, In x rows -> length x = n) ->
  nth j (fold_left (zipwith fadd) rows r) NaN = fold_left fadd (map (fun row => nth j row NaN) rows) (nth j r NaN) /\ length (fold_left (zipwith fadd) rows r) = n.
Proof.
  induction rows as [|x rows IH]; intros r Hr H; cbn; auto.
  assert (Hx : length r = length x) by (rewrite Hr; symmetry; apply H; left; auto).
  rewrite <- nth_zipwith_fadd by auto. apply IH; [rewrite length_zipwith_fadd; auto|intros y Hy; apply H; right; auto].
Qed.
(** one more term *)
Lemma add_term k A A' S c x : (1 <= k)%nat -> (k <= 1000)%nat -> Rabs A <= S -> S <= INR k * 10 ^ 200 -> Rabs (A' - A) <= 2 * INR k * u * S + 4 * INR k * et ->
  Rabs c <= 10 ^ 100 -> Rabs x <= 10 ^ 100 -> exists z, fadd (Fin A') (fmul (Fin c) (Fin x)) = Fin z /\
    Rabs (z - (A + c * x)) <= 2 * INR (k + 1) * u * (S + Rabs (c * x)) + 4 * INR (k + 1) * et.
Proof.
  intros K1 K2 HA HS D Hc Hx. destruct u_bounds as [U0 U1]. destruct et_bounds as [T0 T1].
  assert (k1 : 1 <= INR k) by (change 1 with (INR 1); apply le_INR; auto). assert (k2 : INR k <= 1000) by (replace 1000 with (INR 1000) by (rewrite INR_IZR_INZ; auto); apply le_INR; auto).
  rewrite plus_INR. cbn [INR]. set (K := INR k) in *.
  assert (U2 : u <= / 1000000) by (eapply Rle_trans; [exact U1|apply (Rle_trans _ (/ 10 ^ 6)); [apply ten_inv; lia|apply Req_le; f_equal; ring]]).
  assert (T2 : et <= / 1000000) by (eapply Rle_trans; [exact T1|apply (Rle_trans _ (/ 10 ^ 6)); [apply ten_inv; lia|apply Req_le; f_equal; ring]]).
  set (e := u) in *. set (h := et) in *. set (p := Rabs (c * x)).
  assert (P0 : 0 <= p) by apply Rabs_pos. assert (S0 : 0 <= S) by (pose proof (Rabs_pos A); lra).
  assert (PB : p <= 10 ^ 200). { unfold p. rewrite Rabs_mult. apply Rle_trans with (10 ^ 100 * 10 ^ 100); [apply Rmult_le_compat; auto; apply Rabs_pos|]. rewrite <- pow_add. apply Rle_pow; [lra|lia]. }
  assert (big : 10 ^ 200 * 10000 <= 10 ^ 300) by pw. assert (one : 1 <= 10 ^ 200) by (apply pow_R1_Rle; lra).
  destruct (rnd (c * x)) as [E1 R1]; [fold p; lra|]. fold e h p in R1. set (y := round64 (c * x)) in *.
  assert (SB : S <= 1000 * 10 ^ 200) by (apply Rle_trans with (K * 10 ^ 200); auto; apply Rmult_le_compat_r; lra).
  assert (eS : e * S <= / 1000000 * S) by (apply Rmult_le_compat_r; auto). assert (eS0 : 0 <= e * S) by (apply Rmult_le_pos; lra).
  assert (ep : e * p <= / 1000000 * p) by (apply Rmult_le_compat_r; auto). assert (ep0 : 0 <= e * p) by (apply Rmult_le_pos; lra).
  assert (KS : 2 * K * e * S <= 2 / 1000 * S).
  { replace (2 * K * e * S) with (K * (2 * (e * S))) by ring. apply Rle_trans with (1000 * (2 * (/ 1000000 * S))); [apply Rmult_le_compat; lra|lra]. }
  assert (Kh : 4 * K * h <= 4 * 1000 * h) by (apply Rmult_le_compat_r; lra).
  assert (W : Rabs (A' + y - (A + c * x)) <= 2 * K * e * S + 4 * K * h + (e * p + h)).
  { replace (A' + y - (A + c * x)) with ((A' - A) + (y - c * x)) by ring. eapply Rle_trans; [apply Rabs_triang|]. lra. }
  assert (V : Rabs (A' + y) <= 11 / 10 * (S + p) + 4001 * h).
  { pose proof (close_abs _ _ _ W) as C. assert (Rabs (A + c * x) <= S + p) by (eapply Rle_trans; [apply Rabs_triang|]; fold p; lra). lra. }
  destruct (rnd (A' + y)) as [E2 R2]; [lra|]. exists (round64 (A' + y)). split.
  - unfold fmul. cbn [nmul fl_num]. rewrite E1. exact E2.
  - fold e h in R2. assert (e * Rabs (A' + y) <= e * (11 / 10 * (S + p) + 4001 * h)) by (apply Rmult_le_compat_l; lra).
    assert (eh : e * h <= / 1000000 * h) by (apply Rmult_le_compat_r; lra).
    replace (e * (11 / 10 * (S + p) + 4001 * h)) with (11 / 10 * (e * S + e * p) + 4001 * (e * h)) in * by ring.
    replace (2 * (K + 1) * e * (S + p)) with (2 * K * e * S + 2 * (e * S) + 2 * K * (e * p) + 2 * (e * p)) by ring.
    assert (1 * (e * p) <= K * (e * p)) by (apply Rmult_le_compat_r; lra).
    replace (round64 (A' + y) - (A + c * x)) with ((round64 (A' + y) - (A' + y)) + (A' + y - (A + c * x))) by ring. eapply Rle_trans; [apply Rabs_triang|].
    replace (2 * K * (e * p)) with (2 * (K * (e * p))) by ring. set (Q := 2 * K * e * S) in *. set (Q2 := K * (e * p)) in *. 
    replace (4 * (K + 1) * h) with (4 * K * h + 4 * h) by ring. set (Q3 := 4 * K * h) in *. lra.
Qed.
Lemma add_terms j cs : forall rows k A A' S, length cs = length rows -> (1 <= k)%nat -> (k + length cs <= 1000)%nat -> Rabs A <= S -> S <= INR k * 10 ^ 200 -> Rabs (A' - A) <= 2 * INR k * u * S + 4 * INR k * et ->
  (forall c, In c cs -> Rabs c <= 10 ^ 100) -> (forall row, In row rows -> Rabs (nth j row 0) <= 10 ^ 100) ->
  exists z, fold_left fadd (zipwith (fun c row => fmul (Fin c) (Fin (nth j row 0))) cs rows) (Fin A') = Fin z /\
    Rabs (z - (A + combination cs rows j)) <= 2 * INR (k + length cs) * u * (S + magnitude cs rows j) + 4 * INR (k + length cs) * et.
Proof.
  induction cs as [|c cs IH]; intros [|row rows] k A A' S HL K1 K2 HA HS D Hc Hr; try discriminate; cbn [zipwith fold_left combination magnitude length].
  - rewrite Nat.add_0_r, !Rplus_0_r. eauto.
  - cbn [length] in *. assert (Pc : Rabs (c * nth j row 0) <= 10 ^ 200).
    { rewrite Rabs_mult. apply Rle_trans with (10 ^ 100 * 10 ^ 100); [apply Rmult_le_compat; try apply Rabs_pos; [apply Hc|apply Hr]; left; auto|]. rewrite <- pow_add. apply Rle_pow; [lra|lia]. }
    destruct (add_term k A A' S c (nth j row 0)) as (z & E & B); auto; [lia|apply Hc; left; auto|apply Hr; left; auto|]. rewrite E.
    destruct (IH rows (k + 1)%nat (A + c * nth j row 0) z (S + Rabs (c * nth j row 0))) as (z' & E' & B'); auto; try lia.
    + eapply Rle_trans; [apply Rabs_triang|]. lra.
    + rewrite plus_INR. cbn [INR]. lra.
    + intros c' H'. apply Hc. right. auto.
    + intros r' H'. apply Hr. right. auto.
    + exists z'. split; auto. replace (k + Datatypes.S (length cs))%nat with (k + 1 + length cs)%nat by lia. rewrite <- !Rplus_assoc. exact B'.
Qed.
Lemma nth_scaled c row j : (j < length row)%nat -> nth j (map (fmul (Fin c)) (map Fin row)) NaN = fmul (Fin c) (Fin (nth j row 0)).
Proof.
  intros H. rewrite map_map. rewrite (nth_indep _ NaN (fmul (Fin c) (Fin 0))) by (rewrite map_length; auto). exact (map_nth (fun x => fmul (Fin c) (Fin x)) row 0 j).
Qed.
Lemma scaled_rows n j cs : forall rows, (j < n)%nat -> (forall row, In row rows -> length row = n) ->
  map (fun row => nth j row NaN) (zipwith (fun c row => map (fmul c) row) (map Fin cs) (map (map Fin) rows)) = zipwith (fun c row => fmul (Fin c) (Fin (nth j row 0))) cs rows.
Proof.
  induction cs as [|c cs IH]; intros [|row rows] Hj H; cbn [map zipwith]; auto. rewrite nth_scaled by (rewrite (H row); [auto|left; auto]). f_equal. apply IH; auto.
  intros r Hr. apply H. right. auto.
Qed.
Lemma scaled_lengths n cs : forall rows, (forall row, In row rows -> length row = n) ->
  forall x, In x (zipwith (fun c row => map (fmul c) row) (map Fin cs) (map (map Fin) rows)) -> length x = n.
Proof.
  induction cs as [|c cs IH]; intros [|row rows] H x Hx; cbn [map zipwith] in Hx; try contradiction. destruct Hx as [<- | Hx].
  - rewrite !map_length. apply H. left. auto.
  - apply (IH rows); [intros r Hr; apply H; right; auto|exact Hx].
Qed.
Lemma estimate_bins n c cs row rows j : row_of n row -> (forall r, In r rows -> row_of n r) -> (j < n)%nat ->
  nth j (estimate_double (map Fin (c :: cs)) (map (map Fin) (row :: rows))) NaN =
    fold_left fadd (zipwith (fun c row => fmul (Fin c) (Fin (nth j row 0))) cs rows) (fmul (Fin c) (Fin (nth j row 0))) /\
  length (estimate_double (map Fin (c :: cs)) (map (map Fin) (row :: rows))) = n.
Proof.
  intros [Hl _] Hr Hj. unfold estimate_double. cbn [map zipwith].
  assert (L : forall r, In r rows -> length r = n) by (intros r H; apply Hr; auto).
  destruct (nth_fold_rows n j (zipwith (fun c row => map (fmul c) row) (map Fin cs) (map (map Fin) rows)) (map (fmul (Fin c)) (map Fin row))) as [E1 E2].
  - rewrite !map_length. auto.
  - apply scaled_lengths. auto.
  - split; auto. rewrite E1. rewrite (scaled_rows n) by auto. f_equal. apply nth_scaled. lia.
Qed.
Theorem estimate_ok n cs rows : length cs = length rows -> (1 <= length cs <= 1000)%nat -> (forall c, In c cs -> Rabs c <= 10 ^ 100) -> (forall row, In row rows -> row_of n row) -> 
  forall j, (j < n)%nat -> exists z, nth j (estimate_double (map Fin cs) (map (map Fin) rows)) NaN = Fin z /\
    Rabs (z - combination cs rows j) <= 2 * INR (length cs) * u * magnitude cs rows j + / 10 ^ 300.
Proof.
  intros HL HK Hc Hr j Hj. destruct cs as [|c cs]; [cbn in HK; lia|]. destruct rows as [|row rows]; [discriminate|].
  assert (Hrow : row_of n row) by (apply Hr; left; auto).
  destruct (estimate_bins n c cs row rows j Hrow) as [E _]; auto; [intros r H; apply Hr; right; auto|]. rewrite E.
  assert (X : forall r, In r (row :: rows) -> Rabs (nth j r 0) <= 10 ^ 100).
  { intros r H. destruct (Hr r H) as [Lr Br]. apply Br. apply nth_In. lia. }
  assert (P : Rabs (c * nth j row 0) <= 10 ^ 200).
  { rewrite Rabs_mult. apply Rle_trans with (10 ^ 100 * 10 ^ 100); [apply Rmult_le_compat; try apply Rabs_pos; [apply Hc|apply X]; left; auto|]. rewrite <- pow_add. apply Rle_pow; [lra|lia]. }
  destruct (rnd (c * nth j row 0)) as [E1 K1]; [eapply Rle_trans; [exact P|apply Rle_pow; [lra|lia]]|].
  destruct (add_terms j cs rows 1 (c * nth j row 0) (round64 (c * nth j row 0)) (Rabs (c * nth j row 0))) as (z & E2 & K2); auto.
  - cbn in HL, HK. lia.
  - lra.
  - cbn [INR]. lra.
  - cbn [INR]. destruct u_bounds. destruct et_bounds. assert (0 <= u * Rabs (c * nth j row 0)) by (apply Rmult_le_pos; [lra|apply Rabs_pos]). lra.
  - intros c' H. apply Hc. right. auto.
  - intros r H. apply X. right. auto.
  - exists z. split.
    + unfold fmul at 2. cbn [nmul fl_num]. rewrite E1. auto.
    + cbn [combination magnitude length]. change (1 + length cs)%nat with (S (length cs)) in K2. eapply Rle_trans; [exact K2|].
      assert (4 * INR (S (length cs)) * et <= / 10 ^ 300); [|lra]. destruct et_bounds as [T0 T1].
      assert (INR (S (length cs)) <= 1000) by (replace 1000 with (INR 1000) by (rewrite INR_IZR_INZ; auto); apply le_INR; cbn in HK |- *; lia).
      apply Rle_trans with (4000 * / 10 ^ 320); [|rewrite Rmult_comm; apply inv_le; pw]. apply Rmult_le_compat; try lra. pose proof (pos_INR (S (length cs))). lra.
Qed.
(** exactly the parameters of the grid point *)
Lemma fmul_one x : double x -> Rabs x <= 10 ^ 100 -> fmul (Fin 1) (Fin x) = Fin x.
Proof. intros D B. unfold fmul. cbn [nmul fl_num]. rewrite Rmult_1_l. apply fl_id; auto. eapply Rle_trans; [exact B|apply Rle_pow; [lra|lia]]. Qed.
Lemma fmul_zero' x : fmul (Fin 0) (Fin x) = Fin 0.
Proof. unfold fmul. cbn [nmul fl_num]. rewrite Rmult_0_l. apply fl_zero. Qed.
Lemma fadd_zero_r x : double x -> Rabs x <= 10 ^ 100 -> fadd (Fin x) (Fin 0) = Fin x.
Proof. intros D B. unfold fadd. cbn [nadd fl_num]. rewrite Rplus_0_r. apply fl_id; auto. eapply Rle_trans; [exact B|apply Rle_pow; [lra|lia]]. Qed.
Lemma fadd_zero_l x : double x -> Rabs x <= 10 ^ 100 -> fadd (Fin 0) (Fin x) = Fin x.
Proof. intros D B. unfold fadd. cbn [nadd fl_num]. rewrite Rplus_0_l. apply fl_id; auto. eapply Rle_trans; [exact B|apply Rle_pow; [lra|lia]]. Qed.
Lemma list_by_nth (l : list num) (r : list R) : length l = length r -> (forall j, (j < length r)%nat -> nth j l NaN = Fin (nth j r 0)) -> l = map Fin r.
Proof.
  revert r. induction l as [|a l IH]; intros [|b r] H E; try discriminate; auto. cbn [map]. f_equal.
  - apply (E 0%nat). cbn. lia.
  - apply IH; [cbn in H; lia|]. intros j Hj. apply (E (S j)). cbn. lia.
Qed.
Theorem estimate_at_point n r1 r2 r3 : row_of n r1 -> row_of n r2 -> row_of n r3 ->
  let rows := [map Fin r1; map Fin r2; map Fin r3] in
  estimate_double [Fin 1; Fin 0; Fin 0] rows = map Fin r1 /\ estimate_double [Fin 0; Fin 1; Fin 0] rows = map Fin r2 /\ estimate_double [Fin 0; Fin 0; Fin 1] rows = map Fin r3.
Proof.
  intros R1 R2 R3 rows. unfold rows.
  assert (I : forall r, In r [r2; r3] -> row_of n r) by (intros r [<-|[<-|[]]]; auto).
  assert (B : forall c1 c2 c3, estimate_double [Fin c1; Fin c2; Fin c3] [map Fin r1; map Fin r2; map Fin r3] = estimate_double (map Fin [c1; c2; c3]) (map (map Fin) [r1; r2; r3])) by auto.
  rewrite !B. pose proof R1 as [L1 D1]. pose proof R2 as [L2 D2]. pose proof R3 as [L3 D3].
  assert (Z : double 0 /\ Rabs 0 <= 10 ^ 100) by (split; [apply d_zero|rewrite Rabs_R0; apply pow_le; lra]). destruct Z as [Z1 Z2].
  repeat split; destruct (Nat.eq_dec n 0) as [N0|N0].
  1,3,5: destruct r1, r2, r3; cbn in *; subst; try discriminate; reflexivity.
  all: apply list_by_nth; [rewrite ?L1, ?L2, ?L3; apply (estimate_bins n _ _ r1 [r2; r3] 0); auto; lia|intros j Hj].
  all: destruct (estimate_bins n 1 [0; 0] r1 [r2; r3] j R1 I) as [E _]; [lia|]; destruct (estimate_bins n 0 [1; 0] r1 [r2; r3] j R1 I) as [E' _]; [lia|]; destruct (estimate_bins n 0 [0; 1] r1 [r2; r3] j R1 I) as [E'' _]; [lia|].
  1: rewrite E. 2: rewrite E'. 3: rewrite E''.
  all: cbn [zipwith fold_left]; rewrite !fmul_zero'.
  - destruct (D1 (nth j r1 0)) as [A1 A2]; [apply nth_In; lia|]. rewrite fmul_one, !fadd_zero_r; auto.
  - destruct (D2 (nth j r2 0)) as [A1 A2]; [apply nth_In; lia|]. rewrite fmul_one, fadd_zero_l, fadd_zero_r; auto.
  - destruct (D3 (nth j r3 0)) as [A1 A2]; [apply nth_In; lia|]. rewrite fmul_one, fadd_zero_l by auto. rewrite fadd_zero_l; auto.
Qed.
Theorem barycentric_estimate_at_points n p1 p2 p3 r1 r2 r3 : location p1 -> location p2 -> location p3 -> fat p1 p2 p3 -> row_of n r1 -> row_of n r2 -> row_of n r3 ->
  let estimate t := estimate_double (barycentric_double (fin p1) (fin p2) (fin p3) (fin t)) [map Fin r1; map Fin r2; map Fin r3] in
  estimate p1 = map Fin r1 /\ estimate p2 = map Fin r2 /\ estimate p3 = map Fin r3.
Proof.
  intros L1 L2 L3 F R1 R2 R3 estimate. unfold estimate. destruct (barycentric_at_points p1 p2 p3 L1 L2 L3 F) as (E1 & E2 & E3). rewrite E1, E2, E3. apply (estimate_at_point n); auto.
Qed.
Theorem thin_refuted : exists p1 p2 p3, location p1 /\ location p2 /\ location p3 /\ area2 p1 p2 p3 <> 0 /\
  barycentric_double (fin p1) (fin p2) (fin p3) (fin p1) = [NaN; NaN; NaN].
Proof.
  exists thin1, thin2, (0, 0). destruct thin_location as (A & B & C). destruct thin_triangle_nan as [D E]. split; [auto|]. split; [auto|]. split; [auto|]. split; [|auto].
  rewrite D. apply Rinv_neq_0_compat, pow_nonzero. lra.
Qed.
Theorem segment_other_refuted : exists inverse g0 g1, accurate_inverse inverse /\ coordinate g0 /\ coordinate g1 /\ g0 < g1 /\
  segment_double inverse (Fin g0) (Fin g1) (Fin g1) = [Fin (/ 2 ^ 53); Fin (1 - / 2 ^ 53)].
Proof.
  exists rounded_inverse, 0, 49. split; [apply rounded_inverse_accurate|]. split; [|split; [|split; [lra|apply segment_other_point]]].
  - split; [apply d_zero|]. apply le_60. rewrite Rabs_R0. lra.
  - split; [(replace 49 with (IZR 49 / IZR (2 ^ 0)) by (cbn; lra); apply double_q; cbn; lia)|]. rewrite Rabs_right by lra. pw.
Qed.
Lemma unit_triangle_meets : fat (0, 0) (1, 0) (0, 1).
Proof.
  unfold fat, area2, products. cbn [fst snd]. replace ((0 - 1) * (0 - 0) - (1 - 0) * (0 - 1)) with 1 by ring. replace ((0 - 1) * (0 - 0)) with 0 by ring. replace ((1 - 0) * (0 - 1)) with (- (1)) by ring.
  rewrite Rabs_Ropp, Rabs_R0, !Rabs_R1. split; [apply (Rle_trans _ (/ 10 ^ 0)); [apply ten_inv; lia|lra]|]. assert (1 <= 10 ^ 9) by (apply pow_R1_Rle; lra). lra.
Qed.
Lemma unit_locations : location (0, 0) /\ location (1, 0) /\ location (0, 1) /\ location (1 / 4, 1 / 2).
Proof.
  assert (A : double (1 / 4)) by (apply (double_q 1 2); cbn; lia). assert (B : double (1 / 2)) by (apply (double_q 1 1); cbn; lia).
  repeat split; cbn [fst snd]; auto using d_one, d_zero; apply le_60; apply Rabs_le; lra.
Qed.
