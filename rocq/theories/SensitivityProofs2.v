(** * SensitivityProofs2: outcomes and the root bracket *)
From Coq Require Import String Reals List Bool ZArith Lia Lra Psatz.
From Verif Require Import Num Numpy Table Binning Utils Statistics SpecStatistics StatisticsProofs
  Sensitivity SpecSensitivity SensitivityProofs.
Import ListNotations.
Open Scope R_scope.

(** ** C21 *)
Lemma c21_nan br sig n_on n_off a s m e : n_on = NaN \/ n_off = NaN ->
  relative_sensitivity1 br sig n_on n_off a s m e = Ok NaN.
Proof. intros [->| ->]; unfold relative_sensitivity1; cbn [is_nan orb]; rewrite ?orb_true_r; auto. Qed.
Lemma c21_negative br sig n_on n_off a s m e : n_on <> NaN -> n_off <> NaN ->
  nlt n_on (Fin 0) = true \/ nlt n_off (Fin 0) = true ->
  relative_sensitivity1 br sig n_on n_off a s m e = Err ValueError.
Proof.
  intros H1 H2 H. unfold relative_sensitivity1.
  assert (N1 : is_nan n_on = false) by (destruct n_on; auto; congruence).
  assert (N2 : is_nan n_off = false) by (destruct n_off; auto; congruence).
  rewrite N1, N2. cbn [orb]. destruct H as [-> | ->]; rewrite ?orb_true_r; auto.
Qed.
Lemma c21_no_signal br sig n_on n_off a s m e : 0 <= n_on -> 0 <= n_off -> n_on <= a * n_off ->
  relative_sensitivity1 br sig (Fin n_on) (Fin n_off) (Fin a) s m e = Ok PInf.
Proof.
  intros H1 H2 H. unfold relative_sensitivity1. cbn [is_nan orb nlt].
  destruct (Rltb_spec n_on 0); [lra|]. destruct (Rltb_spec n_off 0); [lra|]. cbn [orb nmul nsub nneg nadd nle].
  destruct (Rleb_spec (n_on + - (n_off * a)) 0); [auto|]. lra.
Qed.
Lemma bounds_ok N b a s : 0 < N -> 0 <= b -> 0 < a -> 0 < s ->
  0 < lower_b N (a * b) b s /\ lower_b N (a * b) b s <= upper_b N (a * b) b s.
Proof.
  intros HN Hb Ha Hs. unfold lower_b, upper_b. destruct (Rltb_spec 1 b); [|lra].
  assert (0 < s * sqrt (a * b) / N); [|lra].
  apply Rdiv_lt_0_compat; auto. apply Rmult_lt_0_compat; auto. apply sqrt_lt_R0. nra.
Qed.
Lemma c21_signal br n_on b a s m e : brentq_sound br ->
  (forall f x y ex, br f x y = Err ex -> ex = ValueError \/ ex = RuntimeError) ->
  0 <= b -> 0 < a -> 0 < s -> a * b < n_on ->
  relative_sensitivity1 br li_ma1 (Fin n_on) (Fin b) (Fin a) (Fin s) (Fin m) (Fin e) = Ok NaN \/
  exists r, 0 < r /\
  relative_sensitivity1 br li_ma1 (Fin n_on) (Fin b) (Fin a) (Fin s) (Fin m) (Fin e) = Ok (Fin r).
Proof.
  intros HS HE Hb Ha Hs HN. assert (Hab : 0 <= a * b) by nra.
  rewrite rel_sens_fin by (rewrite ?(Rmult_comm b a); lra). cbv zeta. rewrite (Rmult_comm b a).
  destruct (bounds_ok (n_on - a * b) b a s ltac:(lra) Hb Ha Hs) as [L1 L2].
  destruct (br _ _ _) as [r0|ex] eqn:E.
  - right. destruct (HS _ _ _ _ L2 E) as [Hr _]. cbn [nlt].
    set (M := Rmax m (e * (a * b))). set (N := n_on - a * b) in *.
    assert (0 < N * r0) by (apply Rmult_lt_0_compat; unfold N in *; lra).
    destruct (Rltb_spec (N * r0) M).
    + rewrite ndiv_fin by lra. exists (r0 * (M / (N * r0))). split; [|reflexivity].
      apply Rmult_lt_0_compat; [lra|]. apply Rdiv_lt_0_compat; lra.
    + exists (r0 * 1). split; [lra|reflexivity].
  - left. destruct (HE _ _ _ _ E) as [->| ->]; auto.
Qed.
Lemma bisect_exn f x y ex : bisect_solver f x y = Err ex -> ex = ValueError \/ ex = RuntimeError.
Proof.
  unfold bisect_solver.
  assert (B : forall n p q, bis f n p q = Err ex -> ex = ValueError).
  { induction n; cbn [bis]; intros p q; [discriminate|]. cbv zeta.
    destruct (nle (f ((p + q) / 2)) (Fin 0)); [apply IHn|].
    destruct (nle (Fin 0) (f ((p + q) / 2))); [apply IHn|]. congruence. }
  destruct (_ && _); [|destruct (_ && _); [|intros H; left; congruence]];
    destruct (bis f _ _ _) eqn:E; simpl; intros H; try discriminate; left;
    injection H as ->; exact (B _ _ _ E).
Qed.

(** ** C23: consequences *)
Lemma c23_unique br1 br2 n_on b a s m e r1 r2 : brentq_sound br1 -> brentq_sound br2 ->
  0 <= n_on -> 0 <= b -> 0 < a -> 0 < s -> a * b < n_on ->
  relative_sensitivity1 br1 li_ma1 (Fin n_on) (Fin b) (Fin a) (Fin s) (Fin m) (Fin e) = Ok (Fin r1) ->
  relative_sensitivity1 br2 li_ma1 (Fin n_on) (Fin b) (Fin a) (Fin s) (Fin m) (Fin e) = Ok (Fin r2) ->
  Rabs (r1 - r2) <= brentq_tol r1 + brentq_tol r2.
Proof.
  intros S1 S2 Hon Hb Ha Hs HN E1 E2.
  destruct (rel_sens_sound br1 n_on b a s m e r1 S1 Hon Hb Ha Hs HN E1) as (_ & _ & _ & A1 & B1).
  destruct (rel_sens_sound br2 n_on b a s m e r2 S2 Hon Hb Ha Hs HN E2) as (_ & _ & _ & A2 & B2).
  pose proof (B2 _ (A1 (r1 + brentq_tol r1) ltac:(lra))). pose proof (B1 _ (A2 (r2 + brentq_tol r2) ltac:(lra))).
  unfold Rabs. destruct (Rcase_abs _); lra.
Qed.
Lemma detectable_scale c N b a s m e r : detectable (c * N) b a s m e r <-> detectable N b a s m e (c * r).
Proof. unfold detectable. replace (c * N * r) with (N * (c * r)) by ring. tauto. Qed.
Lemma c23_scale br1 br2 c N b a s m e r1 r2 : brentq_sound br1 -> brentq_sound br2 ->
  0 < c -> 0 < N -> 0 <= b -> 0 < a -> 0 < s ->
  relative_sensitivity1 br1 li_ma1 (Fin (N + a * b)) (Fin b) (Fin a) (Fin s) (Fin m) (Fin e) = Ok (Fin r1) ->
  relative_sensitivity1 br2 li_ma1 (Fin (c * N + a * b)) (Fin b) (Fin a) (Fin s) (Fin m) (Fin e) = Ok (Fin r2) ->
  Rabs (r2 - r1 / c) <= brentq_tol r2 + brentq_tol r1 / c.
Proof.
  intros S1 S2 Hc HN Hb Ha Hs E1 E2. assert (Hab : 0 <= a * b) by nra. assert (HcN : 0 < c * N) by nra.
  destruct (rel_sens_sound br1 (N + a * b) b a s m e r1 S1 ltac:(lra) Hb Ha Hs ltac:(lra) E1) as (_ & _ & _ & A1 & B1).
  destruct (rel_sens_sound br2 (c * N + a * b) b a s m e r2 S2 ltac:(lra) Hb Ha Hs ltac:(lra) E2) as (_ & _ & _ & A2 & B2).
  replace (N + a * b - a * b) with N in A1, B1 by ring.
  replace (c * N + a * b - a * b) with (c * N) in A2, B2 by ring.
  assert (D1 : r2 - brentq_tol r2 <= (r1 + brentq_tol r1) / c).
  { apply B2. apply detectable_scale. replace (c * ((r1 + brentq_tol r1) / c)) with (r1 + brentq_tol r1) by (field; lra).
    apply A1. lra. }
  assert (D2 : r1 - brentq_tol r1 <= c * (r2 + brentq_tol r2)).
  { apply B1. apply detectable_scale. apply A2. lra. }
  assert (D3 : (r1 - brentq_tol r1) / c <= r2 + brentq_tol r2).
  { apply (Rmult_le_reg_l c); auto. replace (c * ((r1 - brentq_tol r1) / c)) with (r1 - brentq_tol r1) by (field; lra). lra. }
  unfold Rdiv in *. rewrite Rmult_plus_distr_r in D1. unfold Rminus in D3. rewrite Rmult_plus_distr_r in D3.
  unfold Rabs. destruct (Rcase_abs _); lra.
Qed.

(** ** C24: the bracket *)
Lemma slope_excess v b a : 0 < a -> 0 <= b -> 0 < v ->
  slope (a * b + v) b a = ln (1 + v / ((1 + a) * (a * b) + a * v)).
Proof.
  intros Ha Hb Hv. unfold slope. f_equal. rewrite slope_arg by nra. f_equal.
  replace (a * b + v - a * b) with v by ring. f_equal. ring.
Qed.
(** significance at an excess [v] from below and above *)
Lemma ts_upper v b a : 0 < a -> 0 <= b -> 0 < v ->
  ts (a * b + v) b a <= v * ln (1 + v / ((1 + a) * (a * b) + a * v)).
Proof.
  intros Ha Hb Hv. rewrite <- slope_excess by auto. destruct (Req_dec b 0) as [->|Hn].
  - unfold ts, slope, xlny. rewrite Rmult_0_r, Rplus_0_l, Rplus_0_r.
    destruct (Req_EM_T v 0); [lra|]. destruct (Req_EM_T 0 0); [|lra]. lra.
  - pose proof (ts_tangent (a * b + v) (a * b) b a ltac:(nra) ltac:(nra) Hb Ha ltac:(nra)) as H.
    rewrite ts_zero in H by auto. lra.
Qed.
Lemma ts_lower w b a : 0 < a -> 0 <= b -> 0 < w ->
  w * ln (1 + w / ((1 + a) * (a * b) + a * w)) <= ts (a * b + 2 * w) b a.
Proof.
  intros Ha Hb Hw. rewrite <- slope_excess by auto. assert (0 <= a * b) by nra.
  pose proof (ts_tangent (a * b + w) (a * b + 2 * w) b a ltac:(lra) ltac:(lra) Hb Ha ltac:(lra)) as H1.
  assert (0 <= ts (a * b + w) b a) by (apply ts_nonneg; lra). lra.
Qed.
Lemma lima_ge x b a s : 0 <= b -> 0 < a -> a * b <= x -> 0 <= s -> s * s <= 2 * ts x b a -> s <= lima x b a.
Proof.
  intros. rewrite lima_excess by auto. rewrite <- (sqrt_square s) by auto. apply sqrt_le_1_alt. auto.
Qed.
Lemma lima_le x b a s : 0 <= b -> 0 < a -> a * b <= x -> 0 <= s -> 2 * ts x b a <= s * s -> lima x b a <= s.
Proof.
  intros. rewrite lima_excess by auto. rewrite <- (sqrt_square s) by auto. apply sqrt_le_1_alt. auto.
Qed.
Lemma lima_lt x b a s : 0 <= b -> 0 < a -> a * b < x -> 0 <= s -> 2 * ts x b a < s * s -> lima x b a < s.
Proof.
  intros. rewrite lima_excess by lra. rewrite <- (sqrt_square s) by auto. apply sqrt_lt_1_alt.
  split; auto. assert (0 < ts x b a) by (apply ts_pos; nra). lra.
Qed.
Lemma lima_gt x b a s : 0 <= b -> 0 < a -> a * b <= x -> 0 <= s -> s * s < 2 * ts x b a -> s < lima x b a.
Proof.
  intros. rewrite lima_excess by lra. rewrite <- (sqrt_square s) by auto. apply sqrt_lt_1_alt. nra.
Qed.

(** if the significance brackets the target, a finite value is found *)
Lemma rel_sens_finite br n_on b a s m e : brentq_sound br -> brentq_converges br ->
  0 <= b -> 0 < a -> 0 < s -> a * b < n_on ->
  let N := n_on - a * b in
  lima (N * lower_b N (a * b) b s + a * b) b a <= s ->
  s <= lima (N * upper_b N (a * b) b s + a * b) b a ->
  exists r, relative_sensitivity1 br li_ma1 (Fin n_on) (Fin b) (Fin a) (Fin s) (Fin m) (Fin e) = Ok (Fin r) /\ 0 < r.
Proof.
  intros HS HC Hb Ha Hs HNp N H1 H2. assert (Hab : 0 <= a * b) by nra.
  rewrite rel_sens_fin by (rewrite ?(Rmult_comm b a); lra). cbv zeta. rewrite (Rmult_comm b a). fold N.
  destruct (bounds_ok N b a s ltac:(unfold N; lra) Hb Ha Hs) as [L1 L2].
  assert (HN : 0 < N) by (unfold N; lra).
  assert (EQ : forall x, lower_b N (a * b) b s <= x ->
     eqn N (a * b) b a s x = Fin (lima (N * x + a * b) b a - s)).
  { intros x Hx. replace (a * b) with (b * a) at 1 by ring. rewrite eqn_val; auto.
    - do 3 f_equal. ring.
    - assert (0 <= N * x) by (apply Rmult_le_pos; lra). nra. }
  destruct (HC (eqn N (a * b) b a s) (lower_b N (a * b) b s) (upper_b N (a * b) b s) L2) as [r0 E].
  - intros x Hx. rewrite EQ by lra. auto.
  - rewrite EQ by lra. unfold nle. rcmp. lra.
  - rewrite EQ by lra. unfold nle. rcmp. lra.
  - rewrite E. destruct (HS _ _ _ _ L2 E) as [Hr _]. cbn [nlt].
    set (M := Rmax m (e * (a * b))).
    assert (0 < N * r0) by (apply Rmult_lt_0_compat; lra).
    destruct (Rltb_spec (N * r0) M).
    + rewrite ndiv_fin by lra. exists (r0 * (M / (N * r0))). split; [reflexivity|].
      apply Rmult_lt_0_compat; [lra|]. apply Rdiv_lt_0_compat; lra.
    + exists (r0 * 1). split; [reflexivity|lra].
Qed.

Lemma at_bounds N b a s : 0 < N -> 1 < b ->
  N * lower_b N (a * b) b s = s * sqrt (a * b) / 100 /\ N * upper_b N (a * b) b s = 10 * (s * sqrt (a * b)).
Proof.
  intros HN Hb. unfold lower_b, upper_b. destruct (Rltb_spec 1 b); [|lra]. split; field; lra.
Qed.
Lemma lower_ok b a s : 1 < b -> 0 < a -> 0 < s -> lima (s * sqrt (a * b) / 100 + a * b) b a <= s.
Proof.
  intros Hb Ha Hs. set (z := sqrt (a * b)). assert (Hab : 0 < a * b) by nra.
  assert (Hz : 0 < z) by (apply sqrt_lt_R0; auto). assert (Hzz : z * z = a * b) by (apply sqrt_sqrt; lra).
  set (v := s * z / 100). assert (Hv : 0 < v) by (unfold v; nra). rewrite Rplus_comm.
  apply lima_le; try lra.
  pose proof (ts_upper v b a Ha ltac:(lra) Hv) as T.
  set (D := (1 + a) * (a * b) + a * v) in *. assert (HD : a * b <= D) by (unfold D; nra).
  assert (HvD : 0 < v / D) by (apply Rdiv_lt_0_compat; lra).
  pose proof (ln_le_sub1 (1 + v / D) ltac:(lra)) as L.
  assert (B : v / D <= v / (a * b)).
  { unfold Rdiv. apply Rmult_le_compat_l; [lra|]. apply Rinv_le_contravar; lra. }
  assert (C : v * (v / (a * b)) = s * s / 10000).
  { rewrite <- Hzz. unfold v. field. lra. }
  assert (v * ln (1 + v / D) <= v * (v / (a * b))) by (apply Rmult_le_compat_l; lra).
  assert (0 < s * s) by nra. lra.
Qed.
Lemma upper_ok_general b a s : 1 < b -> 0 < a <= 1 -> 0 < s -> 5 * s <= 24 * sqrt (a * b) ->
  s <= lima (10 * (s * sqrt (a * b)) + a * b) b a.
Proof.
  intros Hb [Ha Ha1] Hs Hc. set (z := sqrt (a * b)) in *. assert (Hab : 0 < a * b) by nra.
  assert (Hz : 0 < z) by (apply sqrt_lt_R0; auto). assert (Hzz : z * z = a * b) by (apply sqrt_sqrt; lra).
  set (w := 5 * (s * z)). assert (Hw : 0 < w) by (unfold w; nra).
  replace (10 * (s * z) + a * b) with (a * b + 2 * w) by (unfold w; ring).
  apply lima_ge; try lra.
  pose proof (ts_lower w b a Ha ltac:(lra) Hw) as T.
  set (D := (1 + a) * (a * b) + a * w) in *. assert (HD : 0 < D) by (unfold D; nra).
  assert (HwD : 0 < w / D) by (apply Rdiv_lt_0_compat; lra).
  pose proof (ln_ge (1 + w / D) ltac:(lra)) as L.
  assert (E : 1 - / (1 + w / D) = w / (D + w)) by (field; lra).
  rewrite E in L.
  assert (B : w / (2 * (a * b + w)) <= w / (D + w)).
  { unfold Rdiv. apply Rmult_le_compat_l; [lra|]. apply Rinv_le_contravar; [lra|]. unfold D. nra. }
  assert (C : w * (w / (2 * (a * b + w))) <= w * ln (1 + w / D)) by (apply Rmult_le_compat_l; lra).
  assert (F : s * s / 2 <= w * (w / (2 * (a * b + w)))).
  { apply (Rmult_le_reg_r (2 * (a * b + w))); [lra|].
    replace (w * (w / (2 * (a * b + w))) * (2 * (a * b + w))) with (w * w) by (field; lra).
    rewrite <- Hzz. unfold w.
    replace (s * s / 2 * (2 * (z * z + 5 * (s * z)))) with (s * s * z * (z + 5 * s)) by field.
    replace (5 * (s * z) * (5 * (s * z))) with (s * s * z * (25 * z)) by ring.
    apply Rmult_le_compat_l; [nra|]. lra. }
  lra.
Qed.

(** a sharper logarithm bound *)
Lemma deriv_shift c t : derivable_pt_lim (fun u => c + u) t 1.
Proof.
  pose proof (derivable_pt_lim_plus (fct_cte c) id t 0 1 (derivable_pt_lim_const c t) (derivable_pt_lim_id t)) as H.
  rewrite Rplus_0_l in H. exact H.
Qed.
Lemma deriv_scale c t : derivable_pt_lim (fun u => c * u) t c.
Proof.
  pose proof (derivable_pt_lim_scal id c t 1 (derivable_pt_lim_id t)) as H.
  rewrite Rmult_1_r in H. exact H.
Qed.
Lemma ln_ge2 y : 0 <= y -> 2 * y / (2 + y) <= ln (1 + y).
Proof.
  intros [Hy| <-]; [|replace (1 + 0) with 1 by lra; rewrite ln_1; lra].
  set (g := fun t => ln (1 + t) - 2 * t / (2 + t)).
  set (g' := fun t => / (1 + t) - 4 / ((2 + t) * (2 + t))).
  assert (D : forall t, 0 <= t <= y -> derivable_pt_lim g t (g' t)).
  { intros t [Ht _]. unfold g, g'.
    apply (derivable_pt_lim_minus (fun t => ln (1 + t)) (fun t => 2 * t / (2 + t))).
    - replace (/ (1 + t)) with (/ (1 + t) * 1) by ring.
      apply (derivable_pt_lim_comp (fun t => 1 + t) ln); [apply deriv_shift|].
      apply derivable_pt_lim_ln. lra.
    - replace (4 / ((2 + t) * (2 + t))) with ((2 * (2 + t) - 1 * (2 * t)) / Rsqr (2 + t)) by (unfold Rsqr; field; lra).
      apply (derivable_pt_lim_div (fun t => 2 * t) (fun t => 2 + t)); [apply deriv_scale|apply deriv_shift|lra]. }
  destruct (MVT_cor2 g g' 0 y Hy D) as (c & E & Hc).
  assert (Hg0 : g 0 = 0). { unfold g. replace (1 + 0) with 1 by lra. rewrite ln_1. lra. }
  assert (Hg' : 0 <= g' c).
  { unfold g'. replace (/ (1 + c) - 4 / ((2 + c) * (2 + c))) with (c * c * (/ (1 + c) * (/ (2 + c) * / (2 + c)))) by (field; lra).
    assert (0 < / (1 + c)) by (apply Rinv_0_lt_compat; lra). assert (0 < / (2 + c)) by (apply Rinv_0_lt_compat; lra).
    apply Rmult_le_pos; [nra|]. apply Rmult_le_pos; [lra|]. nra. }
  assert (0 <= g y) by nra. unfold g in H. lra.
Qed.
Lemma upper_ok_five b a : 1 < b -> 1/10 <= a <= 1 -> 5 <= lima (10 * (5 * sqrt (a * b)) + a * b) b a.
Proof.
  intros Hb [Ha Ha1]. destruct (Rle_dec 25 (24 * sqrt (a * b))) as [Hc|Hc].
  { apply upper_ok_general; lra. }
  set (z := sqrt (a * b)) in *. assert (Hab : 0 < a * b) by nra.
  assert (Hz : 0 < z) by (apply sqrt_lt_R0; auto). assert (Hzz : z * z = a * b) by (apply sqrt_sqrt; lra).
  set (w := 25 * z). assert (Hw : 0 < w) by (unfold w; lra).
  replace (10 * (5 * z) + a * b) with (a * b + 2 * w) by (unfold w; ring).
  apply lima_ge; try lra.
  pose proof (ts_lower w b a ltac:(lra) ltac:(lra) Hw) as T.
  set (D := (1 + a) * (a * b) + a * w) in *. assert (HD : 0 < D) by (unfold D; nra).
  assert (HwD : 0 < w / D) by (apply Rdiv_lt_0_compat; lra).
  pose proof (ln_ge2 (w / D) ltac:(lra)) as L.
  assert (E : 2 * (w / D) / (2 + w / D) = 2 * w / (2 * D + w)) by (field; lra).
  rewrite E in L.
  assert (C : w * (2 * w / (2 * D + w)) <= w * ln (1 + w / D)) by (apply Rmult_le_compat_l; lra).
  assert (F : 25 / 2 <= w * (2 * w / (2 * D + w))).
  { apply (Rmult_le_reg_r (2 * D + w)); [lra|].
    replace (w * (2 * w / (2 * D + w)) * (2 * D + w)) with (2 * w * w) by (field; lra).
    unfold D. rewrite <- Hzz. unfold w.
    assert (Haz : a <= z * z) by nra.
    assert (Hz3 : 3/10 < z) by nra.
    assert (Q : 2 * (1 + a) * z + 50 * a + 25 <= 100 * z).
    { assert (2 * (1 + a) * z <= 4 * z) by nra.
      assert (50 * (z * z) + 25 <= 96 * z).
      { assert (31/100 < z) by nra. nra. }
      lra. }
    replace (25 / 2 * (2 * ((1 + a) * (z * z) + a * (25 * z)) + 25 * z))
      with (25 / 2 * z * (2 * (1 + a) * z + 50 * a + 25)) by field.
    replace (2 * (25 * z) * (25 * z)) with (25 / 2 * z * (100 * z)) by field.
    apply Rmult_le_compat_l; lra. }
  lra.
Qed.

Lemma c24_many br n_on b a s m e : brentq_sound br -> brentq_converges br ->
  1 < b -> 0 < a <= 1 -> 0 < s -> 5 * s <= 24 * sqrt (a * b) -> a * b < n_on ->
  exists r, relative_sensitivity1 br li_ma1 (Fin n_on) (Fin b) (Fin a) (Fin s) (Fin m) (Fin e) = Ok (Fin r) /\ 0 < r.
Proof.
  intros HS HC Hb Ha Hs Hc HN. apply rel_sens_finite; auto; try lra.
  - destruct (at_bounds (n_on - a * b) b a s ltac:(lra) Hb) as [-> _]. apply lower_ok; lra.
  - destruct (at_bounds (n_on - a * b) b a s ltac:(lra) Hb) as [_ ->]. apply upper_ok_general; auto.
Qed.
Lemma c24_default br n_on b a m e : brentq_sound br -> brentq_converges br ->
  1 < b -> 1/10 <= a <= 1 -> a * b < n_on ->
  exists r, relative_sensitivity1 br li_ma1 (Fin n_on) (Fin b) (Fin a) (Fin 5) (Fin m) (Fin e) = Ok (Fin r) /\ 0 < r.
Proof.
  intros HS HC Hb Ha HN. apply rel_sens_finite; auto; try lra.
  - destruct (at_bounds (n_on - a * b) b a 5 ltac:(lra) Hb) as [-> _]. apply lower_ok; lra.
  - destruct (at_bounds (n_on - a * b) b a 5 ltac:(lra) Hb) as [_ ->]. apply upper_ok_five; auto.
Qed.

Lemma ln11 : ln 11 <= 5 / 2.
Proof.
  rewrite <- (ln_exp (5 / 2)). destruct (Rle_lt_dec (exp (5 / 2)) 11) as [H|H]; [|left; apply ln_increasing; lra].
  exfalso. assert (E : exp (5 / 2) = exp (1 / 20) ^ 50).
  { rewrite <- (Rpower_pow 50) by apply exp_pos. unfold Rpower. rewrite ln_exp. f_equal.
    rewrite INR_IZR_INZ. simpl. lra. }
  assert (L : 21 / 20 <= exp (1 / 20)). { pose proof (exp_ineq1 (1 / 20) ltac:(lra)). lra. }
  assert (P : (21 / 20) ^ 50 <= exp (1 / 20) ^ 50) by (apply pow_incr; lra).
  assert (Q : 11 < (21 / 20) ^ 50) by (simpl; lra). lra.
Qed.
Lemma c24_few br n_on b a m e : brentq_sound br -> brentq_converges br ->
  0 <= b <= 1 -> 1/10 <= a <= 1 -> 1 <= n_on - a * b <= 50000 ->
  exists r, relative_sensitivity1 br li_ma1 (Fin n_on) (Fin b) (Fin a) (Fin 5) (Fin m) (Fin e) = Ok (Fin r) /\ 0 < r.
Proof.
  intros HS HC Hb Ha HN. assert (Hab : 0 <= a * b <= 1) by nra.
  set (N := n_on - a * b) in *.
  assert (HNp : a * b < n_on) by (unfold N in HN; lra).
  apply rel_sens_finite; auto; try lra; fold N; unfold lower_b, upper_b; destruct (Rltb_spec 1 b); try lra.
  - set (v := N * (1 / 10000)). assert (Hv : 0 < v <= 5) by (unfold v; lra). rewrite Rplus_comm.
    apply lima_le; try lra.
    pose proof (ts_upper v b a ltac:(lra) ltac:(lra) ltac:(lra)) as T.
    set (D := (1 + a) * (a * b) + a * v) in *. assert (HD : a * v <= D) by (unfold D; nra).
    assert (Hav : 0 < a * v) by nra.
    assert (B : v / D <= 10).
    { apply (Rmult_le_reg_r D); [lra|]. unfold Rdiv. rewrite Rmult_assoc, Rinv_l by lra. nra. }
    assert (0 < v / D) by (apply Rdiv_lt_0_compat; lra).
    assert (L : ln (1 + v / D) <= 5 / 2).
    { eapply Rle_trans; [|apply ln11]. destruct (Req_dec (1 + v / D) 11) as [->|]; [lra|].
      left. apply ln_increasing; lra. }
    assert (v * ln (1 + v / D) <= v * (5 / 2)) by (apply Rmult_le_compat_l; lra). lra.
  - set (w := N * 50). assert (Hw : 50 <= w) by (unfold w; lra).
    replace (N * 100 + a * b) with (a * b + 2 * w) by (unfold w; ring).
    apply lima_ge; try lra.
    pose proof (ts_lower w b a ltac:(lra) ltac:(lra) ltac:(lra)) as T.
    set (D := (1 + a) * (a * b) + a * w) in *. assert (HD : 0 < D) by (unfold D; nra).
    assert (HwD : 0 < w / D) by (apply Rdiv_lt_0_compat; lra).
    pose proof (ln_ge (1 + w / D) ltac:(lra)) as L.
    assert (E : 1 - / (1 + w / D) = w / (D + w)) by (field; lra). rewrite E in L.
    assert (F : 25 / 2 <= w * (w / (D + w))).
    { apply (Rmult_le_reg_r (D + w)); [lra|].
      replace (w * (w / (D + w)) * (D + w)) with (w * w) by (field; lra). unfold D. nra. }
    assert (w * (w / (D + w)) <= w * ln (1 + w / D)) by (apply Rmult_le_compat_l; lra). lra.
Qed.

(** no sign change in the bracket: NaN *)
Lemma rel_sens_nan br n_on b a s m e : brentq_checks_signs br ->
  0 <= b -> 0 < a -> 0 < s -> a * b < n_on ->
  let N := n_on - a * b in
  lima (N * upper_b N (a * b) b s + a * b) b a < s \/ s < lima (N * lower_b N (a * b) b s + a * b) b a ->
  relative_sensitivity1 br li_ma1 (Fin n_on) (Fin b) (Fin a) (Fin s) (Fin m) (Fin e) = Ok NaN.
Proof.
  intros HS Hb Ha Hs HNp N H. assert (Hab : 0 <= a * b) by nra.
  rewrite rel_sens_fin by (rewrite ?(Rmult_comm b a); lra). cbv zeta. rewrite (Rmult_comm b a). fold N.
  destruct (bounds_ok N b a s ltac:(unfold N; lra) Hb Ha Hs) as [L1 L2].
  assert (HN : 0 < N) by (unfold N; lra).
  assert (EQ : forall x, lower_b N (a * b) b s <= x ->
     eqn N (a * b) b a s x = Fin (lima (N * x + a * b) b a - s)).
  { intros x Hx. replace (a * b) with (b * a) at 1 by ring. rewrite eqn_val; auto.
    - do 3 f_equal. ring.
    - assert (0 <= N * x) by (apply Rmult_le_pos; lra). nra. }
  assert (NL : N * lower_b N (a * b) b s <= N * upper_b N (a * b) b s) by (apply Rmult_le_compat_l; lra).
  pose proof (lima_mono (N * lower_b N (a * b) b s + a * b) (N * upper_b N (a * b) b s + a * b) b a Hb Ha ltac:(lra)) as M.
  rewrite (HS (eqn N (a * b) b a s) (lower_b N (a * b) b s) (upper_b N (a * b) b s) L2); [auto|].
  rewrite !EQ by lra. unfold nlt. destruct H as [H|H]; [right|left]; split; rcmp; lra.
Qed.
Lemma ln_pow2 n : ln (2 ^ n) <= INR n.
Proof.
  rewrite ln_pow by lra. assert (ln 2 <= 1) by (pose proof (ln_le_sub1 2 ltac:(lra)); lra).
  pose proof (pos_INR n). nra.
Qed.
Lemma sqrt_of z x : 0 <= z -> z * z = x -> sqrt x = z.
Proof. intros H <-. apply sqrt_square; auto. Qed.
Lemma c24_small_alpha br m e : brentq_checks_signs br ->
  relative_sensitivity1 br li_ma1 (Fin (1 + 1/65536 * 4)) (Fin 4) (Fin (1/65536)) (Fin 5) (Fin m) (Fin e) = Ok NaN.
Proof.
  intros HS. apply rel_sens_nan; auto; try lra. left.
  destruct (at_bounds (1 + 1/65536 * 4 - 1/65536 * 4) 4 (1/65536) 5 ltac:(lra) ltac:(lra)) as [_ ->].
  rewrite (sqrt_of (1/128) (1/65536 * 4)) by lra. rewrite Rplus_comm.
  apply lima_lt; try lra.
  pose proof (ts_upper (10 * (5 * (1/128))) 4 (1/65536) ltac:(lra) ltac:(lra) ltac:(lra)) as T.
  set (v := 10 * (5 * (1/128))) in *.
  set (D := (1 + 1/65536) * (1/65536 * 4) + 1/65536 * v) in *.
  assert (HD : 1/65536 * v <= D) by (unfold D; lra).
  assert (Hv : v = 50/128) by (unfold v; lra). rewrite Hv in HD, T.
  assert (B : 50/128 / D <= 65536).
  { apply (Rmult_le_reg_r D); [lra|]. unfold Rdiv at 1. rewrite Rmult_assoc, Rinv_l by lra. lra. }
  assert (0 < 50/128 / D) by (apply Rdiv_lt_0_compat; lra).
  assert (L : ln (1 + 50/128 / D) <= 17).
  { pose proof (ln_pow2 17) as P. replace (INR 17) with 17 in P by (rewrite INR_IZR_INZ; auto).
    eapply Rle_trans; [|exact P]. left. apply ln_increasing; [lra|]. simpl. lra. }
  rewrite Hv. lra.
Qed.
Lemma c24_large_alpha br m e : brentq_checks_signs br ->
  relative_sensitivity1 br li_ma1 (Fin (1 + 400 * 4)) (Fin 4) (Fin 400) (Fin 5) (Fin m) (Fin e) = Ok NaN.
Proof.
  intros HS. apply rel_sens_nan; auto; try lra. left.
  destruct (at_bounds (1 + 400 * 4 - 400 * 4) 4 400 5 ltac:(lra) ltac:(lra)) as [_ ->].
  rewrite (sqrt_of 40 (400 * 4)) by lra. rewrite Rplus_comm.
  apply lima_lt; try lra.
  pose proof (ts_upper 2000 4 400 ltac:(lra) ltac:(lra) ltac:(lra)) as T.
  replace (10 * (5 * 40)) with 2000 by lra.
  replace ((1 + 400) * (400 * 4) + 400 * 2000) with 1441600 in T by lra.
  pose proof (ln_le_sub1 (1 + 2000 / 1441600) ltac:(lra)). lra.
Qed.
Lemma c24_strong_source br m e : brentq_checks_signs br ->
  relative_sensitivity1 br li_ma1 (Fin 1000000) (Fin 0) (Fin (1/5)) (Fin 5) (Fin m) (Fin e) = Ok NaN.
Proof.
  intros HS. apply rel_sens_nan; auto; try lra. right.
  unfold lower_b. rsolve. apply lima_gt; try lra.
  replace ((1000000 - 1/5 * 0) * (1/10000) + 1/5 * 0) with 100 by lra.
  unfold ts, xlny. destruct (Req_EM_T 100 0); [lra|]. destruct (Req_EM_T 0 0); [|lra].
  replace ((1 + 1/5) / (1/5) * (100 / (100 + 0))) with 6 by lra.
  pose proof (ln_ge 6 ltac:(lra)). lra.
Qed.
Lemma c24_weak_source br m e : brentq_checks_signs br ->
  relative_sensitivity1 br li_ma1 (Fin (1/100)) (Fin 0) (Fin (1/5)) (Fin 5) (Fin m) (Fin e) = Ok NaN.
Proof.
  intros HS. apply rel_sens_nan; auto; try lra. left.
  unfold upper_b. rsolve. apply lima_lt; try lra.
  replace ((1/100 - 1/5 * 0) * 100 + 1/5 * 0) with 1 by lra.
  unfold ts, xlny. destruct (Req_EM_T 1 0); [lra|]. destruct (Req_EM_T 0 0); [|lra].
  replace ((1 + 1/5) / (1/5) * (1 / (1 + 0))) with 6 by lra.
  pose proof (ln_le_sub1 6 ltac:(lra)). lra.
Qed.
