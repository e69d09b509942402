(** * StatisticsProofs: analysis of the Li & Ma formula. *)
From Coq Require Import Reals List Bool ZArith Lia Lra Psatz.
From Verif Require Import Num Numpy Statistics SpecStatistics.
Import ListNotations.
Open Scope R_scope.

(** ** logarithm inequalities *)
Lemma ln_le_sub1 y : 0 < y -> ln y <= y - 1.
Proof.
  intros Hy. destruct (Req_dec y 1) as [->|Hn]; [rewrite ln_1; lra|].
  left. rewrite <- (ln_exp (y - 1)). apply ln_increasing; auto.
  destruct (Req_dec (y - 1) 0); [lra|]. pose proof (exp_ineq1 (y - 1) H). lra.
Qed.
Lemma ln_lt_sub1 y : 0 < y -> y <> 1 -> ln y < y - 1.
Proof.
  intros Hy Hn. rewrite <- (ln_exp (y - 1)). apply ln_increasing; auto.
  assert (H : y - 1 <> 0) by lra. pose proof (exp_ineq1 (y - 1) H). lra.
Qed.
Lemma ln_ge y : 0 < y -> 1 - / y <= ln y.
Proof.
  intros Hy. assert (H : 0 < / y) by (apply Rinv_0_lt_compat; auto).
  pose proof (ln_le_sub1 _ H) as E. rewrite ln_Rinv in E by auto. lra.
Qed.
Lemma ln_gt y : 0 < y -> y <> 1 -> 1 - / y < ln y.
Proof.
  intros Hy Hn. assert (H : 0 < / y) by (apply Rinv_0_lt_compat; auto).
  assert (Hn' : / y <> 1). { intros E. apply Hn. rewrite <- (Rinv_inv y), E. lra. }
  pose proof (ln_lt_sub1 _ H Hn') as E. rewrite ln_Rinv in E by auto. lra.
Qed.

(** ** relative entropy of two points *)
(** x ln(P/Q)-terms, with P = x/(x+b) and reference probability q *)
Definition gibbs (x b q : R) : R := xlny x (x / (q * (x + b))) + xlny b (b / ((1 - q) * (x + b))).

Lemma xlny_ge x y : 0 <= x -> (x <> 0 -> 0 < y) -> (x <> 0 -> x - x / y <= xlny x y).
Proof.
  intros Hx Hy H0. unfold xlny. destruct (Req_EM_T x 0); [contradiction|].
  specialize (Hy n). pose proof (ln_ge y Hy).
  replace (x - x / y) with (x * (1 - / y)) by (field; lra). apply Rmult_le_compat_l; auto.
Qed.

Lemma gibbs_pos x b q : 0 <= x -> 0 <= b -> 0 < x + b -> 0 < q < 1 ->
  x <> q * (x + b) -> 0 < gibbs x b q.
Proof.
  intros Hx Hb HN [Hq Hq1] Hne. unfold gibbs, xlny.
  assert (HqN : 0 < q * (x + b)) by nra. assert (Hq1N : 0 < (1 - q) * (x + b)) by nra.
  destruct (Req_EM_T x 0) as [Hx0|Hx0]; destruct (Req_EM_T b 0) as [Hb0|Hb0].
  - lra.
  - subst x. rewrite !Rplus_0_l in *. replace (b / ((1 - q) * b)) with (/ (1 - q)) by (field; lra).
    assert (0 < ln (/ (1 - q))).
    { rewrite <- ln_1. apply ln_increasing; [lra|].
      rewrite <- (Rinv_1) at 1. apply Rinv_lt_contravar; lra. }
    apply Rmult_lt_0_compat; lra.
  - subst b. rewrite !Rplus_0_r in *. replace (x / (q * x)) with (/ q) by (field; lra).
    assert (0 < ln (/ q)).
    { rewrite <- ln_1. apply ln_increasing; [lra|].
      rewrite <- (Rinv_1) at 1. apply Rinv_lt_contravar; lra. }
    apply Rmult_lt_0_compat; lra.
  - assert (Hy1 : 0 < x / (q * (x + b))) by (apply Rdiv_lt_0_compat; lra).
    assert (Hy2 : 0 < b / ((1 - q) * (x + b))) by (apply Rdiv_lt_0_compat; lra).
    assert (Hny : x / (q * (x + b)) <> 1).
    { intros E. apply Hne. apply (Rmult_eq_compat_r (q * (x + b))) in E. unfold Rdiv in E.
      rewrite Rmult_assoc, Rinv_l in E by lra. lra. }
    pose proof (ln_gt _ Hy1 Hny) as E1. pose proof (ln_ge _ Hy2) as E2.
    assert (F1 : x * (1 - / (x / (q * (x + b)))) < x * ln (x / (q * (x + b)))) by (apply Rmult_lt_compat_l; lra).
    assert (F2 : b * (1 - / (b / ((1 - q) * (x + b)))) <= b * ln (b / ((1 - q) * (x + b)))) by (apply Rmult_le_compat_l; lra).
    replace (x * (1 - / (x / (q * (x + b))))) with (x - q * (x + b)) in F1 by (field; lra).
    replace (b * (1 - / (b / ((1 - q) * (x + b))))) with (b - (1 - q) * (x + b)) in F2 by (field; lra).
    lra.
Qed.
Lemma gibbs_zero x b q : 0 < x + b -> 0 < q < 1 -> x = q * (x + b) -> gibbs x b q = 0.
Proof.
  intros HN Hq E. unfold gibbs.
  assert (E2 : b = (1 - q) * (x + b)) by lra.
  rewrite <- E, <- E2. assert (0 < x) by nra. assert (0 < b) by nra.
  unfold xlny. destruct (Req_EM_T x 0); [lra|]. destruct (Req_EM_T b 0); [lra|].
  unfold Rdiv. rewrite !Rinv_r, ln_1 by lra. lra.
Qed.
Lemma gibbs_nonneg x b q : 0 <= x -> 0 <= b -> 0 < x + b -> 0 < q < 1 -> 0 <= gibbs x b q.
Proof.
  intros. destruct (Req_dec x (q * (x + b))).
  - right. symmetry. apply gibbs_zero; auto.
  - left. apply gibbs_pos; auto.
Qed.

(** ** the test statistic *)
Definition ts (x b a : R) : R :=
  xlny x ((1 + a) / a * (x / (x + b))) + xlny b ((1 + a) * (b / (x + b))).

Lemma ts_gibbs x b a : 0 < a -> 0 < x + b -> ts x b a = gibbs x b (a / (1 + a)).
Proof.
  intros Ha HN. unfold ts, gibbs. f_equal; f_equal; field; lra.
Qed.
Lemma q_range a : 0 < a -> 0 < a / (1 + a) < 1.
Proof.
  intros. split; [apply Rdiv_lt_0_compat; lra|].
  apply (Rmult_lt_reg_r (1 + a)); [lra|]. unfold Rdiv. rewrite Rmult_assoc, Rinv_l; lra.
Qed.
Lemma q_eq x b a : 0 < a -> (x = a / (1 + a) * (x + b) <-> x = a * b).
Proof.
  intros Ha. split; intros E.
  - apply (Rmult_eq_compat_r (1 + a)) in E. field_simplify in E; lra.
  - subst. field. lra.
Qed.
Lemma ts_pos x b a : 0 <= x -> 0 <= b -> 0 < a -> 0 < x + b -> x <> a * b -> 0 < ts x b a.
Proof.
  intros. rewrite ts_gibbs by auto. apply gibbs_pos; auto using q_range.
  rewrite q_eq by auto. auto.
Qed.
Lemma ts_zero b a : 0 < a -> 0 <= b -> ts (a * b) b a = 0.
Proof.
  intros Ha Hb. destruct (Req_dec b 0) as [->|Hn].
  - unfold ts, xlny. destruct (Req_EM_T (a * 0) 0); [|lra]. destruct (Req_EM_T 0 0); lra.
  - rewrite ts_gibbs by nra. apply gibbs_zero; [nra|apply q_range; auto|apply q_eq; auto].
Qed.
Lemma ts_nonneg x b a : 0 <= x -> 0 <= b -> 0 < a -> 0 < x + b -> 0 <= ts x b a.
Proof.
  intros. rewrite ts_gibbs by auto. apply gibbs_nonneg; auto using q_range.
Qed.

Lemma xlny_mul x y z : 0 < y -> 0 < z -> xlny x (y * z) = xlny x y + xlny x z.
Proof.
  intros. unfold xlny. destruct (Req_EM_T x 0); [lra|]. rewrite ln_mult by auto. lra.
Qed.

(** the slope of the statistic in n_on *)
Definition slope (x b a : R) : R := ln ((1 + a) / a * (x / (x + b))).
(** convexity: the statistic lies above each of its tangents *)
Lemma ts_tangent x y b a : 0 < x -> 0 <= y -> 0 <= b -> 0 < a -> 0 < y + b ->
  ts y b a >= ts x b a + (y - x) * slope x b a.
Proof.
  intros Hx Hy Hb Ha HN. unfold slope.
  destruct (Req_dec b 0) as [->|Hb0].
  { unfold ts. rewrite !Rplus_0_r. unfold xlny. destruct (Req_EM_T x 0); [lra|].
    destruct (Req_EM_T 0 0); [|lra]. unfold Rdiv. rewrite (Rinv_r x) by lra.
    destruct (Req_EM_T y 0); [subst; lra|]. rewrite (Rinv_r y) by lra. lra. }
  assert (Hbp : 0 < b) by lra.
  assert (Hq : 0 < x / (x + b) < 1).
  { split; [apply Rdiv_lt_0_compat; lra|].
    apply (Rmult_lt_reg_r (x + b)); [lra|]. unfold Rdiv. rewrite Rmult_assoc, Rinv_l; lra. }
  pose proof (gibbs_nonneg y b (x / (x + b)) Hy Hb HN Hq) as G.
  assert (E : ts y b a = gibbs y b (x / (x + b)) + (y * ln ((1 + a) / a * (x / (x + b)))
     + b * ln ((1 + a) * (b / (x + b))))).
  { unfold ts, gibbs.
    assert (E1 : xlny y ((1 + a) / a * (y / (y + b))) =
       xlny y (y / (x / (x + b) * (y + b))) + y * ln ((1 + a) / a * (x / (x + b)))).
    { unfold xlny. destruct (Req_EM_T y 0); [subst; lra|].
      rewrite <- Rmult_plus_distr_l. f_equal. rewrite <- ln_mult.
      - f_equal. field. repeat split; lra.
      - apply Rdiv_lt_0_compat; [lra|]. apply Rmult_lt_0_compat; lra.
      - apply Rmult_lt_0_compat; [apply Rdiv_lt_0_compat; lra|lra]. }
    assert (E2 : xlny b ((1 + a) * (b / (y + b))) =
       xlny b (b / ((1 - x / (x + b)) * (y + b))) + b * ln ((1 + a) * (b / (x + b)))).
    { unfold xlny. destruct (Req_EM_T b 0); [lra|].
      rewrite <- Rmult_plus_distr_l. f_equal. rewrite <- ln_mult.
      - f_equal. field. repeat split; lra.
      - apply Rdiv_lt_0_compat; [lra|]. apply Rmult_lt_0_compat; lra.
      - apply Rmult_lt_0_compat; [lra|apply Rdiv_lt_0_compat; lra]. }
    rewrite E1, E2. lra. }
  assert (Ex : ts x b a = x * ln ((1 + a) / a * (x / (x + b))) + b * ln ((1 + a) * (b / (x + b)))).
  { unfold ts, xlny. destruct (Req_EM_T x 0); [lra|]. destruct (Req_EM_T b 0); lra. }
  rewrite E, Ex. lra.
Qed.

(** slope in terms of the excess *)
Lemma slope_arg x b a : 0 < a -> 0 < x + b ->
  (1 + a) / a * (x / (x + b)) = 1 + (x - a * b) / (a * (x + b)).
Proof. intros. field. lra. Qed.
Lemma slope_pos x b a : 0 < a -> 0 < x + b -> a * b < x -> 0 < slope x b a.
Proof.
  intros. unfold slope. rewrite slope_arg by auto. rewrite <- ln_1. apply ln_increasing; [lra|].
  assert (0 < (x - a * b) / (a * (x + b))) by (apply Rdiv_lt_0_compat; nra). lra.
Qed.
Lemma slope_zero b a : 0 < a -> 0 < b -> slope (a * b) b a = 0.
Proof.
  intros. unfold slope. rewrite slope_arg by nra. replace (a * b - a * b) with 0 by lra.
  unfold Rdiv. rewrite Rmult_0_l, Rplus_0_r. apply ln_1.
Qed.

Lemma ts_incr x y b a : 0 <= b -> 0 < a -> a * b <= x -> x < y -> ts x b a < ts y b a.
Proof.
  intros Hb Ha Hx Hxy. assert (0 <= x) by nra.
  destruct Hx as [Hx|<-].
  - assert (0 < x + b) by nra. pose proof (slope_pos x b a Ha H0 Hx).
    assert (0 < x) by nra.
    pose proof (ts_tangent x y b a ltac:(lra) ltac:(lra) Hb Ha ltac:(lra)). nra.
  - rewrite ts_zero by auto. apply ts_pos; lra || nra.
Qed.
Lemma ts_incr_le x y b a : 0 <= b -> 0 < a -> a * b <= x -> x <= y -> ts x b a <= ts y b a.
Proof. intros. destruct (Req_dec x y); [subst; lra|]. left. apply ts_incr; lra. Qed.

(** decreasing in n_off *)
Lemma ts_decr_off x b b' a : 0 < a -> 0 <= b -> b < b' -> a * b' <= x -> ts x b' a < ts x b a.
Proof.
  intros Ha Hb Hbb Hx. assert (Hxp : 0 < x) by nra.
  destruct (Req_dec x (a * b')) as [->|Hne].
  { rewrite ts_zero by lra. apply ts_pos; try nra. }
  set (q := x / (x + b')).
  assert (Hq : 0 < q < 1).
  { unfold q. split; [apply Rdiv_lt_0_compat; lra|].
    apply (Rmult_lt_reg_r (x + b')); [lra|]. unfold Rdiv. rewrite Rmult_assoc, Rinv_l; lra. }
  assert (G : 0 <= gibbs x b q) by (apply gibbs_nonneg; lra).
  assert (E : ts x b a = gibbs x b q + (x * ln ((1 + a) / a * (x / (x + b')))
     + b * ln ((1 + a) * (b' / (x + b'))))).
  { unfold ts, gibbs, q.
    assert (E1 : xlny x ((1 + a) / a * (x / (x + b))) =
       xlny x (x / (x / (x + b') * (x + b))) + x * ln ((1 + a) / a * (x / (x + b')))).
    { unfold xlny. destruct (Req_EM_T x 0); [lra|].
      rewrite <- Rmult_plus_distr_l. f_equal. rewrite <- ln_mult.
      - f_equal. field. repeat split; lra.
      - apply Rdiv_lt_0_compat; [lra|]. apply Rmult_lt_0_compat; [apply Rdiv_lt_0_compat|]; lra.
      - apply Rmult_lt_0_compat; [apply Rdiv_lt_0_compat; lra|apply Rdiv_lt_0_compat; lra]. }
    assert (E2 : xlny b ((1 + a) * (b / (x + b))) =
       xlny b (b / ((1 - x / (x + b')) * (x + b))) + b * ln ((1 + a) * (b' / (x + b')))).
    { unfold xlny. destruct (Req_EM_T b 0); [subst; lra|].
      rewrite <- Rmult_plus_distr_l. f_equal. rewrite <- ln_mult.
      - f_equal. field. repeat split; lra.
      - apply Rdiv_lt_0_compat; [lra|]. apply Rmult_lt_0_compat; [fold q; lra|lra].
      - apply Rmult_lt_0_compat; [lra|apply Rdiv_lt_0_compat; lra]. }
    rewrite E1, E2. lra. }
  assert (Ex : ts x b' a = x * ln ((1 + a) / a * (x / (x + b'))) + b' * ln ((1 + a) * (b' / (x + b')))).
  { unfold ts, xlny. destruct (Req_EM_T x 0); [lra|]. destruct (Req_EM_T b' 0); lra. }
  assert (L : ln ((1 + a) * (b' / (x + b'))) < 0).
  { rewrite <- ln_1. apply ln_increasing.
    - apply Rmult_lt_0_compat; [lra|apply Rdiv_lt_0_compat; lra].
    - apply (Rmult_lt_reg_r (x + b')); [lra|]. field_simplify; lra. }
  rewrite E, Ex. nra.
Qed.

(** decreasing in alpha *)
Lemma ts_decr_alpha x b a a' : 0 < a -> a < a' -> 0 <= b -> 0 < x -> a' * b <= x ->
  ts x b a' < ts x b a.
Proof.
  intros Ha Haa Hb Hx Hxb. rewrite !ts_gibbs by lra. unfold gibbs.
  pose proof (q_range a Ha) as Hq. pose proof (q_range a' ltac:(lra)) as Hq'.
  set (q := a / (1 + a)) in *. set (q' := a' / (1 + a')) in *.
  assert (Hqq : q < q').
  { unfold q, q'. apply (Rmult_lt_reg_r ((1 + a) * (1 + a'))); [nra|]. field_simplify; nra. }
  assert (Hr : b * q' <= x * (1 - q')).
  { unfold q'. apply (Rmult_le_reg_r (1 + a')); [lra|]. field_simplify; lra. }
  assert (E1 : xlny x (x / (q * (x + b))) = xlny x (x / (q' * (x + b))) + x * ln (q' / q)).
  { unfold xlny. destruct (Req_EM_T x 0); [lra|]. rewrite <- Rmult_plus_distr_l. f_equal.
    rewrite <- ln_mult.
    - f_equal. field. repeat split; lra.
    - apply Rdiv_lt_0_compat; [lra|apply Rmult_lt_0_compat; lra].
    - apply Rdiv_lt_0_compat; lra. }
  assert (E2 : xlny b (b / ((1 - q) * (x + b))) = xlny b (b / ((1 - q') * (x + b))) + b * ln ((1 - q') / (1 - q))).
  { unfold xlny. destruct (Req_EM_T b 0); [subst; lra|]. rewrite <- Rmult_plus_distr_l. f_equal.
    rewrite <- ln_mult.
    - f_equal. field. repeat split; lra.
    - apply Rdiv_lt_0_compat; [lra|apply Rmult_lt_0_compat; lra].
    - apply Rdiv_lt_0_compat; lra. }
  rewrite E1, E2.
  assert (L1 : 1 - / (q' / q) < ln (q' / q)).
  { apply ln_gt; [apply Rdiv_lt_0_compat; lra|].
    intros E. apply (Rmult_eq_compat_r q) in E. unfold Rdiv in E. rewrite Rmult_assoc, Rinv_l in E; lra. }
  assert (L2 : 1 - / ((1 - q') / (1 - q)) <= ln ((1 - q') / (1 - q))).
  { apply ln_ge. apply Rdiv_lt_0_compat; lra. }
  replace (1 - / (q' / q)) with ((q' - q) / q') in L1 by (field; lra).
  replace (1 - / ((1 - q') / (1 - q))) with (- (q' - q) / (1 - q')) in L2 by (field; lra).
  assert (M1 : x * ((q' - q) / q') < x * ln (q' / q)) by (apply Rmult_lt_compat_l; lra).
  assert (M2 : b * (- (q' - q) / (1 - q')) <= b * ln ((1 - q') / (1 - q))) by (apply Rmult_le_compat_l; lra).
  assert (M3 : 0 <= x * ((q' - q) / q') + b * (- (q' - q) / (1 - q'))).
  { replace (x * ((q' - q) / q') + b * (- (q' - q) / (1 - q')))
      with ((q' - q) * (x * (1 - q') - b * q') * (/ q' * / (1 - q'))) by (field; lra).
    apply Rmult_le_pos; [apply Rmult_le_pos; lra|].
    apply Rmult_le_pos; left; apply Rinv_0_lt_compat; lra. }
  lra.
Qed.

(** ** connecting formula and model *)
Lemma lima_formula_ts x b a : lima_formula x b a = sqrt 2 * sqrt (ts x b a).
Proof. reflexivity. Qed.

Lemma sqrt2_ts x b a : 0 <= ts x b a -> sqrt (ts x b a * 2) = sqrt 2 * sqrt (ts x b a).
Proof. intros. rewrite Rmult_comm, sqrt_mult by lra. auto. Qed.

Lemma nln_pos r : 0 < r -> nln (Fin r) = Fin (ln r).
Proof. intros. unfold nln. destruct (Rltb_spec 0 r); auto; lra. Qed.

Lemma li_ma1_lima x b a : 0 <= x -> 0 <= b -> 0 < a ->
  li_ma1 (Fin x) (Fin b) (Fin a) = Fin (lima x b a).
Proof.
  intros Hx Hb Ha. unfold li_ma1, lima. cbn [nadd nmul neqb nlt].
  rewrite (ndiv_fin (1 + a) a) by lra.
  destruct (Rltb_spec x (a * b)).
  { destruct (Rle_dec x (a * b)); [auto|lra]. }
  set (t1 := if Reqb x 0 then _ else _). set (t2 := if Reqb b 0 then _ else _).
  assert (H1 : t1 = Fin (xlny x ((1 + a) / a * (x / (x + b))))).
  { unfold t1, xlny. destruct (Reqb_spec x 0); destruct (Req_EM_T x 0); try contradiction; auto.
    rewrite ndiv_fin by lra. cbn [nmul]. rewrite nln_pos; [reflexivity|].
    apply Rmult_lt_0_compat; apply Rdiv_lt_0_compat; lra. }
  assert (H2 : t2 = Fin (xlny b ((1 + a) * (b / (x + b))))).
  { unfold t2, xlny. destruct (Reqb_spec b 0); destruct (Req_EM_T b 0); try contradiction; auto.
    rewrite ndiv_fin by lra. cbn [nmul]. rewrite nln_pos; [reflexivity|].
    apply Rmult_lt_0_compat; [lra|apply Rdiv_lt_0_compat; lra]. }
  rewrite H1, H2. cbn [nadd nmul]. fold (ts x b a).
  assert (Hts : 0 <= ts x b a).
  { destruct (Req_dec (x + b) 0).
    - assert (x = 0) by lra. assert (b = 0) by lra. subst. unfold ts, xlny.
      destruct (Req_EM_T 0 0); lra.
    - apply ts_nonneg; lra. }
  unfold nsqrt. destruct (Rltb_spec (ts x b a * 2) 0); [lra|].
  destruct (Rle_dec x (a * b)).
  - assert (x = a * b) by lra. subst x. rewrite ts_zero by auto. rewrite Rmult_0_l, sqrt_0. auto.
  - rewrite sqrt2_ts by auto. rewrite lima_formula_ts. auto.
Qed.

Lemma lima_nonneg x b a : 0 <= lima x b a.
Proof.
  unfold lima. destruct (Rle_dec _ _); [lra|]. unfold lima_formula.
  apply Rmult_le_pos; apply sqrt_pos.
Qed.
Lemma lima_pos x b a : 0 <= b -> 0 < a -> a * b < x -> 0 < lima x b a.
Proof.
  intros. unfold lima. destruct (Rle_dec _ _); [lra|]. rewrite lima_formula_ts.
  apply Rmult_lt_0_compat; apply sqrt_lt_R0; [lra|]. apply ts_pos; nra.
Qed.
Lemma lima_deficit x b a : x <= a * b -> lima x b a = 0.
Proof. intros. unfold lima. destruct (Rle_dec _ _); lra. Qed.
Lemma lima_excess x b a : 0 <= b -> 0 < a -> a * b <= x -> lima x b a = sqrt (2 * ts x b a).
Proof.
  intros. unfold lima. destruct (Rle_dec _ _).
  - assert (x = a * b) by lra. subst. rewrite ts_zero by auto. rewrite Rmult_0_r, sqrt_0; auto.
  - rewrite lima_formula_ts, sqrt_mult; auto; [lra|]. left. apply ts_pos; nra.
Qed.
Lemma lima_incr x y b a : 0 <= b -> 0 < a -> a * b <= x -> x < y -> lima x b a < lima y b a.
Proof.
  intros. rewrite !lima_excess by lra. apply sqrt_lt_1_alt.
  assert (0 <= ts x b a).
  { destruct H1; [left; apply ts_pos; nra|]. subst. rewrite ts_zero; lra. }
  pose proof (ts_incr x y b a H H0 H1 H2). lra.
Qed.
Lemma lima_mono x y b a : 0 <= b -> 0 < a -> x <= y -> lima x b a <= lima y b a.
Proof.
  intros Hb Ha Hxy. destruct (Rle_dec x (a * b)).
  - rewrite lima_deficit by auto. apply lima_nonneg.
  - destruct (Req_dec x y); [subst; lra|]. left. apply lima_incr; lra.
Qed.
Lemma lima_off x b b' a : 0 < a -> 0 <= b -> b < b' -> a * b < x -> lima x b' a < lima x b a.
Proof.
  intros Ha Hb Hbb Hx. destruct (Rle_dec x (a * b')).
  - rewrite lima_deficit by auto. apply lima_pos; auto.
  - assert (a * b <= a * b') by nra. rewrite !lima_excess by lra. apply sqrt_lt_1_alt.
    pose proof (ts_decr_off x b b' a Ha Hb Hbb ltac:(lra)).
    assert (0 < ts x b' a) by (apply ts_pos; nra). lra.
Qed.
Lemma lima_off_mono x b b' a : 0 < a -> 0 <= b -> b <= b' -> lima x b' a <= lima x b a.
Proof.
  intros Ha Hb Hbb. destruct (Req_dec b b'); [subst; lra|].
  destruct (Rle_dec x (a * b)).
  - rewrite (lima_deficit x b') by nra. apply lima_nonneg.
  - left. apply lima_off; lra.
Qed.
Lemma lima_alpha x b a a' : 0 < a -> a < a' -> 0 <= b -> 0 < x -> a * b < x -> lima x b a' < lima x b a.
Proof.
  intros Ha Haa Hb Hx Hxb. destruct (Rle_dec x (a' * b)).
  - rewrite lima_deficit by auto. apply lima_pos; auto.
  - rewrite !lima_excess by lra. apply sqrt_lt_1_alt.
    pose proof (ts_decr_alpha x b a a' Ha Haa Hb Hx ltac:(lra)).
    assert (0 < ts x b a') by (apply ts_pos; nra). lra.
Qed.

Lemma xlny_scale c x y z : 0 < c -> y = z -> xlny (c * x) y = c * xlny x z.
Proof.
  intros Hc <-. unfold xlny. destruct (Req_EM_T (c * x) 0); destruct (Req_EM_T x 0); try lra.
  - exfalso. apply n. nra.
  - subst. lra.
Qed.
Lemma ts_scale c x b a : 0 < c -> 0 < a -> x + b <> 0 -> ts (c * x) (c * b) a = c * ts x b a.
Proof.
  intros. unfold ts. rewrite Rmult_plus_distr_l. f_equal; apply xlny_scale; auto; field;
    repeat split; try lra; intros E; apply H1; nra.
Qed.
Lemma lima_scale c x b a : 0 <= c -> 0 <= x -> 0 <= b -> 0 < a ->
  lima (c * x) (c * b) a = sqrt c * lima x b a.
Proof.
  intros Hc Hx Hb Ha. destruct (Req_dec c 0) as [->|Hn].
  { rewrite sqrt_0, !Rmult_0_l. apply lima_deficit. lra. }
  destruct (Rle_dec x (a * b)).
  - rewrite !lima_deficit; [lra|lra|]. nra.
  - rewrite !lima_excess by nra. rewrite ts_scale by (try lra; nra).
    rewrite <- sqrt_mult; [f_equal; lra|lra|].
    assert (0 < ts x b a) by (apply ts_pos; nra). lra.
Qed.

(** ** the property lemmas *)
Lemma c18 x b a : 0 <= x -> 0 <= b -> 0 < a ->
  exists s, li_ma_significance (Sc (Fin x)) (Sc (Fin b)) (Fin a) = Ok (Sc (Fin s)) /\
    0 <= s /\ (s = 0 <-> x <= a * b) /\ (a * b < x -> s = lima_formula x b a /\ 0 < s).
Proof.
  intros Hx Hb Ha. exists (lima x b a).
  unfold li_ma_significance; cbn [atleast_1d length is_scalar Nat.eqb zipwith].
  rewrite li_ma1_lima by auto. split; [auto|]. split; [apply lima_nonneg|]. split.
  - split; intros H.
    + destruct (Rle_dec x (a * b)); auto. pose proof (lima_pos x b a Hb Ha). lra.
    + apply lima_deficit; auto.
  - intros H. split; [|apply lima_pos; auto]. unfold lima. destruct (Rle_dec _ _); lra.
Qed.

(** the significance of one pair of counts, as returned for scalars *)
Lemma sig_of x b a s : 0 <= x -> 0 <= b -> 0 < a ->
  li_ma_significance (Sc (Fin x)) (Sc (Fin b)) (Fin a) = Ok (Sc (Fin s)) -> s = lima x b a.
Proof.
  intros Hx Hb Ha. unfold li_ma_significance; cbn [atleast_1d length is_scalar Nat.eqb zipwith].
  rewrite li_ma1_lima by auto. congruence.
Qed.
Lemma c19_on x y b a s t : 0 <= x -> x < y -> 0 <= b -> 0 < a ->
  li_ma_significance (Sc (Fin x)) (Sc (Fin b)) (Fin a) = Ok (Sc (Fin s)) ->
  li_ma_significance (Sc (Fin y)) (Sc (Fin b)) (Fin a) = Ok (Sc (Fin t)) ->
  s <= t /\ (a * b < y -> s < t).
Proof.
  intros Hx Hxy Hb Ha Hs Ht. apply sig_of in Hs, Ht; try lra. subst. split.
  - apply lima_mono; lra.
  - intros Hy. destruct (Rle_dec x (a * b)).
    + rewrite lima_deficit by auto. apply lima_pos; auto.
    + apply lima_incr; lra.
Qed.
Lemma c19_off x b b' a s t : 0 <= x -> 0 <= b -> b < b' -> 0 < a ->
  li_ma_significance (Sc (Fin x)) (Sc (Fin b)) (Fin a) = Ok (Sc (Fin s)) ->
  li_ma_significance (Sc (Fin x)) (Sc (Fin b')) (Fin a) = Ok (Sc (Fin t)) ->
  t <= s /\ (a * b < x -> t < s).
Proof.
  intros Hx Hb Hbb Ha Hs Ht. apply sig_of in Hs, Ht; try lra. subst. split.
  - apply lima_off_mono; lra.
  - intros. apply lima_off; lra.
Qed.
Lemma c19_alpha x b a a' s t : 0 <= x -> 0 <= b -> 0 < a -> a < a' ->
  li_ma_significance (Sc (Fin x)) (Sc (Fin b)) (Fin a) = Ok (Sc (Fin s)) ->
  li_ma_significance (Sc (Fin x)) (Sc (Fin b)) (Fin a') = Ok (Sc (Fin t)) ->
  t <= s /\ (a * b < x -> t < s).
Proof.
  intros Hx Hb Ha Haa Hs Ht. apply sig_of in Hs, Ht; try lra. subst.
  assert (A : a * b < x -> lima x b a' < lima x b a).
  { intros. apply lima_alpha; nra. }
  split; auto. destruct (Rle_dec x (a * b)); [|left; apply A; lra].
  rewrite (lima_deficit x b a') by nra. apply lima_nonneg.
Qed.
Lemma c20_scale c x b a s t : 0 <= c -> 0 <= x -> 0 <= b -> 0 < a ->
  li_ma_significance (Sc (Fin x)) (Sc (Fin b)) (Fin a) = Ok (Sc (Fin s)) ->
  li_ma_significance (Sc (Fin (c * x))) (Sc (Fin (c * b))) (Fin a) = Ok (Sc (Fin t)) ->
  t = sqrt c * s.
Proof.
  intros Hc Hx Hb Ha Hs Ht. apply sig_of in Hs, Ht; try nra. subst. apply lima_scale; auto.
Qed.
Lemma c20_elementwise on off a : length on = length off ->
  exists l, li_ma_significance (Ar on) (Ar off) a = Ok (Ar l) /\ length l = length on /\
    forall i x b, nth_error on i = Some x -> nth_error off i = Some b ->
      exists s, nth_error l i = Some s /\ li_ma_significance (Sc x) (Sc b) a = Ok (Sc s).
Proof.
  intros H. unfold li_ma_significance. cbn [atleast_1d is_scalar]. rewrite H, Nat.eqb_refl.
  eexists; split; [reflexivity|]. split; [rewrite zipwith_length; lia|].
  intros i x b Hx Hb. eexists; split; [apply zipwith_nth; eauto|reflexivity].
Qed.
Lemma c20_shapes on off a : length (atleast_1d on) <> length (atleast_1d off) ->
  li_ma_significance on off a = Err IndexError \/ li_ma_significance on off a = Err ValueError.
Proof.
  intros H. unfold li_ma_significance. apply Nat.eqb_neq in H. rewrite H.
  destruct (_ || _)%bool; auto.
Qed.
Lemma c20_shape x b alpha : exists s,
  li_ma_significance (Sc x) (Sc b) alpha = Ok (Sc s) /\ li_ma_significance (Sc x) (Ar [b]) alpha = Ok (Sc s) /\
  li_ma_significance (Ar [x]) (Sc b) alpha = Ok (Ar [s]) /\ li_ma_significance (Ar [x]) (Ar [b]) alpha = Ok (Ar [s]).
Proof. exists (li_ma1 x b alpha). repeat split; reflexivity. Qed.
