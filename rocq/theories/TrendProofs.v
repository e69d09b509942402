(** * TrendProofs: more signal, less background, more time and more off regions never make the sensitivity worse *)
From Coq Require Import String Reals List Bool ZArith Arith Lia Lra Permutation.
From Verif Require Import Num Numpy Table Binning Statistics Sensitivity SpecBinning SpecStatistics SpecSensitivity SpecPipeline
  StatisticsProofs SensitivityProofs SensitivityProofs2 PipelineProofs PipelineProofs2.
Import ListNotations.
Open Scope R_scope.

Lemma xlny_cross x u v : 0 <= x -> 0 < v -> (x <> 0 -> 0 < u) -> x * ln v <= xlny x u + (if Req_EM_T x 0 then 0 else x * (v / u) - x).
Proof.
  intros X V U. unfold xlny. destruct (Req_EM_T x 0) as [->|N]; [lra|]. specialize (U N).
  replace v with (u * (v / u)) at 1 by (field; lra). assert (Q : 0 < v / u) by (apply Rdiv_lt_0_compat; auto). rewrite ln_mult by auto.
  pose proof (ln_le_sub1 _ Q). nra.
Qed.
(** [ts] is above each of its tangents *)
Lemma ts_cross x y x' y' a : 0 < a -> 0 < x -> 0 <= y -> 0 < x' -> 0 < y' ->
  x * ln ((1 + a) / a * (x' / (x' + y'))) + y * ln ((1 + a) * (y' / (x' + y'))) <= ts x y a.
Proof.
  intros A X Y X' Y'. unfold ts.
  assert (P1 : 0 < (1 + a) / a) by (apply Rdiv_lt_0_compat; lra).
  assert (P2 : 0 < x' / (x' + y')) by (apply Rdiv_lt_0_compat; lra). assert (P3 : 0 < y' / (x' + y')) by (apply Rdiv_lt_0_compat; lra).
  pose proof (xlny_cross x ((1 + a) / a * (x / (x + y))) ((1 + a) / a * (x' / (x' + y'))) ltac:(lra) ltac:(apply Rmult_lt_0_compat; auto)) as E1.
  pose proof (xlny_cross y ((1 + a) * (y / (x + y))) ((1 + a) * (y' / (x' + y'))) Y ltac:(apply Rmult_lt_0_compat; lra)) as E2.
  assert (S1 : 0 < x / (x + y)) by (apply Rdiv_lt_0_compat; lra).
  specialize (E1 ltac:(intros _; apply Rmult_lt_0_compat; auto)). specialize (E2 ltac:(intros N; apply Rmult_lt_0_compat; [lra|apply Rdiv_lt_0_compat; lra])).
  destruct (Req_EM_T x 0) as [|_]; [lra|].
  replace (x * ((1 + a) / a * (x' / (x' + y')) / ((1 + a) / a * (x / (x + y))))) with ((x + y) * (x' / (x' + y'))) in E1 by (field; lra).
  assert (T : x' / (x' + y') + y' / (x' + y') = 1) by (field; lra).
  destruct (Req_EM_T y 0) as [->|NY].
  - nra.
  - replace (y * ((1 + a) * (y' / (x' + y')) / ((1 + a) * (y / (x + y))))) with ((x + y) * (y' / (x' + y'))) in E2 by (field; lra). nra.
Qed.
(** the same excess over less background is more significant *)
Lemma ts_excess N b b' a : 0 < a -> 0 < N -> 0 <= b -> b <= b' -> ts (N + a * b') b' a <= ts (N + a * b) b a.
Proof.
  intros A HN B [L|<-]; [|lra]. assert (b' > 0) by lra. assert (0 <= a * b) by (apply Rmult_le_pos; lra). assert (0 < a * b') by (apply Rmult_lt_0_compat; lra).
  pose proof (ts_cross (N + a * b) b (N + a * b') b' a A ltac:(lra) B ltac:(lra) ltac:(lra)) as E.
  set (P := (1 + a) / a * ((N + a * b') / (N + a * b' + b'))) in *. set (Q := (1 + a) * (b' / (N + a * b' + b'))) in *.
  assert (T : ts (N + a * b') b' a = (N + a * b') * ln P + b' * ln Q).
  { unfold ts, xlny. destruct (Req_EM_T (N + a * b') 0); [lra|]. destruct (Req_EM_T b' 0); [lra|]. reflexivity. }
  assert (HP : 0 < P) by (unfold P; apply Rmult_lt_0_compat; apply Rdiv_lt_0_compat; lra).
  assert (HQ : 0 < Q) by (unfold Q; apply Rmult_lt_0_compat; [lra|apply Rdiv_lt_0_compat; lra]).
  pose proof (ln_le_sub1 P HP). pose proof (ln_le_sub1 Q HQ).
  assert (Z : a * (P - 1) + (Q - 1) = 0) by (unfold P, Q; field; split; lra).
  assert (a * ln P + ln Q <= 0) by nra. rewrite T. nra.
Qed.
Lemma lima_excess_mono N b b' a : 0 < a -> 0 < N -> 0 <= b -> b <= b' -> lima (N + a * b') b' a <= lima (N + a * b) b a.
Proof.
  intros. assert (0 <= a * b) by (apply Rmult_le_pos; lra). assert (0 <= a * b') by (apply Rmult_le_pos; lra).
  rewrite !lima_excess by lra. apply sqrt_le_1_alt. pose proof (ts_excess N b b' a). lra.
Qed.
(** the same background estimated from more off regions *)
Lemma ts_alpha_beta x B a : 0 < a -> 0 < B -> 0 < x ->
  ts x (B / a) a = x * ln (x / ((a * x + B) / (1 + a))) + B / a * ln (B / ((a * x + B) / (1 + a))).
Proof.
  intros A HB X. assert (0 < B / a) by (apply Rdiv_lt_0_compat; auto). assert (0 < a * x) by (apply Rmult_lt_0_compat; auto).
  unfold ts, xlny. destruct (Req_EM_T x 0); [lra|]. destruct (Req_EM_T (B / a) 0); [lra|].
  f_equal; f_equal; f_equal; field; repeat split; try lra; intros E; apply (f_equal (Rmult a)) in E; field_simplify in E; lra.
Qed.
Lemma D_pos x b : 0 < x -> 0 < b -> 0 <= x * ln (x / b) - x + b.
Proof.
  intros X B. pose proof (ln_ge (x / b) ltac:(apply Rdiv_lt_0_compat; auto)) as L. replace (/ (x / b)) with (b / x) in L by (field; lra).
  assert (x * (1 - b / x) <= x * ln (x / b)) by (apply Rmult_le_compat_l; lra). replace (x * (1 - b / x)) with (x - b) in * by (field; lra). lra.
Qed.
Lemma ts_alpha_mono x B a a' : 0 < a -> a <= a' -> 0 < B -> 0 < x -> ts x (B / a') a' <= ts x (B / a) a.
Proof.
  intros A L HB X. rewrite !ts_alpha_beta by lra. assert (0 < a * x) by (apply Rmult_lt_0_compat; auto). assert (0 < a' * x) by (apply Rmult_lt_0_compat; lra).
  set (be := (a * x + B) / (1 + a)). set (be' := (a' * x + B) / (1 + a')).
  assert (Hb : 0 < be) by (apply Rdiv_lt_0_compat; lra). assert (Hb' : 0 < be') by (apply Rdiv_lt_0_compat; lra).
  pose proof (D_pos B be HB Hb) as D.
  assert (S : x + B / a' = be' * (1 + / a')) by (unfold be'; field; lra). assert (S0 : x + B / a = be * (1 + / a)) by (unfold be; field; lra).
  assert (G : 1 - be / be' <= ln (be' / be)).
  { pose proof (ln_ge (be' / be) ltac:(apply Rdiv_lt_0_compat; auto)) as G. replace (/ (be' / be)) with (be / be') in G by (field; lra). exact G. }
  assert (I : / a' <= / a) by (apply Rinv_le_contravar; lra). assert (I0 : 0 < / a') by (apply Rinv_0_lt_compat; lra).
  assert (E1 : forall z, 0 < z -> ln (z / be') = ln (z / be) - ln (be' / be)).
  { intros z Z. replace (z / be) with (z / be' * (be' / be)) by (field; lra). rewrite ln_mult; [ring| |]; apply Rdiv_lt_0_compat; auto. }
  rewrite !E1 by auto. set (l1 := ln (x / be)) in *. set (l2 := ln (B / be)) in *. set (g := ln (be' / be)) in *.
  replace (B / a') with (B * / a') in * by reflexivity. replace (B / a) with (B * / a) in * by reflexivity. set (i := / a) in *. set (i' := / a') in *.
  assert (K : (x + B * i') * (1 - be / be') <= (x + B * i') * g) by (apply Rmult_le_compat_l; [assert (0 < B * i') by (apply Rmult_lt_0_compat; auto); lra|exact G]).
  rewrite S in K at 1. replace (be' * (1 + i') * (1 - be / be')) with ((1 + i') * (be' - be)) in K by (field; lra).
  assert (M : (i - i') * (B - be) <= (i - i') * (B * l2)) by (apply Rmult_le_compat_l; lra).
  assert (S1 : be' * (1 + i') = be' + be' * i') by ring. nra.
Qed.
Lemma lima_alpha_mono N B a a' : 0 < a -> a <= a' -> 0 <= B -> 0 < N -> lima (N + B) (B / a') a' <= lima (N + B) (B / a) a.
Proof.
  intros A L HB HN.
  assert (Q : forall z, 0 < z -> 0 <= B / z /\ z * (B / z) = B).
  { intros z Z. split; [apply Rmult_le_pos; [exact HB|left; apply Rinv_0_lt_compat; exact Z]|field; lra]. }
  destruct (Q a A) as (Q1 & Q2). destruct (Q a' ltac:(lra)) as (Q1' & Q2'). rewrite !lima_excess by lra. apply sqrt_le_1_alt.
  assert (ts (N + B) (B / a') a' <= ts (N + B) (B / a) a); [|lra]. destruct HB as [HB|<-]; [apply ts_alpha_mono; lra|].
  unfold Rdiv. rewrite !Rmult_0_l, !Rplus_0_r. unfold ts, xlny. destruct (Req_EM_T N 0); [lra|]. destruct (Req_EM_T 0 0); [|lra]. rewrite !Rplus_0_r.
  apply Rmult_le_compat_l; [lra|]. replace (N / N) with 1 by (field; lra). assert (X : (1 + a') / a' <= (1 + a) / a).
  { replace ((1 + a') / a') with (1 + / a') by (field; lra). replace ((1 + a) / a) with (1 + / a) by (field; lra). pose proof (Rinv_le_contravar a a'); lra. }
  assert (0 < (1 + a') / a') by (apply Rdiv_lt_0_compat; lra). rewrite !Rmult_1_r. destruct X as [X| ->]; [left; apply ln_increasing; lra|lra].
Qed.
(** ** relative sensitivities *)
Lemma trend br1 br2 N1 b1 a1 s1 m1 e1 r1 N2 b2 a2 s2 m2 e2 r2 : brentq_sound br1 -> brentq_sound br2 ->
  0 < N1 -> 0 <= b1 -> 0 < a1 -> 0 < s1 -> 0 < N2 -> 0 <= b2 -> 0 < a2 -> 0 < s2 ->
  relative_sensitivity1 br1 li_ma1 (Fin (N1 + a1 * b1)) (Fin b1) (Fin a1) (Fin s1) (Fin m1) (Fin e1) = Ok (Fin r1) ->
  relative_sensitivity1 br2 li_ma1 (Fin (N2 + a2 * b2)) (Fin b2) (Fin a2) (Fin s2) (Fin m2) (Fin e2) = Ok (Fin r2) ->
  (forall r, 0 < r -> detectable N1 b1 a1 s1 m1 e1 r -> detectable N2 b2 a2 s2 m2 e2 r) ->
  r2 <= r1 + brentq_tol r1 + brentq_tol r2.
Proof.
  intros S1 S2 ? ? ? ? ? ? ? ? H1 H2 D. assert (0 <= a1 * b1) by (apply Rmult_le_pos; lra). assert (0 <= a2 * b2) by (apply Rmult_le_pos; lra).
  pose proof (rel_sens_sound br1 (N1 + a1 * b1) b1 a1 s1 m1 e1 r1 S1) as (P1 & _ & _ & U & _); auto; try lra.
  pose proof (rel_sens_sound br2 (N2 + a2 * b2) b2 a2 s2 m2 e2 r2 S2) as (_ & _ & _ & _ & M); auto; try lra.
  replace (N1 + a1 * b1 - a1 * b1) with N1 in U by ring. replace (N2 + a2 * b2 - a2 * b2) with N2 in M by ring.
  pose proof (tol_pos r1). pose proof (U (r1 + brentq_tol r1) ltac:(lra)) as U1. pose proof (M (r1 + brentq_tol r1) (D (r1 + brentq_tol r1) ltac:(lra) U1)). lra.
Qed.
Lemma det_signal N1 N2 b a s m e r : 0 < N1 -> N1 <= N2 -> 0 <= b -> 0 < a -> 0 < r -> detectable N1 b a s m e r -> detectable N2 b a s m e r.
Proof.
  intros ? ? ? ? ? (D1 & D2 & D3). assert (N1 * r <= N2 * r) by (apply Rmult_le_compat_r; lra). split; [|lra].
  eapply Rle_trans; [exact D1|]. apply lima_mono; lra.
Qed.
Lemma det_background N b1 b2 a s m e r : 0 < N -> 0 <= b2 -> b2 <= b1 -> 0 < a -> 0 <= e -> 0 < r -> detectable N b1 a s m e r -> detectable N b2 a s m e r.
Proof.
  intros ? ? ? ? ? ? (D1 & D2 & D3). assert (0 < N * r) by (apply Rmult_lt_0_compat; auto). split; [|split; [exact D2|]].
  - eapply Rle_trans; [exact D1|]. apply lima_excess_mono; auto.
  - eapply Rle_trans; [|exact D3]. apply Rmult_le_compat_l; [auto|]. apply Rmult_le_compat_l; lra.
Qed.
Lemma det_time c N b a s m e r : 1 <= c -> 0 < N -> 0 <= b -> 0 < a -> 0 < s -> 0 < r -> detectable N b a s m e r -> detectable (c * N) (c * b) a s m e r.
Proof.
  intros ? ? ? ? ? ? (D1 & D2 & D3). assert (0 < N * r) by (apply Rmult_lt_0_compat; auto). assert (0 <= a * b) by (apply Rmult_le_pos; lra).
  assert (L1 : N * r <= c * N * r) by (rewrite Rmult_assoc; nra). split; [|split; [lra|]].
  - replace (c * N * r + a * (c * b)) with (c * (N * r + a * b)) by ring. rewrite lima_scale by lra. pose proof (lima_nonneg (N * r + a * b) b a).
    assert (1 <= sqrt c) by (rewrite <- sqrt_1; apply sqrt_le_1_alt; lra). nra.
  - replace (e * (a * (c * b))) with (c * (e * (a * b))) by ring. rewrite Rmult_assoc. apply Rmult_le_compat_l; lra.
Qed.
Lemma det_alpha N B a1 a2 s m e r : 0 < N -> 0 <= B -> 0 < a2 -> a2 <= a1 -> 0 < r -> detectable N (B / a1) a1 s m e r -> detectable N (B / a2) a2 s m e r.
Proof.
  intros ? ? ? ? ? (D1 & D2 & D3). unfold detectable. replace (a2 * (B / a2)) with B by (field; lra). replace (a1 * (B / a1)) with B in * by (field; lra).
  assert (0 < N * r) by (apply Rmult_lt_0_compat; auto). split; [|split; auto]. eapply Rle_trans; [exact D1|]. apply lima_alpha_mono; lra.
Qed.
Lemma det_requirements N b a s1 m1 e1 s2 m2 e2 r : 0 <= b -> 0 < a -> s2 <= s1 -> m2 <= m1 -> e2 <= e1 -> detectable N b a s1 m1 e1 r -> detectable N b a s2 m2 e2 r.
Proof.
  intros ? ? ? ? ? (D1 & D2 & D3). assert (0 <= a * b) by (apply Rmult_le_pos; lra). assert (e2 * (a * b) <= e1 * (a * b)) by (apply Rmult_le_compat_r; lra). repeat split; lra.
Qed.
