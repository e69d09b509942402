(** * LiMaDouble2Proofs: what a user of the significance sees in double precision *)
From Coq Require Import Reals List Bool ZArith Lia Lra Psatz.
From Flocq Require Import Core.
From Verif Require Import Num Numpy Binning Statistics SpecStatistics StatisticsProofs Double SpecDouble DoubleProofs NearProofs LiMaDoubleProofs.
Import ListNotations.
Open Scope R_scope.

Lemma moderate_pr x : moderate x -> pr (-200) 200 x.
Proof.
  intros [H1 H2]. assert (E : 10 ^ 60 <= bpow radix2 200) by (rewrite <- (IZR_Zpower radix2 200) by lia; rewrite pow_IZR; apply IZR_le; vm_compute; discriminate).
  split; [|lra]. change (-200)%Z with (- (200))%Z. rewrite bpow_opp. eapply Rle_trans; [|exact H1]. apply Rinv_le_contravar; [apply pow_lt; lra|auto].
Qed.
Lemma eps53_u : eps53 = u. Proof. apply eps53_ulp. Qed.
Lemma double_fix x : double x -> round64 x = x /\ Rabs x <= fmax.
Proof.
  intros (m & e & Hm & He & E). split.
  - apply round64_id. rewrite E. change 2 with (IZR (radix_val radix2)). rewrite <- bpow_powerRZ. apply generic_format_FLT.
    exists (Float radix2 m e); [reflexivity|exact Hm|cbn; lia].
  - rewrite E, Rabs_mult, (Rabs_pos_eq (powerRZ 2 e)) by (apply powerRZ_le; lra). unfold fmax. rewrite <- abs_IZR. apply Rmult_le_compat.
    + apply IZR_le. lia.
    + apply powerRZ_le; lra.
    + rewrite pow_IZR. rewrite <- minus_IZR. apply IZR_le. change (2 ^ Z.of_nat 53)%Z with (2 ^ 53)%Z. lia.
    + change 2 with (IZR (radix_val radix2)) at 1. rewrite <- bpow_powerRZ. change 2 with (IZR (radix_val radix2)). rewrite pow_powerRZ, <- bpow_powerRZ. apply bpow_le. simpl Z.of_nat. lia.
Qed.
Lemma fl_double x : double x -> fl x = Fin x.
Proof. intros H. destruct (double_fix x H). apply fl_of; auto. Qed.
Lemma terms_ts n_on n_off alpha : n_on <> 0 ->
  n_on * ln ((1 + alpha) / alpha * (n_on / (n_on + n_off))) + n_off * ln ((1 + alpha) * (n_off / (n_on + n_off))) = ts n_on n_off alpha.
Proof. intros H. unfold ts, xlny. destruct (Req_EM_T n_on 0); [contradiction|]. destruct (Req_EM_T n_off 0) as [->|]; ring. Qed.
Lemma prod_fl alpha n_off : moderate alpha -> moderate n_off -> exists p, fmul (Fin alpha) (Fin n_off) = Fin p /\ near 1 (alpha * n_off) p /\ p = round64 (alpha * n_off).
Proof.
  intros Ha Ho. rewrite fmul_fin. apply moderate_pr in Ha, Ho. pose proof (pr_mult _ _ _ _ _ _ Ha Ho) as P. destruct (fl_step' P eq_refl) as (p & E & N & _ & _).
  exists p. split; auto. split; auto. rewrite (fl_of (round64 (alpha * n_off)) _ eq_refl) in E; [congruence|].
  pose proof (pr_round (-200 + -200) (200 + 200) _ ltac:(lia) ltac:(lia) P) as Q. rewrite (pr_abs _ _ _ Q). destruct Q as [_ Q]. eapply Rle_trans; [exact Q|]. apply bpow_fmax. lia.
Qed.
Lemma zero_prod alpha : fmul (Fin alpha) (Fin 0) = Fin 0.
Proof. rewrite fmul_fin, Rmult_0_r. apply fl_of; [apply round64_0|]. rewrite Rabs_R0. pose proof fmax_pos. lra. Qed.
(** ** accuracy *)
Lemma fall_through n_on n_off alpha : moderate n_on -> n_off = 0 \/ moderate n_off -> moderate alpha ->
  nlt (Fin n_on) (fmul (Fin alpha) (Fin n_off)) = false -> n_on < alpha * n_off -> alpha * n_off - n_on <= 2 * u * n_on.
Proof.
  intros Hn Ho Ha D L. pose proof (pr_pos _ _ _ (moderate_pr _ Hn)) as Pn. destruct Ho as [->|Ho]; [lra|].
  destruct (prod_fl alpha n_off Ha Ho) as (p & E & (t & [T1 _] & Ep) & _). rewrite E in D. cbn [nlt] in D. destruct (Rltb_spec n_on p) as [|Q]; [discriminate|].
  rewrite pow_1 in T1. pose proof u_pos. pose proof u_small. set (y := alpha * n_off) in *. assert (y * (1 - u) <= n_on) by nra. nra.
Qed.
Lemma ts_small n_on n_off alpha : 0 < n_on -> 0 <= n_off -> 0 < alpha -> n_on < alpha * n_off -> ts n_on n_off alpha <= alpha * n_off - n_on.
Proof.
  intros H1 H2 H3 H4. assert (P : 0 < n_off) by nra. rewrite <- terms_ts by lra. set (s := n_on + n_off). assert (0 < s) by (unfold s; lra).
  set (A := (1 + alpha) / alpha * (n_on / s)). set (B := (1 + alpha) * (n_off / s)).
  assert (PA : 0 < A) by (unfold A; apply Rmult_lt_0_compat; apply Rdiv_lt_0_compat; lra). assert (PB : 0 < B) by (unfold B; apply Rmult_lt_0_compat; [lra|apply Rdiv_lt_0_compat; lra]).
  pose proof (ln_le_sub1 A PA) as LA. pose proof (ln_le_sub1 B PB) as LB.
  assert (A1 : A - 1 <= 0).
  { replace (A - 1) with ((n_on - alpha * n_off) / (alpha * s)) by (unfold A, s; field; unfold s in *; split; lra). apply Rmult_le_reg_r with (alpha * s); [nra|]. unfold Rdiv. rewrite Rmult_assoc, Rinv_l by nra. lra. }
  assert (B1 : n_off * (B - 1) <= alpha * n_off - n_on).
  { replace (B - 1) with ((alpha * n_off - n_on) / s) by (unfold B, s; field; unfold s in *; lra). replace (n_off * ((alpha * n_off - n_on) / s)) with ((alpha * n_off - n_on) * (n_off / s)) by (unfold Rdiv; ring).
    rewrite <- (Rmult_1_r (alpha * n_off - n_on)) at 2. apply Rmult_le_compat_l; [lra|]. apply Rmult_le_reg_r with s; auto. unfold Rdiv. rewrite Rmult_assoc, Rinv_l by lra. unfold s. lra. }
  nra.
Qed.
Theorem accuracy log n_on n_off alpha : accurate_log log -> moderate n_on -> double n_on -> n_off = 0 \/ moderate n_off -> moderate alpha ->
  (exists r, li_ma_double log (Fin n_on) (Fin n_off) (Fin alpha) = Fin r /\ 0 <= r /\
     Rabs (r ^ 2 - lima n_on n_off alpha ^ 2) <= 100 * eps53 * lima_terms n_on n_off alpha) \/
  (li_ma_double log (Fin n_on) (Fin n_off) (Fin alpha) = NaN /\ lima n_on n_off alpha ^ 2 <= 100 * eps53 * lima_terms n_on n_off alpha).
Proof.
  intros Hl Hn Dn Ho Ha. pose proof (moderate_pr _ Hn) as Pn. pose proof (moderate_pr _ Ha) as Pa. assert (Po : n_off = 0 \/ pr (-200) 200 n_off) by (destruct Ho; auto using moderate_pr).
  pose proof (pr_pos _ _ _ Pn) as Qn. pose proof (pr_pos _ _ _ Pa) as Qa. assert (Qo : 0 <= n_off) by (destruct Po as [->|K]; [lra|pose proof (pr_pos _ _ _ K); lra]).
  pose proof u_pos as U0. pose proof u_small as U1. rewrite eps53_u. pose proof (W_ge n_on n_off alpha Pn Po) as W1. cbv zeta in W1. fold (lima_terms n_on n_off alpha) in W1.
  set (W := lima_terms n_on n_off alpha) in *. assert (UW : u * n_on <= u * W) by (apply Rmult_le_compat_l; lra). assert (UP : 0 < u * n_on) by (apply Rmult_lt_0_compat; lra).
  pose proof (ts_nonneg n_on n_off alpha) as TN.
  destruct (nlt (Fin n_on) (fmul (Fin alpha) (Fin n_off))) eqn:D.
  - (* set to zero: a deficit *)
    left. exists 0. split; [unfold li_ma_double; cbv zeta; rewrite D; auto|]. split; [lra|].
    rewrite lima_deficit.
    + replace (0 ^ 2 - 0 ^ 2) with 0 by ring. rewrite Rabs_R0. nra.
    + destruct Ho as [->|Ho]; [rewrite zero_prod in D; cbn in D; destruct (Rltb_spec n_on 0); [lra|discriminate]|].
      destruct (prod_fl alpha n_off Ha Ho) as (p & E & _ & Ep). rewrite E in D. cbn in D. destruct (Rltb_spec n_on p) as [L|]; [|discriminate].
      destruct (Rle_dec n_on (alpha * n_off)) as [|Q]; auto. exfalso. assert (p <= n_on); [|lra]. rewrite Ep. destruct (double_fix _ Dn) as [<- _]. apply round64_mono. lra.
  - assert (EL : Rabs (lima n_on n_off alpha ^ 2 - 2 * ts n_on n_off alpha) <= 4 * u * W /\ lima n_on n_off alpha ^ 2 <= 2 * ts n_on n_off alpha).
    { destruct (Rle_dec (alpha * n_off) n_on) as [G|G].
      - rewrite lima_excess by auto. replace (sqrt (2 * ts n_on n_off alpha) ^ 2) with (2 * ts n_on n_off alpha).
        + rewrite Rminus_diag_eq, Rabs_R0 by auto. split; [nra|lra].
        + simpl. rewrite Rmult_1_r, sqrt_sqrt; auto. pose proof (TN ltac:(lra) Qo Qa ltac:(lra)). lra.
      - rewrite lima_deficit by lra. pose proof (fall_through n_on n_off alpha Hn Ho Ha D ltac:(lra)). pose proof (ts_small n_on n_off alpha Qn Qo Qa ltac:(lra)). pose proof (TN ltac:(lra) Qo Qa ltac:(lra)).
        split; [apply Rabs_le; split; nra|nra]. }
    destruct EL as [EL EL2]. destruct (li_ma_accuracy log n_on n_off alpha Hl Pn Po Pa D) as [(r & E & R0 & H)|(E & H)]; rewrite terms_ts in H by lra; fold (lima_terms n_on n_off alpha) in H; fold W in H.
    + left. exists r. split; auto. split; auto. replace (r ^ 2 - lima n_on n_off alpha ^ 2) with ((r * r - 2 * ts n_on n_off alpha) - (lima n_on n_off alpha ^ 2 - 2 * ts n_on n_off alpha)) by ring.
      eapply Rle_trans; [apply Rabs_triang|]. rewrite Rabs_Ropp. nra.
    + right. split; auto. nra.
Qed.
(** ** event counts *)
Lemma ln_50 x : / 2 ^ 50 <= x -> x <= 2 ^ 50 -> Rabs (ln x) <= 50.
Proof.
  intros H1 H2. assert (P : 0 < x) by (eapply Rlt_le_trans; [|exact H1]; apply Rinv_0_lt_compat, pow_lt; lra). assert (L2 : ln 2 <= 1) by (pose proof (ln_le_sub1 2); lra).
  assert (LE : forall a b, 0 < a -> a <= b -> ln a <= ln b) by (intros c d Hc [Hd|<-]; [left; apply ln_increasing; auto|lra]).
  assert (Q : ln (2 ^ 50) <= 50) by (rewrite ln_pow by lra; replace (INR 50) with 50 by (simpl; lra); lra).
  apply LE in H1, H2; auto; [|apply Rinv_0_lt_compat, pow_lt; lra]. rewrite ln_Rinv in H1 by (apply pow_lt; lra). apply Rabs_le. lra.
Qed.
Lemma terms_counts n_on n_off alpha : 1 <= n_on <= 10 ^ 8 -> n_off = 0 \/ 1 <= n_off <= 10 ^ 8 -> / 1000 <= alpha <= 1000 -> lima_terms n_on n_off alpha <= 51 * (2 * 10 ^ 8).
Proof.
  intros [N1 N2] Ho [A1 A2]. unfold lima_terms. set (s := n_on + n_off). assert (On : 0 <= n_off <= 10 ^ 8) by (destruct Ho; lra). assert (S : 1 <= s <= 2 * 10 ^ 8) by (unfold s; lra).
  assert (D : forall x, 1 <= x <= 10 ^ 8 -> / (2 * 10 ^ 8) <= x / s <= 10 ^ 8).
  { intros x Hx. split.
    - apply Rmult_le_reg_r with s; [lra|]. unfold Rdiv. rewrite Rmult_assoc, Rinv_l, Rmult_1_r by lra. apply Rle_trans with (/ (2 * 10 ^ 8) * (2 * 10 ^ 8)); [apply Rmult_le_compat_l; [|lra]|].
      + left. apply Rinv_0_lt_compat. lra.
      + rewrite Rinv_l by lra. lra.
    - apply Rmult_le_reg_r with s; [lra|]. unfold Rdiv. rewrite Rmult_assoc, Rinv_l, Rmult_1_r by lra. nra. }
  assert (F : 1 <= (1 + alpha) / alpha <= 1001).
  { replace ((1 + alpha) / alpha) with (1 + / alpha) by (field; lra). assert (0 < / alpha) by (apply Rinv_0_lt_compat; lra). split; [lra|]. assert (/ alpha <= 1000); [|lra]. rewrite <- (Rinv_inv 1000). apply Rinv_le_contravar; lra. }
  assert (L1 : Rabs (ln ((1 + alpha) / alpha * (n_on / s))) <= 50).
  { specialize (D n_on ltac:(lra)). set (f := (1 + alpha) / alpha) in *. set (d := n_on / s) in *. simpl in D. apply ln_50.
    - apply Rle_trans with (1 * d); [simpl; lra|apply Rmult_le_compat_r; lra].
    - apply Rle_trans with (1001 * 100000000); [apply Rmult_le_compat; lra|simpl; lra]. }
  assert (L2 : n_off * (1 + Rabs (ln ((1 + alpha) * (n_off / s)))) <= 10 ^ 8 * 51).
  { destruct Ho as [->|Ho]; [simpl; lra|]. specialize (D n_off ltac:(lra)). set (d := n_off / s) in *. simpl in D. apply Rmult_le_compat; try (simpl; lra).
    - pose proof (Rabs_pos (ln ((1 + alpha) * d))). lra.
    - assert (Rabs (ln ((1 + alpha) * d)) <= 50); [|lra]. apply ln_50.
      + apply Rle_trans with (1 * d); [simpl; lra|apply Rmult_le_compat_r; lra].
      + apply Rle_trans with (1001 * 100000000); [apply Rmult_le_compat; lra|simpl; lra]. }
  assert (L3 : n_on * (1 + Rabs (ln ((1 + alpha) / alpha * (n_on / s)))) <= 10 ^ 8 * 51) by (apply Rmult_le_compat; try lra; pose proof (Rabs_pos (ln ((1 + alpha) / alpha * (n_on / s)))); lra).
  lra.
Qed.
Lemma moderate_count x : / 1000 <= x <= 10 ^ 8 -> moderate x.
Proof. intros H. assert (10 ^ 8 <= 10 ^ 60) by (apply Rle_pow; [lra|lia]). split; [|lra]. apply Rle_trans with (/ 1000); [|lra]. apply Rinv_le_contravar; [lra|]. apply Rle_trans with (10 ^ 3); [simpl; lra|apply Rle_pow; [lra|lia]]. Qed.
Theorem counts log n_on n_off alpha : accurate_log log -> (1 <= n_on <= 10 ^ 8)%Z -> (0 <= n_off <= 10 ^ 8)%Z -> / 1000 <= alpha <= 1000 ->
  (exists r, li_ma_double log (Fin (IZR n_on)) (Fin (IZR n_off)) (Fin alpha) = Fin r /\ 0 <= r /\ Rabs (r ^ 2 - lima (IZR n_on) (IZR n_off) alpha ^ 2) <= / 5000) \/
  (li_ma_double log (Fin (IZR n_on)) (Fin (IZR n_off)) (Fin alpha) = NaN /\ lima (IZR n_on) (IZR n_off) alpha ^ 2 <= / 5000).
Proof.
  intros Hl Hn Ho Ha. assert (E8 : IZR (10 ^ 8) = 10 ^ 8) by (rewrite pow_IZR; reflexivity). assert (N : 1 <= IZR n_on <= 10 ^ 8) by (rewrite <- E8; split; apply IZR_le; lia).
  assert (O : IZR n_off = 0 \/ 1 <= IZR n_off <= 10 ^ 8).
  { destruct (Z.eq_dec n_off 0) as [->|]; [left; reflexivity|right]. rewrite <- E8. split; apply IZR_le; lia. }
  assert (T : 100 * eps53 * lima_terms (IZR n_on) (IZR n_off) alpha <= / 5000).
  { pose proof (terms_counts _ _ _ N O Ha) as T. rewrite eps53_u. change u with (/ 9007199254740992). simpl in T. lra. }
  destruct (accuracy log (IZR n_on) (IZR n_off) alpha Hl) as [(r & E & R0 & H)|(E & H)].
  - apply moderate_count. lra.
  - exists n_on, 0%Z. split; [|split; [lia|cbn; ring]]. rewrite Z.abs_eq by lia. eapply Z.le_lt_trans; [apply Hn|reflexivity].
  - destruct O as [|O]; auto. right. apply moderate_count. lra.
  - apply moderate_count. simpl. lra.
  - left. exists r. split; auto. split; auto. lra.
  - right. split; auto. lra.
Qed.
Lemma sq_close r l e : 0 <= r -> 0 <= l -> Rabs (r ^ 2 - l ^ 2) <= e -> Rabs (r - l) ^ 2 <= e.
Proof. intros H1 H2 H3. eapply Rle_trans; [|exact H3]. rewrite pow2_abs. destruct (Rle_dec l r); [rewrite Rabs_pos_eq by nra|rewrite Rabs_left1 by nra]; nra. Qed.
Theorem counts' log n_on n_off alpha : accurate_log log -> (1 <= n_on <= 10 ^ 8)%Z -> (0 <= n_off <= 10 ^ 8)%Z -> / 1000 <= alpha <= 1000 ->
  let s := lima (IZR n_on) (IZR n_off) alpha in
  (exists r, li_ma_significance_double log (Sc (Fin (IZR n_on))) (Sc (Fin (IZR n_off))) (Fin alpha) = Ok (Sc (Fin r)) /\ 0 <= r /\ Rabs (r - s) <= / 50 /\ (1 <= s -> Rabs (r - s) <= / 5000)) \/
  (li_ma_significance_double log (Sc (Fin (IZR n_on))) (Sc (Fin (IZR n_off))) (Fin alpha) = Ok (Sc NaN) /\ s <= / 50).
Proof.
  intros Hl Hn Ho Ha s. pose proof (lima_nonneg (IZR n_on) (IZR n_off) alpha) as L. fold s in L. destruct (counts log n_on n_off alpha Hl Hn Ho Ha) as [(r & E & R0 & H)|(E & H)]; fold s in H.
  - left. exists r. split; [unfold li_ma_significance_double; cbn; rewrite E; auto|]. split; auto. split.
    + pose proof (sq_close _ _ _ R0 L H) as Q. apply Rsqr_incr_0_var; [unfold Rsqr; lra|lra].
    + intros S. replace (r ^ 2 - s ^ 2) with ((r - s) * (r + s)) in H by ring. rewrite Rabs_mult, (Rabs_pos_eq (r + s)) in H by lra. pose proof (Rabs_pos (r - s)). nra.
  - right. split; [unfold li_ma_significance_double; cbn; rewrite E; auto|]. apply Rsqr_incr_0_var; [unfold Rsqr; lra|lra].
Qed.
(** ** never negative *)
Lemma fl_nonneg x : 0 <= x -> fl x = PInf \/ exists r, fl x = Fin r /\ 0 <= r.
Proof.
  intros H. assert (R : 0 <= round64 x) by (rewrite <- round64_0; apply round64_mono; auto). unfold fl. cbv zeta.
  destruct (Rltb_spec fmax (Rabs (round64 x))) as [L|]; [|eauto]. rewrite Rabs_pos_eq in L by auto. pose proof fmax_pos. destruct (Rltb_spec 0 (round64 x)); [auto|lra].
Qed.
Theorem not_negative log n_on n_off alpha : let s := li_ma_double log n_on n_off alpha in s = NaN \/ s = PInf \/ exists r, s = Fin r /\ 0 <= r.
Proof.
  cbv zeta. unfold li_ma_double. cbv zeta. destruct (nlt _ _); [right; right; exists 0; split; auto; lra|]. match goal with |- context [fsqrt ?z] => generalize z end.
  intros [x| | |]; cbn [fsqrt]; auto. destruct (Rltb x 0); auto. destruct (fl_nonneg (sqrt x) (sqrt_pos x)) as [->|(r & -> & H)]; eauto.
Qed.
(** ** deficits and empty regions *)
Theorem deficit log n_on n_off alpha : moderate n_off -> moderate alpha -> n_on < alpha * n_off * (1 - eps53) -> li_ma_double log (Fin n_on) (Fin n_off) (Fin alpha) = Fin 0.
Proof.
  intros Ho Ha H. rewrite eps53_u in H. destruct (prod_fl alpha n_off Ha Ho) as (p & E & (t & [T1 _] & Ep) & _). rewrite pow_1 in T1.
  unfold li_ma_double. cbv zeta. rewrite E. cbn [nlt]. destruct (Rltb_spec n_on p) as [|Q]; auto. pose proof (pr_pos _ _ _ (moderate_pr _ Ho)). pose proof (pr_pos _ _ _ (moderate_pr _ Ha)).
  assert (0 < alpha * n_off) by (apply Rmult_lt_0_compat; auto). exfalso. apply Q. rewrite Ep. nra.
Qed.
Lemma fl0 : fl 0 = Fin 0.
Proof. apply fl_of; [apply round64_0|]. rewrite Rabs_R0. pose proof fmax_pos. lra. Qed.
Theorem nothing_on log n_off alpha : n_off = 0 \/ moderate n_off -> moderate alpha -> li_ma_double log (Fin 0) (Fin n_off) (Fin alpha) = Fin 0.
Proof.
  intros [->|Ho] Ha.
  - unfold li_ma_double. cbv zeta. rewrite zero_prod. cbn [neqb nlt]. destruct (Reqb_spec 0 0); [|lra]. destruct (Rltb_spec 0 0); [lra|].
    rewrite !fadd_fin, Rplus_0_r, fl0, fmul_fin, Rmult_0_l, fl0. cbn [fsqrt]. destruct (Rltb_spec 0 0); [lra|]. rewrite sqrt_0. apply fl0.
  - apply deficit; auto. pose proof (pr_pos _ _ _ (moderate_pr _ Ho)). pose proof (pr_pos _ _ _ (moderate_pr _ Ha)). rewrite eps53_u. pose proof u_small. apply Rmult_lt_0_compat; [apply Rmult_lt_0_compat; auto|lra].
Qed.
Theorem nothing_off log n_on alpha : accurate_log log -> moderate n_on -> double n_on -> moderate alpha -> double alpha -> exists r, li_ma_double log (Fin n_on) (Fin 0) (Fin alpha) = Fin r /\ 0 <= r.
Proof.
  intros Hl Hn Dn Ha Da. pose proof (moderate_pr _ Hn) as Pn. pose proof (moderate_pr _ Ha) as Pa. pose proof (pr_pos _ _ _ Pn) as Qn. pose proof (pr_pos _ _ _ Pa) as Qa.
  assert (D : nlt (Fin n_on) (fmul (Fin alpha) (Fin 0)) = false) by (rewrite zero_prod; cbn; destruct (Rltb_spec n_on 0); [lra|auto]).
  destruct (li_ma_accuracy log n_on 0 alpha Hl Pn (or_introl eq_refl) Pa D) as [(r & E & R0 & _)|(E & _)]; [eauto|]. exfalso.
  (* the argument of the logarithm is not below one *)
  revert E. unfold li_ma_double. cbv zeta. rewrite D. cbn [neqb]. destruct (Reqb_spec n_on 0); [lra|]. destruct (Reqb_spec 0 0); [|lra].
  rewrite !fadd_fin, !Rplus_0_r.
  assert (P1 : pr 0 201 (1 + alpha)).
  { destruct Pa as [H1 H2]. change 201%Z with (200 + 1)%Z. unfold pr. rewrite (bpow_plus radix2 200). replace (bpow radix2 1) with 2 by reflexivity.
    change (bpow radix2 0) with 1. pose proof (bpow_gt_0 radix2 (-200)). assert (1 <= bpow radix2 200) by (change 1 with (bpow radix2 0); apply bpow_le; lia). lra. }
  destruct (fl_step' P1 eq_refl) as (x & Ex & Nx & Rx & _). rewrite Ex.
  assert (RD : forall a b, fl a = Fin b -> b = round64 a) by (intros a b Eb; unfold fl in Eb; cbv zeta in Eb; destruct (Rltb fmax _); [destruct (Rltb 0 _); discriminate|congruence]).
  assert (XA : alpha <= x) by (rewrite (RD _ _ Ex), <- (proj1 (double_fix _ Da)) at 1; apply round64_mono; lra).
  rewrite (fl_double _ Dn), !fdiv_fin by lra.
  destruct (fl_step' (pr_div _ _ _ _ _ _ Rx Pa) eq_refl) as (q & Eq & Nq & Rq & Dq). rewrite Eq.
  assert (D1 : double 1) by (exists 1%Z, 0%Z; split; [reflexivity|split; [lia|cbn; ring]]).
  assert (Q1 : 1 <= q).
  { rewrite (RD _ _ Eq), <- (proj1 (double_fix _ D1)). apply round64_mono. apply Rmult_le_reg_r with alpha; auto. unfold Rdiv. rewrite Rmult_assoc, Rinv_l by lra. lra. }
  replace (n_on / n_on) with 1 by (field; lra). rewrite (fl_double _ D1), fmul_fin, Rmult_1_r, (fl_double _ Dq).
  destruct (Hl q ltac:(lra) Dq) as (l & -> & El).
  assert (LQ : 0 <= ln q) by (rewrite <- ln_1; destruct Q1 as [Q1| <-]; [left; apply ln_increasing; lra|lra]).
  assert (L0 : 0 <= l) by (rewrite (Rabs_pos_eq (ln q)) in El by auto; apply Rabs_le_inv in El; rewrite eps53_u in El; pose proof u_small; nra).
  rewrite fmul_fin. destruct (fl_nonneg (n_on * l)) as [->|(t & -> & Ht)]; [apply Rmult_le_pos; lra| |].
  - unfold fadd, fmul. cbn [nadd nmul fl_num]. unfold inf_signed. destruct (Reqb_spec 2 0); [lra|]. destruct (Rltb_spec 0 2); [discriminate|lra].
  - rewrite fadd_fin, Rplus_0_r. destruct (fl_nonneg t Ht) as [->|(v & -> & Hv)].
    + unfold fmul. cbn [nmul fl_num]. unfold inf_signed. destruct (Reqb_spec 2 0); [lra|]. destruct (Rltb_spec 0 2); [discriminate|lra].
    + rewrite fmul_fin. destruct (fl_nonneg (v * 2)) as [->|(w & -> & Hw)]; [lra|discriminate|]. cbn [fsqrt]. destruct (Rltb_spec w 0); [lra|].
      destruct (fl_nonneg (sqrt w) (sqrt_pos w)) as [->|(z & -> & _)]; discriminate.
Qed.
(** ** the exact logarithm, rounded *)
Lemma double_near_one x : double x -> 0 < x -> x <> 1 -> x <= 1 - bpow radix2 (-53) \/ 1 + bpow radix2 (-52) <= x.
Proof.
  intros (m & e & Hm & He & E) H0 H1. change 2 with (IZR (radix_val radix2)) in E. rewrite <- bpow_powerRZ in E.
  pose proof (bpow_gt_0 radix2 e) as P. assert (M : 0 < IZR m) by (rewrite E in H0; nra). apply lt_IZR in M.
  assert (Mu : IZR m <= bpow radix2 53 - 1) by (rewrite <- (IZR_Zpower radix2 53) by lia; rewrite <- minus_IZR; apply IZR_le; change (radix_val radix2) with 2%Z; lia).
  destruct (Z_le_gt_dec e (-53)) as [L|G].
  - left. rewrite E. pose proof (bpow_le radix2 e (-53) L). apply Rle_trans with ((bpow radix2 53 - 1) * bpow radix2 (-53)).
    + apply Rmult_le_compat; try lra. apply IZR_le. lia.
    + rewrite Rmult_minus_distr_r, <- bpow_plus. change (bpow radix2 (53 + -53)) with 1. lra.
  - assert (K : exists k, x = IZR k * bpow radix2 (-52)).
    { exists (m * 2 ^ (e + 52))%Z. rewrite mult_IZR. change 2%Z with (radix_val radix2). rewrite (IZR_Zpower radix2) by lia. rewrite Rmult_assoc, <- bpow_plus. rewrite E. do 2 f_equal. lia. }
    destruct K as (k & K). assert (B : bpow radix2 (-52) = / 4503599627370496) by reflexivity. assert (B' : bpow radix2 (-53) = / 9007199254740992) by reflexivity. rewrite B in *. rewrite B'.
    destruct (Z_lt_le_dec k 4503599627370496) as [L|L].
    + left. assert (IZR k <= 4503599627370495) by (apply IZR_le; lia). lra.
    + right. destruct (Z.eq_dec k 4503599627370496) as [->|N]; [exfalso; apply H1; rewrite K; lra|]. assert (4503599627370497 <= IZR k) by (apply IZR_le; lia). lra.
Qed.
Lemma ln_tiny x : double x -> 0 < x -> x <> 1 -> bpow radix2 (-54) <= Rabs (ln x).
Proof.
  intros D H N. assert (B2 : bpow radix2 (-52) = / 4503599627370496) by reflexivity. assert (B3 : bpow radix2 (-53) = / 9007199254740992) by reflexivity. assert (B4 : bpow radix2 (-54) = / 18014398509481984) by reflexivity.
  destruct (double_near_one x D H N) as [L|L].
  - pose proof (ln_le_sub1 x H). rewrite Rabs_left by lra. lra.
  - pose proof (ln_ge x H) as G. assert (/ x <= / (1 + bpow radix2 (-52))) by (apply Rinv_le_contravar; [rewrite B2; lra|auto]). assert (/ (1 + bpow radix2 (-52)) <= 1 - bpow radix2 (-53)).
    { rewrite B2, B3. apply Rmult_le_reg_r with (1 + / 4503599627370496); [lra|]. rewrite Rinv_l by lra. lra. }
    rewrite Rabs_pos_eq by lra. lra.
Qed.
(** [np.log] rounded correctly *)
Definition rounded_log (x : num) : num := fl_num (nln x).
Theorem rounded_log_accurate : accurate_log rounded_log.
Proof.
  intros x H D. unfold rounded_log, nln. destruct (Rltb_spec 0 x); [|lra]. cbn [fl_num]. rewrite eps53_u. pose proof u_pos as U0. destruct (Req_dec x 1) as [->|N].
  - exists 0. rewrite ln_1, fl0. split; auto. rewrite Rminus_0_r, Rabs_R0. lra.
  - assert (LB : Rabs (ln x) <= 1100).
    { destruct D as (m & e & Hm & He & E). pose proof (double_pos x (ex_intro _ m (ex_intro _ e (conj Hm (conj He E)))) H) as Lo. destruct (double_fix x (ex_intro _ m (ex_intro _ e (conj Hm (conj He E))))) as [_ Hi]. rewrite Rabs_pos_eq in Hi by lra.
      assert (L2 : ln 2 <= 1) by (pose proof (ln_le_sub1 2); lra). assert (L0 : 0 < ln 2) by (rewrite <- ln_1; apply ln_increasing; lra).
      assert (LE : forall a b, 0 < a -> a <= b -> ln a <= ln b) by (intros c d Hc [Hd|<-]; [left; apply ln_increasing; auto|lra]).
      assert (M : fmax <= 2 ^ 1024) by (unfold fmax; change 1024%nat with (53 + 971)%nat; rewrite (pow_add 2 53 971); apply Rmult_le_compat_r; [apply pow_le; lra|lra]).
      assert (Lo' : / 2 ^ 1074 <= x) by (eapply Rle_trans; [|exact Lo]; apply Req_le; change (-1074)%Z with (- (1074))%Z; rewrite bpow_opp, <- (IZR_Zpower radix2 1074) by lia; f_equal; rewrite pow_IZR; reflexivity).
      pose proof (LE _ _ H (Rle_trans _ _ _ Hi M)) as K2. apply LE in Lo'; [|apply Rinv_0_lt_compat, pow_lt; lra]. rewrite ln_Rinv in Lo' by (apply pow_lt; lra). rewrite ln_pow in K2, Lo' by lra.
      rewrite INR_IZR_INZ in K2, Lo'. change (Z.of_nat 1024) with 1024%Z in K2. change (Z.of_nat 1074) with 1074%Z in Lo'. apply Rabs_le. lra. }
    exists (round64 (ln x)). split.
    + apply fl_fin. eapply Rle_trans; [exact LB|]. pose proof (bpow_fmax 20 ltac:(lia)) as F. change (bpow radix2 20) with 1048576 in F. lra.
    + pose proof (ln_tiny x D H N) as T. pose proof (round64_rel (ln x)) as E. fold u in E. assert (Rabs (round64 (ln x) - ln x) <= u * Rabs (ln x)) by (apply E; eapply Rle_trans; [apply (bpow_le radix2 (-1022) (-54)); lia|auto]).
      pose proof (Rabs_pos (ln x)). nra.
Qed.
Lemma elementwise log on off alpha : List.length on = List.length off ->
  exists l, li_ma_significance_double log (Ar on) (Ar off) alpha = Ok (Ar l) /\ List.length l = List.length on /\
    forall i x b, nth_error on i = Some x -> nth_error off i = Some b ->
      exists s, nth_error l i = Some s /\ li_ma_significance_double log (Sc x) (Sc b) alpha = Ok (Sc s).
Proof.
  intros H. unfold li_ma_significance_double. cbn [atleast_1d is_scalar]. rewrite H, Nat.eqb_refl. eexists. split; [reflexivity|]. split; [rewrite zipwith_length; lia|].
  intros i x b H1 H2. exists (li_ma_double log x b alpha). split; [apply (zipwith_nth (fun a b => li_ma_double log a b alpha)); auto|]. reflexivity.
Qed.
Lemma sc_double log n_on n_off alpha : li_ma_significance_double log (Sc n_on) (Sc n_off) alpha = Ok (Sc (li_ma_double log n_on n_off alpha)).
Proof. reflexivity. Qed.
Theorem accuracy' log n_on n_off alpha : accurate_log log -> moderate n_on -> double n_on -> n_off = 0 \/ moderate n_off -> moderate alpha ->
  let s := lima n_on n_off alpha in
  let tolerance := 100 * eps53 * lima_terms n_on n_off alpha in
  (exists r, li_ma_significance_double log (Sc (Fin n_on)) (Sc (Fin n_off)) (Fin alpha) = Ok (Sc (Fin r)) /\ 0 <= r /\ Rabs (r ^ 2 - s ^ 2) <= tolerance) \/
  (li_ma_significance_double log (Sc (Fin n_on)) (Sc (Fin n_off)) (Fin alpha) = Ok (Sc NaN) /\ s ^ 2 <= tolerance).
Proof.
  intros H1 H2 H3 H4 H5. cbv zeta. rewrite sc_double. destruct (accuracy log n_on n_off alpha H1 H2 H3 H4 H5) as [(r & -> & R0 & H)|(-> & H)]; [left|right]; eauto.
Qed.
Theorem nan_refuted log : accurate_log log -> lima 1 5 (1 / 5) = 0 /\ li_ma_significance_double log (Sc (Fin 1)) (Sc (Fin 5)) (fl (1 / 5)) = Ok (Sc NaN).
Proof. intros H. split; [apply lima_deficit; lra|]. rewrite sc_double, li_ma_nan; auto. Qed.
Theorem not_negative' log n_on n_off alpha : exists s,
  li_ma_significance_double log (Sc n_on) (Sc n_off) alpha = Ok (Sc s) /\ (s = NaN \/ s = PInf \/ exists r, s = Fin r /\ 0 <= r).
Proof. rewrite sc_double. eexists. split; [reflexivity|]. apply not_negative. Qed.
Theorem deficit' log n_on n_off alpha : moderate n_off -> moderate alpha -> n_on < alpha * n_off * (1 - eps53) ->
  li_ma_significance_double log (Sc (Fin n_on)) (Sc (Fin n_off)) (Fin alpha) = Ok (Sc (Fin 0)).
Proof. intros. rewrite sc_double, deficit; auto. Qed.
Theorem empty_regions log alpha : accurate_log log -> moderate alpha -> double alpha ->
  (forall n_off, n_off = 0 \/ moderate n_off -> li_ma_significance_double log (Sc (Fin 0)) (Sc (Fin n_off)) (Fin alpha) = Ok (Sc (Fin 0))) /\
  (forall n_on, moderate n_on -> double n_on -> exists r, li_ma_significance_double log (Sc (Fin n_on)) (Sc (Fin 0)) (Fin alpha) = Ok (Sc (Fin r)) /\ 0 <= r).
Proof.
  intros Hl Ha Da. split; intros; rewrite sc_double; [rewrite nothing_on; auto|]. destruct (nothing_off log n_on alpha) as (r & -> & R0); eauto.
Qed.
Lemma eight_events : exists r, li_ma_significance_double rounded_log (Sc (Fin (IZR 8))) (Sc (Fin (IZR 0))) (Fin 1) = Ok (Sc (Fin r)) /\ Rabs (r - sqrt 2 * sqrt (8 * ln 2)) <= / 5000.
Proof.
  assert (L : lima (IZR 8) (IZR 0) 1 = sqrt 2 * sqrt (8 * ln 2)).
  { unfold lima. destruct (Rle_dec _ _); [lra|]. unfold lima_formula, xlny. destruct (Req_EM_T 8 0); [lra|]. destruct (Req_EM_T 0 0); [|lra]. rewrite Rplus_0_r. repeat f_equal. lra. }
  assert (S1 : 1 <= lima (IZR 8) (IZR 0) 1).
  { rewrite L, <- sqrt_mult_alt by lra. rewrite <- sqrt_1 at 1. apply sqrt_le_1_alt. pose proof (ln_ge 2 ltac:(lra)). lra. }
  destruct (counts' rounded_log 8 0 1 rounded_log_accurate) as [(r & E & _ & _ & H)|(_ & H)]; try lia; try lra.
  exists r. split; auto. rewrite <- L. apply H, S1.
Qed.
