(** * DoubleProofs: rounding to double precision *)
From Coq Require Import Reals List Bool ZArith Lia Lra Psatz.
From Flocq Require Import Core Relative.
From Verif Require Import Num Numpy Binning Double.
Import ListNotations.
Open Scope R_scope.

Notation ulp0 := (bpow radix2 (-53)).
Notation fexp := (FLT_exp (-1074) 53).
Global Instance prec53 : Prec_gt_0 53. Proof. red. lia. Qed.
Global Instance valid64 : Valid_exp fexp := FLT_exp_valid (-1074) 53.

Lemma round64_eq (m e : Z) x : (-1074 <= e)%Z -> bpow radix2 (e + 52) <= x < bpow radix2 (e + 53) -> Rabs (x * bpow radix2 (- e) - IZR m) < / 2 ->
  round64 x = IZR m * bpow radix2 e.
Proof.
  intros He Hx Hm. unfold round64, round, F2R, scaled_mantissa, cexp. cbn [Fnum Fexp].
  assert (M : mag radix2 x = (e + 53)%Z :> Z).
  { apply mag_unique_pos. replace (e + 53 - 1)%Z with (e + 52)%Z by lia. auto. }
  rewrite M. replace (fexp (e + 53)) with e by (unfold FLT_exp; lia). f_equal. f_equal. apply Znearest_imp. exact Hm.
Qed.
Lemma fmax_format : generic_format radix2 fexp fmax.
Proof.
  apply generic_format_FLT. exists (Float radix2 (2 ^ 53 - 1) 971).
  - unfold fmax, F2R. cbn [Fnum Fexp]. f_equal.
    + rewrite minus_IZR. f_equal. rewrite pow_IZR. reflexivity.
    + rewrite <- (IZR_Zpower radix2) by lia. rewrite pow_IZR. reflexivity.
  - reflexivity.
  - cbn [Fexp]. lia.
Qed.
Lemma round64_mono x y : x <= y -> round64 x <= round64 y.
Proof. intros H. apply round_le; auto with typeclass_instances. Qed.
Lemma round64_0 : round64 0 = 0.
Proof. apply round_0. auto with typeclass_instances. Qed.
Lemma round64_opp x : round64 (- x) = - round64 x.
Proof. apply round_NE_opp. Qed.
Lemma round64_id x : generic_format radix2 fexp x -> round64 x = x.
Proof. apply round_generic. auto with typeclass_instances. Qed.
Lemma fmax_pos : 0 < fmax.
Proof. unfold fmax. apply Rmult_lt_0_compat; [|apply pow_lt; lra]. assert (1 < 2 ^ 53) by (apply Rlt_pow_R1; [lra|lia]). lra. Qed.
Lemma fl_fin x : Rabs x <= fmax -> fl x = Fin (round64 x).
Proof.
  intros H. unfold fl. cbv zeta. destruct (Rltb_spec fmax (Rabs (round64 x))) as [L|L]; auto. exfalso.
  pose proof fmax_pos. assert (Rabs (round64 x) <= fmax); [|lra]. apply Rabs_le_inv in H. apply Rabs_le. split.
  - rewrite <- (round64_id fmax fmax_format), <- round64_opp. apply round64_mono. lra.
  - rewrite <- (round64_id fmax fmax_format). apply round64_mono. lra.
Qed.
(** error of one rounding *)
Lemma half_bpow n : / 2 * bpow radix2 (n + 1) = bpow radix2 n.
Proof. rewrite bpow_plus. replace (bpow radix2 1) with 2 by reflexivity. field. Qed.
Lemma round64_error x : Rabs (round64 x - x) <= ulp0 * Rabs x + bpow radix2 (-1075).
Proof.
  destruct (error_N_FLT radix2 (-1074) 53 ltac:(lia) (fun n => negb (Z.even n)) x) as (e & h & He & Hh & _ & E). unfold round64. rewrite E.
  replace (x * (1 + e) + h - x) with (x * e + h) by ring. eapply Rle_trans; [apply Rabs_triang|]. rewrite Rabs_mult.
  rewrite half_bpow in He. change (-1074)%Z with (-1075 + 1)%Z in Hh. rewrite half_bpow in Hh.
  apply Rplus_le_compat; [|exact Hh]. rewrite Rmult_comm. apply Rmult_le_compat_r; [apply Rabs_pos|exact He].
Qed.
Lemma round64_rel x : bpow radix2 (-1022) <= Rabs x -> Rabs (round64 x - x) <= ulp0 * Rabs x.
Proof.
  intros H. pose proof (relative_error_N_FLT radix2 (-1074) 53 ltac:(lia) (fun n => negb (Z.even n)) x H) as K. unfold round64.
  rewrite half_bpow in K. exact K.
Qed.
Lemma round64_int z : (Z.abs z <= 2 ^ 53)%Z -> round64 (IZR z) = IZR z.
Proof.
  intros H. apply round64_id. destruct (Z.eq_dec (Z.abs z) (2 ^ 53)) as [E|E].
  - apply generic_format_FLT. exists (Float radix2 (Z.sgn z) 53).
    + unfold F2R. cbn [Fnum Fexp]. rewrite <- (IZR_Zpower radix2) by lia. rewrite <- mult_IZR. f_equal. cbn [radix_val radix2]. lia.
    + cbn [Fnum]. change (Zpower radix2 53) with (2 ^ 53)%Z. lia.
    + cbn. lia.
  - apply generic_format_FLT. exists (Float radix2 z 0); [unfold F2R; cbn; ring|cbn [Fnum]; change (Zpower radix2 53) with (2 ^ 53)%Z; lia|cbn; lia].
Qed.
Lemma round64_q (m n : Z) x : (0 <= n <= 1074)%Z -> IZR (2 ^ 52) <= x * IZR (2 ^ n) < IZR (2 ^ 53) -> Rabs (x * IZR (2 ^ n) - IZR m) < / 2 ->
  round64 x = IZR m / IZR (2 ^ n).
Proof.
  intros Hn Hx Hm. change 2%Z with (radix_val radix2) in Hx, Hm |- *. rewrite (IZR_Zpower radix2 n) in * by lia.
  rewrite (IZR_Zpower radix2 52), (IZR_Zpower radix2 53) in Hx by lia. unfold Rdiv. rewrite <- bpow_opp.
  pose proof (bpow_gt_0 radix2 n) as P. assert (B : bpow radix2 (- n) * bpow radix2 n = 1) by (rewrite <- bpow_plus; replace (- n + n)%Z with 0%Z by lia; reflexivity).
  apply round64_eq; [lia| |rewrite Z.opp_involutive; auto]. rewrite !bpow_plus. pose proof (bpow_gt_0 radix2 (- n)) as P'.
  split.
  - apply (Rmult_le_reg_r _ _ _ P). rewrite (Rmult_comm (bpow radix2 (- n))), Rmult_assoc, B, Rmult_1_r. lra.
  - apply (Rmult_lt_reg_r _ _ _ P). rewrite (Rmult_comm (bpow radix2 (- n))), Rmult_assoc, B, Rmult_1_r. lra.
Qed.
