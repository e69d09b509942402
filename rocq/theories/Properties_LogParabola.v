(** * C100: log parabolas in double precision *)
From Coq Require Import Reals List Bool ZArith Lia Lra.
From Verif Require BinsDoubleProofs.
From Verif Require Import Num SpecDouble SpecBinsDouble WeightsDoubleProofs ShowersDoubleProofs SpecEventWeights EventWeightsDoubleProofs LogParabolaDouble SpecLogParabola LogParabolaDoubleProofs.
Open Scope R_scope.

Theorem C100_flux pow log10f norm a b e_ref e : accurate_wide_power pow -> accurate_log10 log10f -> sized 30 norm -> double a -> double b -> -5 <= a <= 5 -> -1 <= b <= 1 -> usual e_ref -> usual e ->
  exists f, log_parabola_call_double pow log10f (Fin norm) a b e_ref (Fin e) = Fin f /\
    0 < log_parabola_flux norm a b e_ref e /\ Rabs (f - log_parabola_flux norm a b e_ref e) <= 2400 * eps53 * log_parabola_flux norm a b e_ref e.
Proof. exact (c100_flux pow log10f norm a b e_ref e). Qed.
Print Assumptions C100_flux.

(** at the reference energy the flux is the normalization, if 1 to any power is 1 *)
Theorem C100_reference pow log10f norm a b e_ref : (forall p, pow (Fin 1) (Fin p) = Fin 1) -> accurate_log10 log10f -> sized 30 norm -> double a -> -5 <= a <= 5 -> usual e_ref ->
  log_parabola_call_double pow log10f (Fin norm) a b e_ref (Fin e_ref) = Fin norm.
Proof. exact (c100_reference pow log10f norm a b e_ref). Qed.
Print Assumptions C100_reference.

(** a spectrum like that of the Crab nebula *)
Example C100_example : accurate_wide_power rounded_power /\ accurate_log10 BinsDoubleProofs.rounded_log10 /\ (forall p, rounded_power (Fin 1) (Fin p) = Fin 1) /\
  sized 30 (1 / IZR (2 ^ 35)) /\ double (-5 / IZR (2 ^ 1)) /\ double (-1 / IZR (2 ^ 2)) /\ -5 <= -5 / IZR (2 ^ 1) <= 5 /\ -1 <= -1 / IZR (2 ^ 2) <= 1 /\ usual 1 /\ usual 10 /\
  log_parabola_flux 1 (-5 / IZR (2 ^ 1)) (-1 / IZR (2 ^ 2)) 1 10 = Rpower 10 (- (11 / 4)).
Proof.
  split; [apply rounded_power_wide|]. split; [apply BinsDoubleProofs.rounded_log10_accurate|]. split; [apply rounded_power_one|].
  split. { split; [apply (double_q 1 35); cbn; lia|]. pose proof (ten_inv 30 11 ltac:(lia)) as I. assert (1 <= 10 ^ 30) by (apply pow_R1_Rle; lra).
    assert (/ 10 ^ 11 <= 1 / IZR (2 ^ 35) <= 1). { cbn [Z.pow Z.pow_pos Pos.iter Z.mul Pos.mul]. unfold Rdiv. rewrite Rmult_1_l. split; [apply Rinv_le_contravar; lra|rewrite <- Rinv_1; apply Rinv_le_contravar; lra]. } lra. }
  split; [apply (double_q (-5) 1); cbn; lia|]. split; [apply (double_q (-1) 2); cbn; lia|]. split; [cbn; lra|]. split; [cbn; lra|].
  split; [apply (sized_int 6 1); [lia|lra]|]. split; [apply (sized_int 6 10); [lia|lra]|].
  unfold log_parabola_flux. rewrite Rmult_1_l. replace (10 / 1) with 10 by lra. pose proof BinsDoubleProofs.ln10_ge. f_equal. unfold Rdiv at 3. rewrite Rinv_r by lra. cbn. lra.
Qed.
