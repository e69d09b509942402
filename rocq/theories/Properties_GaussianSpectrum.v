(** * C101: power laws with a Gaussian bump in double precision *)
From Coq Require Import Reals List Bool ZArith Lia Lra.
From Verif Require BinsDoubleProofs.
From Verif Require Import Num SpecDouble SpecBinsDouble Spectral WeightsDoubleProofs ShowersDoubleProofs SpecShowers SpecEventWeights EventWeightsDouble EventWeightsDoubleProofs
  GaussianSpectrumDouble SpecGaussianSpectrum GaussianSpectrumDoubleProofs.
Open Scope R_scope.

Theorem C101_flux pow log10f expf norm U index e_ref f mu sigma e : accurate_power pow -> accurate_log10 log10f -> accurate_exp expf ->
  sized 30 norm -> double index -> -5 <= index <= 0 -> usual e_ref -> double f -> 0 <= f <= 10 -> double mu -> -6 <= mu <= 6 -> double sigma -> / 10 <= sigma <= 10 -> usual e ->
  exists y, gaussian_spectrum_call_double pow log10f expf (mkPL (Fin norm) U index e_ref) f mu sigma (Fin e) = Fin y /\
    0 < gaussian_spectrum_flux norm index e_ref f mu sigma e /\
    Rabs (y - gaussian_spectrum_flux norm index e_ref f mu sigma e) <= 26500 * eps53 * gaussian_spectrum_flux norm index e_ref f mu sigma e.
Proof. exact (c101_flux pow log10f expf norm U index e_ref f mu sigma e). Qed.
Print Assumptions C101_flux.

(** without a bump it is the power law, to the last bit *)
Theorem C101_no_bump pow log10f expf norm U index e_ref mu sigma e : accurate_power pow -> accurate_log10 log10f -> accurate_exp expf ->
  sized 30 norm -> double index -> -5 <= index <= 0 -> usual e_ref -> double mu -> -6 <= mu <= 6 -> double sigma -> / 10 <= sigma <= 10 -> usual e ->
  gaussian_spectrum_call_double pow log10f expf (mkPL (Fin norm) U index e_ref) 0 mu sigma (Fin e) = power_law_call_double pow (mkPL (Fin norm) U index e_ref) (Fin e).
Proof. exact (c101_no_bump pow log10f expf norm U index e_ref mu sigma e). Qed.
Print Assumptions C101_no_bump.

(** a spectrum of electrons: index -3, bump with f = 2, sigma = 3/4 at 10 TeV *)
Example C101_example : accurate_power rounded_power /\ accurate_log10 BinsDoubleProofs.rounded_log10 /\ accurate_exp rounded_exp /\
  sized 30 (1 / IZR (2 ^ 35)) /\ double (-3) /\ -5 <= -3 <= 0 /\ usual 1 /\ usual 10 /\ double 2 /\ double 1 /\ double (3 / IZR (2 ^ 2)) /\ / 10 <= 3 / IZR (2 ^ 2) <= 10 /\
  gaussian_spectrum_flux 1 (-3) 1 2 1 (3 / 4) 10 = Rpower 10 (-3) * (1 + 2 * (exp 1 - 1)).
Proof.
  split; [apply rounded_power_accurate|]. split; [apply BinsDoubleProofs.rounded_log10_accurate|]. split; [apply rounded_exp_accurate|].
  split. { split; [apply (double_q 1 35); cbn; lia|]. pose proof (ten_inv 30 11 ltac:(lia)) as I. assert (1 <= 10 ^ 30) by (apply pow_R1_Rle; lra).
    assert (/ 10 ^ 11 <= 1 / IZR (2 ^ 35) <= 1). { cbn [Z.pow Z.pow_pos Pos.iter Z.mul Pos.mul]. unfold Rdiv. rewrite Rmult_1_l. split; [apply Rinv_le_contravar; lra|rewrite <- Rinv_1; apply Rinv_le_contravar; lra]. } lra. }
  split; [apply (double_int (-3)); cbn; lia|]. split; [lra|]. split; [apply (sized_int 6 1); [lia|lra]|]. split; [apply (sized_int 6 10); [lia|lra]|].
  split; [apply (double_int 2); cbn; lia|]. split; [apply d_one|]. split; [apply (double_q 3 2); cbn; lia|]. split; [cbn; lra|].
  unfold gaussian_spectrum_flux, power_law_flux. rewrite Rmult_1_l. replace (10 / 1) with 10 by lra. pose proof BinsDoubleProofs.ln10_ge. f_equal. f_equal. f_equal. f_equal.
  replace (ln 10 / ln 10) with 1 by (field; lra). replace (- (((1 - 1) / (3 / 4)) ^ 2 / 2)) with 0 by field. rewrite exp_0. reflexivity.
Qed.
