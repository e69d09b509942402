(** * SensitivityProofs5: exactly when relative_sensitivity finds an answer *)
From Coq Require Import String Reals List Bool ZArith Lia Lra Psatz.
From Verif Require Import Num Numpy Table Binning Utils Statistics SpecStatistics StatisticsProofs
  Sensitivity SpecSensitivity SensitivityProofs SensitivityProofs2.
Import ListNotations.
Open Scope R_scope.

Lemma c24_exact br n_on b a s m e : brentq_sound br -> brentq_converges br -> brentq_checks_signs br ->
  0 <= b -> 0 < a -> 0 < s -> a * b < n_on ->
  let found := (1 < b /\ s <= lima (10 * (s * sqrt (a * b)) + a * b) b a) \/
    (b <= 1 /\ lima ((n_on - a * b) * (1 / 10000) + a * b) b a <= s <= lima ((n_on - a * b) * 100 + a * b) b a) in
  (found -> exists r, relative_sensitivity1 br li_ma1 (Fin n_on) (Fin b) (Fin a) (Fin s) (Fin m) (Fin e) = Ok (Fin r) /\ 0 < r) /\
  (~ found -> relative_sensitivity1 br li_ma1 (Fin n_on) (Fin b) (Fin a) (Fin s) (Fin m) (Fin e) = Ok NaN).
Proof.
  intros HS HC HX Hb Ha Hs HN found. destruct (Rlt_le_dec 1 b) as [Hb1|Hb1].
  - destruct (at_bounds (n_on - a * b) b a s ltac:(lra) Hb1) as [El Eu]. split.
    + intros [[_ Hf]|[Hf _]]; [|lra]. apply rel_sens_finite; auto.
      * rewrite El. apply lower_ok; auto.
      * rewrite Eu. auto.
    + intros Hf. apply rel_sens_nan; auto. left. rewrite Eu. apply Rnot_le_lt. intros H. apply Hf. left. auto.
  - assert (El : lower_b (n_on - a * b) (a * b) b s = 1 / 10000) by (unfold lower_b; destruct (Rltb_spec 1 b); lra).
    assert (Eu : upper_b (n_on - a * b) (a * b) b s = 100) by (unfold upper_b; destruct (Rltb_spec 1 b); lra).
    split.
    + intros [[Hf _]|[_ [Hf1 Hf2]]]; [lra|]. apply rel_sens_finite; auto; rewrite ?El, ?Eu; auto.
    + intros Hf. apply rel_sens_nan; auto. rewrite El, Eu.
      destruct (Rlt_le_dec (lima ((n_on - a * b) * 100 + a * b) b a) s) as [H1|H1]; [left; auto|].
      destruct (Rlt_le_dec s (lima ((n_on - a * b) * (1 / 10000) + a * b) b a)) as [H2|H2]; [right; auto|].
      exfalso. apply Hf. right. auto.
Qed.
