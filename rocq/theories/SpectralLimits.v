(** * SpectralLimits: the spectra at energies 0 and infinity *)
From Coq Require Import Reals List Bool ZArith Lia Lra.
From Verif Require Import Num Numpy Utils Simulations Spectral.
Import ListNotations.
Open Scope R_scope.

Lemma div_0 r : 0 < r -> ndiv (Fin 0) (Fin r) = Fin 0.
Proof. intros. cbn. unfold ndiv. cbn. rsolve; cbn; rsolve; f_equal; field; lra. Qed.
Lemma div_inf r : 0 < r -> ndiv PInf (Fin r) = PInf.
Proof. intros. unfold ndiv. cbn. unfold inf_signed. rsolve; auto; cbn; unfold inf_signed; rsolve; auto. Qed.
Lemma power_limits N u i r : 0 < N -> 0 < r -> i < 0 ->
  call (PowerLaw (mkPL (Fin N) u i r)) (Fin 0) = (PInf, u) /\ call (PowerLaw (mkPL (Fin N) u i r)) PInf = (Fin 0, u).
Proof.
  intros HN Hr Hi. unfold call, power_law_call. cbn [pl_norm pl_unit pl_index pl_e_ref]. rewrite div_0, div_inf by auto. cbn [npow]. rsolve. split; f_equal.
  - cbn. unfold inf_signed. rsolve. reflexivity.
  - cbn. f_equal. ring.
Qed.
Lemma log_0 : nlog10 (Fin 0) = NInf.
Proof. cbn. rsolve. reflexivity. Qed.
Lemma gauss_limits N u i r f mu sigma : 0 < N -> 0 < r -> i < 0 -> sigma <> 0 ->
  call (ExpGauss (mkPL (Fin N) u i r) f mu sigma) (Fin 0) = (PInf, u) /\ call (ExpGauss (mkPL (Fin N) u i r) f mu sigma) PInf = (Fin 0, u).
Proof.
  intros HN Hr Hi Hs. destruct (power_limits N u i r HN Hr Hi) as (E1 & E2). unfold call in *. injection E1 as E1. injection E2 as E2.
  rewrite E1, E2. cbn [pl_unit pl_e_ref]. rewrite div_0, div_inf, log_0 by auto. cbn [nlog10].
  assert (Z : forall x, x = NInf \/ x = PInf -> nexp (nmul (Fin (- (1 / 2))) (nmul (ndiv (nsub x (Fin mu)) (Fin sigma)) (ndiv (nsub x (Fin mu)) (Fin sigma)))) = Fin 0).
  { intros x Hx. destruct (Rlt_le_dec 0 sigma) as [P|P].
    - destruct Hx as [-> | ->]; unfold ndiv, nsub, nneg; cbn; unfold inf_signed; rsolve; cbn; unfold inf_signed; rsolve; cbn; unfold inf_signed; rsolve; reflexivity.
    - destruct Hx as [-> | ->]; unfold ndiv, nsub, nneg; cbn; unfold inf_signed; rsolve; cbn; unfold inf_signed; rsolve; cbn; unfold inf_signed; rsolve; reflexivity. }
  rewrite !Z by auto. cbn [nexp]. rewrite exp_0. unfold nsub, nneg. cbn [nadd nmul].
  replace (1 + f * (1 + - (1))) with 1 by ring. split; f_equal; cbn; unfold inf_signed; rsolve; auto. f_equal. ring.
Qed.
Lemma parabola_limits N u a b r : 0 < N -> 0 < r ->
  (b < 0 -> call (LogParabola (Fin N) u a b r) (Fin 0) = (Fin 0, u) /\ call (LogParabola (Fin N) u a b r) PInf = (Fin 0, u)) /\
  (0 < b -> call (LogParabola (Fin N) u a b r) (Fin 0) = (PInf, u) /\ call (LogParabola (Fin N) u a b r) PInf = (PInf, u)) /\
  (b = 0 -> call (LogParabola (Fin N) u a b r) (Fin 0) = (NaN, u) /\ call (LogParabola (Fin N) u a b r) PInf = (NaN, u)).
Proof.
  intros HN Hr. unfold call. rewrite div_0, div_inf, log_0 by auto. cbn [nlog10].
  repeat split; f_equal; cbn; unfold inf_signed; rsolve; cbn; unfold inf_signed; rsolve; cbn; unfold inf_signed; rsolve; auto; f_equal; ring.
Qed.
