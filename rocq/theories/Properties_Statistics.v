(** * Properties_Statistics: C18 - C20 *)
From Coq Require Import Reals List Bool ZArith Lia Lra.
From Verif Require Import Num Numpy Statistics SpecStatistics StatisticsProofs.
Import ListNotations.
Open Scope R_scope.

(** ** C18 *)
Theorem C18_significance_well_defined : forall n_on n_off alpha,
  0 <= n_on -> 0 <= n_off -> 0 < alpha ->
  exists s, li_ma_significance (Sc (Fin n_on)) (Sc (Fin n_off)) (Fin alpha) = Ok (Sc (Fin s)) /\
    0 <= s /\ (s = 0 <-> n_on <= alpha * n_off) /\
    (alpha * n_off < n_on -> s = lima_formula n_on n_off alpha /\ 0 < s).
Proof. exact c18. Qed.
Print Assumptions C18_significance_well_defined.
(** no off events: sqrt 2 sqrt (n_on ln ((1 + alpha) / alpha)), here alpha = 1 *)
Example C18_example : exists s,
  li_ma_significance (Sc (Fin 8)) (Sc (Fin 0)) (Fin 1) = Ok (Sc (Fin s)) /\ 0 < s /\ s = sqrt 2 * sqrt (8 * ln 2).
Proof.
  destruct (c18 8 0 1) as (s & E & _ & _ & H); try lra. exists s. split; auto.
  destruct H as [H1 H2]; [lra|]. split; auto. rewrite H1. unfold lima_formula, xlny.
  destruct (Req_EM_T 8 0); [lra|]. destruct (Req_EM_T 0 0); [|lra].
  rewrite Rplus_0_r. repeat f_equal. lra.
Qed.

(** ** C19 *)
Theorem C19_increasing_in_n_on : forall n_on n_on' n_off alpha s s',
  0 <= n_on -> n_on < n_on' -> 0 <= n_off -> 0 < alpha ->
  li_ma_significance (Sc (Fin n_on)) (Sc (Fin n_off)) (Fin alpha) = Ok (Sc (Fin s)) ->
  li_ma_significance (Sc (Fin n_on')) (Sc (Fin n_off)) (Fin alpha) = Ok (Sc (Fin s')) ->
  s <= s' /\ (alpha * n_off < n_on' -> s < s').
Proof. exact c19_on. Qed.
Print Assumptions C19_increasing_in_n_on.
Theorem C19_decreasing_in_n_off : forall n_on n_off n_off' alpha s s',
  0 <= n_on -> 0 <= n_off -> n_off < n_off' -> 0 < alpha ->
  li_ma_significance (Sc (Fin n_on)) (Sc (Fin n_off)) (Fin alpha) = Ok (Sc (Fin s)) ->
  li_ma_significance (Sc (Fin n_on)) (Sc (Fin n_off')) (Fin alpha) = Ok (Sc (Fin s')) ->
  s' <= s /\ (alpha * n_off < n_on -> s' < s).
Proof. exact c19_off. Qed.
Print Assumptions C19_decreasing_in_n_off.
Theorem C19_decreasing_in_alpha : forall n_on n_off alpha alpha' s s',
  0 <= n_on -> 0 <= n_off -> 0 < alpha -> alpha < alpha' ->
  li_ma_significance (Sc (Fin n_on)) (Sc (Fin n_off)) (Fin alpha) = Ok (Sc (Fin s)) ->
  li_ma_significance (Sc (Fin n_on)) (Sc (Fin n_off)) (Fin alpha') = Ok (Sc (Fin s')) ->
  s' <= s /\ (alpha * n_off < n_on -> s' < s).
Proof. exact c19_alpha. Qed.
Print Assumptions C19_decreasing_in_alpha.
Example C19_example : exists s s',
  li_ma_significance (Sc (Fin 30)) (Sc (Fin 50)) (Fin (1/5)) = Ok (Sc (Fin s)) /\
  li_ma_significance (Sc (Fin 40)) (Sc (Fin 50)) (Fin (1/5)) = Ok (Sc (Fin s')) /\ 0 < s < s'.
Proof.
  destruct (c18 30 50 (1/5)) as (s & E & _ & _ & H); try lra.
  destruct (c18 40 50 (1/5)) as (s' & E' & _); try lra.
  exists s, s'. split; auto. split; auto. destruct H as [_ H]; [lra|]. split; auto.
  apply (c19_on 30 40 50 (1/5) s s'); auto; lra.
Qed.

(** ** C20 *)
Theorem C20_exposure_scaling : forall c n_on n_off alpha s s',
  0 <= c -> 0 <= n_on -> 0 <= n_off -> 0 < alpha ->
  li_ma_significance (Sc (Fin n_on)) (Sc (Fin n_off)) (Fin alpha) = Ok (Sc (Fin s)) ->
  li_ma_significance (Sc (Fin (c * n_on))) (Sc (Fin (c * n_off))) (Fin alpha) = Ok (Sc (Fin s')) ->
  s' = sqrt c * s.
Proof. exact c20_scale. Qed.
Print Assumptions C20_exposure_scaling.
Theorem C20_elementwise : forall on off alpha, length on = length off ->
  exists l, li_ma_significance (Ar on) (Ar off) alpha = Ok (Ar l) /\ length l = length on /\
    forall i x b, nth_error on i = Some x -> nth_error off i = Some b ->
      exists s, nth_error l i = Some s /\ li_ma_significance (Sc x) (Sc b) alpha = Ok (Sc s).
Proof. exact c20_elementwise. Qed.
Print Assumptions C20_elementwise.
(** arguments of different lengths are rejected, in particular a scalar is not
    broadcast against an array *)
Theorem C20_no_broadcasting : forall on off alpha,
  length (atleast_1d on) <> length (atleast_1d off) ->
  li_ma_significance on off alpha = Err IndexError \/ li_ma_significance on off alpha = Err ValueError.
Proof. exact c20_shapes. Qed.
Print Assumptions C20_no_broadcasting.
(** n_on decides whether the result is a scalar; one-element arrays count as their element *)
Theorem C20_shape : forall x b alpha, exists s,
  li_ma_significance (Sc x) (Sc b) alpha = Ok (Sc s) /\ li_ma_significance (Sc x) (Ar [b]) alpha = Ok (Sc s) /\
  li_ma_significance (Ar [x]) (Sc b) alpha = Ok (Ar [s]) /\ li_ma_significance (Ar [x]) (Ar [b]) alpha = Ok (Ar [s]).
Proof. exact c20_shape. Qed.
Print Assumptions C20_shape.
Example C20_example : length [Fin 1; NaN] = length [Fin 0; Fin 3] /\
  length (atleast_1d (Sc (Fin 1))) <> length (atleast_1d (Ar [Fin 1; Fin 2])).
Proof. split; [reflexivity|]. simpl. lia. Qed.
