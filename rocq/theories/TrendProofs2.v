(** * TrendProofs2: comparing the sensitivities of two samples *)
From Coq Require Import String Reals List Bool ZArith Arith Lia Lra Permutation.
From Verif Require Import Num Numpy Lists Table Binning Statistics Sensitivity CutOptimization SpecBinning SpecStatistics SpecSensitivity SpecCutOptimization SpecPipeline SpecTrend
  StatisticsProofs SensitivityProofs SensitivityProofs2 PipelineProofs PipelineProofs2 TrendProofs.
Import ListNotations.
Open Scope R_scope.

Lemma inc_lt xs : increasing xs -> forall i j x y, (i < j)%nat -> nth_error xs i = Some x -> nth_error xs j = Some y -> x < y.
Proof.
  intros H i j x y L. revert y. induction L as [|j L IH]; intros y Hx Hy; [apply (H i x y Hx Hy)|].
  destruct (nth_error xs j) as [z|] eqn:Z.
  - specialize (IH z Hx eq_refl). pose proof (H j z y Z Hy). lra.
  - apply nth_error_None in Z. apply nth_some_lt in Hy. lia.
Qed.
Lemma inc_inj xs i j x y : increasing xs -> nth_error xs i = Some x -> nth_error xs j = Some y -> (x = y -> i = j) /\ (x < y -> (i < j)%nat) /\ (x <= y -> (i <= j)%nat).
Proof.
  intros H Hx Hy. destruct (lt_eq_lt_dec i j) as [[L|E]|L].
  - pose proof (inc_lt xs H i j x y L Hx Hy). repeat split; intros; try lra; lia.
  - subst. rewrite Hx in Hy. injection Hy as <-. repeat split; intros; try lra; lia.
  - pose proof (inc_lt xs H j i y x L Hy Hx). repeat split; intros; lra.
Qed.
(** the interpolation has one value only: at a knot that of the knot, between two knots that of the segment *)
Lemma interp_knot xs ys x v i xi yi : increasing xs -> List.length xs = List.length ys -> interpolates xs ys x v -> nth_error xs i = Some xi -> nth_error ys i = Some yi -> x = xi -> v = yi.
Proof.
  intros H Hl I Hx Hy ->. destruct I as [x0 y0 H0 G0 L|xn yn Hn Gn L|j x0 x1 y0 y1 H0 H1 G0 G1 L L'].
  - pose proof (inc_inj xs i 0 xi x0 H Hx H0) as (_ & _ & Q). specialize (Q L). replace i with 0%nat in * by lia. congruence.
  - pose proof (nth_some_lt _ _ _ Hx). pose proof (inc_inj xs _ i xn xi H Hn Hx) as (_ & _ & Q). specialize (Q L). replace i with (List.length xs - 1)%nat in * by lia. rewrite Hl in Hy. congruence.
  - destruct (Req_dec xi x0) as [E|N0]; [|destruct (Req_dec xi x1) as [E|N1]].
    + pose proof (proj1 (inc_inj xs i j xi x0 H Hx H0) E). subst j. rewrite Hy in G0. injection G0 as <-. rewrite E. unfold Rdiv. rewrite Rminus_diag_eq by reflexivity. ring.
    + pose proof (proj1 (inc_inj xs i (S j) xi x1 H Hx H1) E). subst i. rewrite Hy in G1. injection G1 as <-. rewrite E. field. lra.
    + exfalso. pose proof (proj1 (proj2 (inc_inj xs j i x0 xi H H0 Hx)) ltac:(lra)). pose proof (proj1 (proj2 (inc_inj xs i (S j) xi x1 H Hx H1)) ltac:(lra)). lia.
Qed.
Lemma interp_unique xs ys x v w : increasing xs -> List.length xs = List.length ys -> interpolates xs ys x v -> interpolates xs ys x w -> v = w.
Proof.
  intros H Hl I J. destruct J as [x0 y0 H0 G0 L|xn yn Hn Gn L|j x0 x1 y0 y1 H0 H1 G0 G1 L L'].
  - destruct (Req_dec x x0) as [E|N]; [eapply interp_knot; eauto|]. destruct I as [u0 w0 K0 M0 P|un wn Kn Mn P|i u0 u1 w0 w1 K0 K1 M0 M1 P P'].
    + congruence.
    + pose proof (proj2 (proj2 (inc_inj xs 0 _ x0 un H H0 Kn))). pose proof (inc_inj xs _ 0 un x0 H Kn H0) as (_ & Q & _). specialize (Q ltac:(lra)). lia.
    + pose proof (inc_inj xs i 0 u0 x0 H K0 H0) as (_ & Q & _). specialize (Q ltac:(lra)). lia.
  - pose proof (nth_some_lt _ _ _ Hn). destruct (Req_dec x xn) as [E|N]; [rewrite <- Hl in Gn; eapply interp_knot; eauto|]. destruct I as [u0 w0 K0 M0 P|un wn Kn Mn P|i u0 u1 w0 w1 K0 K1 M0 M1 P P'].
    + pose proof (inc_inj xs _ 0 xn u0 H Hn K0) as (_ & Q & _). specialize (Q ltac:(lra)). lia.
    + congruence.
    + pose proof (nth_some_lt _ _ _ K1). pose proof (inc_inj xs _ (S i) xn u1 H Hn K1) as (_ & Q & _). specialize (Q ltac:(lra)). lia.
  - destruct (Req_dec x x0) as [E|N0]; [|destruct (Req_dec x x1) as [E|N1]].
    + rewrite (interp_knot xs ys x v j x0 y0 H Hl I H0 G0 E). rewrite E. unfold Rdiv. rewrite Rminus_diag_eq by reflexivity. ring.
    + rewrite (interp_knot xs ys x v (S j) x1 y1 H Hl I H1 G1 E). rewrite E. field. lra.
    + destruct I as [u0 w0 K0 M0 P|un wn Kn Mn P|i u0 u1 w0 w1 K0 K1 M0 M1 P P'].
      * pose proof (inc_inj xs j 0 x0 u0 H H0 K0) as (_ & Q & _). specialize (Q ltac:(lra)). lia.
      * pose proof (nth_some_lt _ _ _ H1). pose proof (inc_inj xs _ (S j) un x1 H Kn H1) as (_ & Q & _). specialize (Q ltac:(lra)). lia.
      * pose proof (inc_inj xs i (S j) u0 x1 H K0 H1) as (_ & Q1 & _). specialize (Q1 ltac:(lra)). pose proof (inc_inj xs j (S i) x0 u1 H H0 K1) as (_ & Q2 & _). specialize (Q2 ltac:(lra)).
        assert (i = j) by lia. subst i. congruence.
Qed.
Lemma cut_unique xs ys lo hi v w : increasing xs -> List.length xs = List.length ys -> cut_for_bin xs ys lo hi v -> cut_for_bin xs ys lo hi w -> v = w.
Proof. intros H Hl I J. destruct I; inversion J; subst; try congruence. eapply interp_unique; eauto. Qed.
(** ** weights of samples *)
Lemma weight_app {A} (w : A -> R) (P : A -> Prop) l l' W : weight_of w P (l ++ l') W -> exists a b, weight_of w P l a /\ weight_of w P l' b /\ W = a + b.
Proof.
  revert W. induction l as [|x l IH]; intros W H; cbn [app] in H.
  - exists 0, W. repeat split; [constructor|exact H|lra].
  - inversion H as [|? ? r HP HW|? ? r HP HW]; subst; destruct (IH _ HW) as (a & b & Ha & Hb & E).
    + exists (w x + a), b. repeat split; [constructor; auto|auto|lra].
    + exists a, b. repeat split; [constructor; auto|auto|lra].
Qed.
Lemma weight_perm {A} (w : A -> R) (P : A -> Prop) l l' : Permutation l l' -> forall W, weight_of w P l W -> weight_of w P l' W.
Proof.
  induction 1 as [|x l l' H IH|x y l|l l' l'' H1 IH1 H2 IH2]; intros W HW; auto.
  - inversion HW; subst; constructor; auto.
  - inversion HW as [|? ? r HP HR|? ? r HP HR]; subst; inversion HR as [|? ? r' HP' HR'|? ? r' HP' HR']; subst.
    + replace (w y + (w x + r')) with (w x + (w y + r')) by ring. repeat constructor; auto.
    + apply wo_no; [auto|]. constructor; auto.
    + constructor; [auto|]. apply wo_no; auto.
    + apply wo_no; [auto|]. apply wo_no; auto.
Qed.
Lemma weight_contained {A} (w : A -> R) (P : A -> Prop) l l' W W' : contained l l' -> (forall a, In a l' -> 0 <= w a) -> weight_of w P l W -> weight_of w P l' W' -> W <= W'.
Proof.
  intros (rest & H) N HW HW'. apply (weight_perm _ _ _ _ H) in HW'. apply weight_app in HW' as (a & b & Ha & Hb & ->).
  rewrite (weight_unique _ w P l W a HW Ha). assert (0 <= b); [|lra]. eapply weight_of_nonneg; [|exact Hb]. intros x I. apply N. eapply Permutation_in; [symmetry; exact H|]. apply in_or_app. auto.
Qed.
Lemma weight_scaled {A} (w w' : A -> R) (f : A -> A) (P : A -> Prop) c l W : (forall x, w (f x) = c * w' x) -> (forall x, P (f x) <-> P x) -> weight_of w' P l W -> weight_of w P (map f l) (c * W).
Proof.
  intros Hw HP H. induction H as [|x l r HPx H IH|x l r HPx H IH]; cbn [map].
  - replace (c * 0) with 0 by ring. constructor.
  - replace (c * (w' x + r)) with (w (f x) + c * r) by (rewrite Hw; ring). constructor; [apply HP|]; auto.
  - apply wo_no; [rewrite HP|]; auto.
Qed.
(** ** the three calls *)
Definition row (sw bw : bool) (signal : list event) (background : list bg_event) bins centers cuts alpha mn mx s m e (t : table) (k : nat) : Prop :=
  forall lo hi, nth_error bins k = Some lo -> nth_error bins (S k) = Some hi ->
    exists th W V rel, cut_for_bin centers cuts lo hi th /\ 0 <= ring_ratio th mn mx /\ 0 <= W /\ 0 <= V /\
      weight_of (weight_in sw) (fun v => in_hist_bin bins k (ev_x v)) signal W /\
      weight_of (fun b => weight_in bw (bg_ev b)) (fun b => in_annulus mn mx (bg_offset b) /\ in_hist_bin bins k (ev_x (bg_ev b))) background V /\
      cell t "relative_sensitivity" k rel /\ cell t "n_background_weighted" k (Fin (V * ring_ratio th mn mx / alpha)) /\ smallest_detectable W (V * ring_ratio th mn mx / alpha) alpha s m e rel.
Lemma sensitivity_row br sw sp bw bp signal background bins centers cuts alpha mn mx s m e : settings br bins centers cuts alpha mn mx s -> valid_events sp bp signal background ->
  exists t, sensitivity_of br sw sp bw bp signal background bins centers cuts alpha mn mx s m e = Ok t /\ forall k, row sw bw signal background bins centers cuts alpha mn mx s m e t k.
Proof.
  intros (S1 & S2 & S3 & S4 & S5 & S6 & S7 & S8 & S9 & S10 & S11 & S12 & S13 & S14) (V1 & V2 & V3 & V4).
  destruct (pipeline br sw sp bw bp signal background bins centers cuts alpha mn mx s m e) as (sh & bh & t & E1 & E2 & E3 & H); auto.
  exists t. split; [unfold sensitivity_of; rewrite E1; cbn [rbind]; rewrite E2; exact E3|]. intros k lo hi Hlo Hhi.
  destruct (H k lo hi Hlo Hhi) as (th & W & V & rel & C & HW & HV & R & _ & KB & D). exists th, W, V, rel. split; [exact C|]. split; [apply ring_ratio_nonneg; auto|].
  split; [eapply weight_of_nonneg; [|exact HW]; intros v I; unfold weight_in; destruct sw; [auto|lra]|].
  split; [eapply weight_of_nonneg; [|exact HV]; intros v I; cbn; unfold weight_in; destruct bw; [auto|lra]|]. auto.
Qed.
