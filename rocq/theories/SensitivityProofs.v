(** * SensitivityProofs *)
From Coq Require Import String Reals List Bool ZArith Lia Lra Psatz.
From Verif Require Import Num Numpy Table Binning Utils Statistics SpecStatistics StatisticsProofs
  Sensitivity SpecSensitivity.
Import ListNotations.
Open Scope R_scope.

(** ** a bisection solver meets the contract *)
Section Bisection.
Variable f : R -> num.
Fixpoint bis (n : nat) (p q : R) : res (R * R) :=
  match n with
  | O => Ok (p, q)
  | S n' => let m := (p + q) / 2 in
            if nle (f m) (Fin 0) then bis n' m q
            else if nle (Fin 0) (f m) then bis n' p m else Err ValueError
  end.
Lemma bis_ok n : forall p q a b p' q', a <= p <= b -> a <= q <= b ->
  nle (f p) (Fin 0) = true -> nle (Fin 0) (f q) = true -> bis n p q = Ok (p', q') ->
  a <= p' <= b /\ a <= q' <= b /\ nle (f p') (Fin 0) = true /\ nle (Fin 0) (f q') = true /\
  Rabs (q' - p') = Rabs (q - p) / 2 ^ n.
Proof.
  induction n; cbn [bis]; cbv zeta; intros p q a b p' q' Hp Hq Fp Fq H.
  - injection H as <- <-. repeat split; try tauto. lra.
  - destruct (nle (f ((p + q) / 2)) (Fin 0)) eqn:E1; [|destruct (nle (Fin 0) (f ((p + q) / 2))) eqn:E2; [|discriminate]].
    + destruct (IHn ((p + q) / 2) q a b p' q' ltac:(lra) Hq E1 Fq H) as (A & B & C & D & G).
      split; [auto|]. split; [auto|]. split; [auto|]. split; [auto|]. rewrite G.
      replace (q - (p + q) / 2) with ((q - p) * / 2) by lra. rewrite Rabs_mult, (Rabs_right (/ 2)) by lra.
      rewrite <- tech_pow_Rmult. field. apply pow_nonzero; lra.
    + destruct (IHn p ((p + q) / 2) a b p' q' Hp ltac:(lra) Fp E2 H) as (A & B & C & D & G).
      split; [auto|]. split; [auto|]. split; [auto|]. split; [auto|]. rewrite G.
      replace ((p + q) / 2 - p) with ((q - p) * / 2) by lra. rewrite Rabs_mult, (Rabs_right (/ 2)) by lra.
      rewrite <- tech_pow_Rmult. field. apply pow_nonzero; lra.
Qed.
Lemma bis_total n : forall p q a b, a <= p <= b -> a <= q <= b ->
  (forall x, a <= x <= b -> is_nan (f x) = false) -> exists r, bis n p q = Ok r.
Proof.
  induction n; cbn [bis]; cbv zeta; intros p q a b Hp Hq Hn; [eauto|].
  destruct (nle (f ((p + q) / 2)) (Fin 0)) eqn:E1; [apply (IHn _ _ a b); auto; lra|].
  destruct (nle (Fin 0) (f ((p + q) / 2))) eqn:E2; [apply (IHn _ _ a b); auto; lra|].
  exfalso. specialize (Hn ((p + q) / 2) ltac:(lra)).
  apply not_nle_lt in E1; auto. apply nlt_nle in E1. congruence.
Qed.
End Bisection.
Definition bisect_solver (f : R -> num) (a b : R) : res R :=
  let n := Z.to_nat (up ((b - a) * 1000000000000)) in
  if nle (f a) (Fin 0) && nle (Fin 0) (f b) then do r <- bis f n a b; Ok (fst r)
  else if nle (f b) (Fin 0) && nle (Fin 0) (f a) then do r <- bis f n b a; Ok (fst r)
  else Err ValueError.

Lemma pow2_ge n : INR n <= 2 ^ n.
Proof.
  induction n; [simpl; lra|]. rewrite S_INR. simpl.
  assert (1 <= 2 ^ n) by (apply pow_R1_Rle; lra). lra.
Qed.
Lemma brentq_tol_ge x : 1 / 1000000000000 <= brentq_tol x.
Proof.
  unfold brentq_tol. assert (0 <= / 2 ^ 50 * Rabs x); [|lra].
  apply Rmult_le_pos; [|apply Rabs_pos]. left. apply Rinv_0_lt_compat, pow_lt. lra.
Qed.
Lemma bis_tol a b : a <= b -> (b - a) / 2 ^ Z.to_nat (up ((b - a) * 1000000000000)) <= 1 / 1000000000000.
Proof.
  intros H. set (d := (b - a) * 1000000000000). destruct (archimed d) as [A _].
  set (n := Z.to_nat (up d)).
  assert (Hn : d <= INR n).
  { unfold n. rewrite INR_IZR_INZ. rewrite Z2Nat.id; [lra|].
    apply le_IZR. unfold d in *. lra. }
  pose proof (pow2_ge n). assert (0 < 2 ^ n) by (apply pow_lt; lra).
  apply (Rmult_le_reg_r (2 ^ n)); auto. unfold Rdiv. rewrite Rmult_assoc, Rinv_l by lra.
  unfold d in Hn. lra.
Qed.
Lemma bisect_sound : brentq_sound bisect_solver.
Proof.
  intros f a b x Hab H. unfold bisect_solver in H.
  set (n := Z.to_nat (up ((b - a) * 1000000000000))) in *.
  pose proof (bis_tol a b Hab) as T. fold n in T.
  destruct (nle (f a) (Fin 0) && nle (Fin 0) (f b)) eqn:E1;
    [|destruct (nle (f b) (Fin 0) && nle (Fin 0) (f a)) eqn:E2; [|discriminate]].
  - apply andb_prop in E1 as [F1 F2]. destruct (bis f n a b) as [[p q]|e] eqn:E; [|discriminate].
    simpl in H. injection H as ->.
    destruct (bis_ok f n a b a b x q ltac:(lra) ltac:(lra) F1 F2 E) as (A & B & C & D & G).
    split; auto. exists x, q. pose proof (brentq_tol_ge x).
    repeat split; try tauto.
    + rewrite Rminus_diag_eq, Rabs_R0 by auto. lra.
    + rewrite G, Rabs_right by lra. lra.
  - apply andb_prop in E2 as [F1 F2]. destruct (bis f n b a) as [[p q]|e] eqn:E; [|discriminate].
    simpl in H. injection H as ->.
    destruct (bis_ok f n b a a b x q ltac:(lra) ltac:(lra) F1 F2 E) as (A & B & C & D & G).
    split; auto. exists x, q. pose proof (brentq_tol_ge x).
    repeat split; try tauto.
    + rewrite Rminus_diag_eq, Rabs_R0 by auto. lra.
    + rewrite G, Rabs_minus_sym, Rabs_right by lra. lra.
Qed.
Lemma bisect_signs : brentq_checks_signs bisect_solver.
Proof.
  intros f a b _ [[H1 H2]|[H1 H2]]; unfold bisect_solver;
    rewrite (nlt_not_le _ _ H1), (nlt_not_le _ _ H2), ?andb_false_r; auto.
Qed.
Lemma bisect_converges : brentq_converges bisect_solver.
Proof.
  intros f a b Hab Hn H1 H2. unfold bisect_solver. rewrite H1, H2. cbn [andb].
  destruct (bis_total f (Z.to_nat (up ((b - a) * 1000000000000))) a b a b ltac:(lra) ltac:(lra) Hn) as [r ->].
  simpl. eauto.
Qed.

(** ** relative_sensitivity on finite inputs with the Li & Ma significance *)
Definition eqn (N nb b a s : R) (r : R) : num :=
  nsub (li_ma1 (nadd (nmul (Fin N) (Fin r)) (Fin nb)) (Fin b) (Fin a)) (Fin s).
Lemma eqn_val N b a s r : 0 <= b -> 0 < a -> 0 <= N * r + b * a ->
  eqn N (b * a) b a s r = Fin (lima (N * r + b * a) b a - s).
Proof. intros. unfold eqn. cbn [nmul nadd]. rewrite li_ma1_lima by auto. reflexivity. Qed.

Definition lower_b (N nb b s : R) : R := if Rltb 1 b then 1 / 100 * (s * sqrt nb / N) else 1 / 10000.
Definition upper_b (N nb b s : R) : R := if Rltb 1 b then 10 * (s * sqrt nb / N) else 100.
Definition rescaled (N nb m e r0 : R) : R :=
  if Rltb (N * r0) (Rmax m (e * nb)) then r0 * (Rmax m (e * nb) / (N * r0)) else r0.

Lemma py_max_fin a b : py_max (Fin a) (Fin b) = Fin (Rmax a b).
Proof.
  unfold py_max, ngt, nlt. destruct (Rltb_spec a b).
  - rewrite Rmax_right; auto. lra.
  - rewrite Rmax_left; auto. lra.
Qed.

Lemma rel_sens_fin br n_on b a s m e : 0 <= n_on -> 0 <= b -> 0 <= b * a -> b * a < n_on -> 
  let N := n_on - b * a in let nb := b * a in
  relative_sensitivity1 br li_ma1 (Fin n_on) (Fin b) (Fin a) (Fin s) (Fin m) (Fin e) =
  match br (eqn N nb b a s) (lower_b N nb b s) (upper_b N nb b s) with
  | Err RuntimeError | Err ValueError => Ok NaN
  | Err e => Err e
  | Ok r0 => Ok (nmul (Fin r0) (if nlt (Fin (N * r0)) (Fin (Rmax m (e * nb)))
                                then ndiv (Fin (Rmax m (e * nb))) (Fin (N * r0)) else Fin 1))
  end.
Proof.
  intros Hon Hb Hnb HN N nb. unfold relative_sensitivity1.
  assert (E1 : is_nan (Fin n_on) || is_nan (Fin b) = false) by reflexivity. rewrite E1.
  assert (E2 : nlt (Fin n_on) (Fin 0) || nlt (Fin b) (Fin 0) = false).
  { unfold nlt. destruct (Rltb_spec n_on 0); [lra|]. destruct (Rltb_spec b 0); [lra|]. auto. }
  rewrite E2. cbv zeta. change (nmul (Fin b) (Fin a)) with (Fin nb).
  change (nsub (Fin n_on) (Fin nb)) with (Fin N).
  assert (E3 : nle (Fin N) (Fin 0) = false).
  { unfold nle. destruct (Rleb_spec N 0); [unfold N in *; lra|]. auto. }
  rewrite E3.
  assert (EB : (if ngt (Fin b) (Fin 1)
     then (nmul (Fin (1 / 100)) (ndiv (nmul (Fin s) (nsqrt (Fin nb))) (Fin N)),
           nmul (Fin 10) (ndiv (nmul (Fin s) (nsqrt (Fin nb))) (Fin N)))
     else (Fin (1 / 10000), Fin 100)) = (Fin (lower_b N nb b s), Fin (upper_b N nb b s))).
  { unfold ngt, nlt, lower_b, upper_b. destruct (Rltb_spec 1 b); [|auto].
    unfold nsqrt. destruct (Rltb_spec nb 0); [unfold nb in *; lra|]. cbn [nmul].
    rewrite ndiv_fin by (unfold N; lra). reflexivity. }
  rewrite EB.
  change (fun relative_flux : R =>
        nsub (li_ma1 (nadd (nmul (Fin N) (Fin relative_flux)) (Fin nb)) (Fin b) (Fin a)) (Fin s))
   with (eqn N nb b a s).
  destruct (br (eqn N nb b a s) (lower_b N nb b s) (upper_b N nb b s)); [|reflexivity].
  change (nmul (Fin e) (Fin nb)) with (Fin (e * nb)). rewrite py_max_fin. reflexivity.
Qed.

Lemma Rabs_le_iff x t : Rabs x <= t -> - t <= x <= t.
Proof. unfold Rabs. destruct (Rcase_abs x); lra. Qed.
Lemma tol_pos x : 0 < brentq_tol x.
Proof. pose proof (brentq_tol_ge x). lra. Qed.
Lemma tol_mono x y : 0 <= x -> x <= y -> brentq_tol x <= brentq_tol y.
Proof.
  intros. unfold brentq_tol. rewrite !Rabs_right by lra.
  assert (0 < / 2 ^ 50) by (apply Rinv_0_lt_compat, pow_lt; lra). nra.
Qed.

(** everything about a finite answer *)
Lemma rel_sens_sound br n_on b a s m e r : brentq_sound br ->
  0 <= n_on -> 0 <= b -> 0 < a -> 0 < s -> a * b < n_on ->
  relative_sensitivity1 br li_ma1 (Fin n_on) (Fin b) (Fin a) (Fin s) (Fin m) (Fin e) = Ok (Fin r) ->
  let N := n_on - a * b in
  0 < r /\ m <= N * r /\ e * (a * b) <= N * r /\
  (forall r', r + brentq_tol r <= r' -> detectable N b a s m e r') /\
  (forall r', detectable N b a s m e r' -> r - brentq_tol r <= r').
Proof.
  intros HS Hon Hb Ha Hs HNp H. assert (Hab : 0 <= a * b) by nra.
  rewrite rel_sens_fin in H by (rewrite ?(Rmult_comm b a); lra). cbv zeta in H.
  rewrite (Rmult_comm b a) in H.
  cbv zeta. set (N := n_on - a * b) in *. assert (HN : 0 < N) by (unfold N; lra).
  set (nb := a * b) in *.
  set (lo := lower_b N nb b s) in *. set (hi := upper_b N nb b s) in *.
  assert (Hlo : 0 < lo /\ lo <= hi).
  { unfold lo, hi, lower_b, upper_b. destruct (Rltb_spec 1 b); [|lra].
    assert (0 < s * sqrt nb / N).
    { apply Rdiv_lt_0_compat; auto. apply Rmult_lt_0_compat; auto. apply sqrt_lt_R0. unfold nb. nra. }
    lra. }
  destruct (br (eqn N nb b a s) lo hi) as [r0|ex] eqn:Ebr; [|destruct ex; discriminate].
  destruct (HS _ _ _ _ (proj2 Hlo) Ebr) as (Hr0 & y & z & Hy & Hz & Ty & Tz & Fy & Fz).
  assert (Hr0p : 0 < r0) by lra.
  assert (Ny : 0 <= N * y) by (apply Rmult_le_pos; lra). assert (Nz : 0 <= N * z) by (apply Rmult_le_pos; lra).
  assert (Enb : nb = b * a) by (unfold nb; ring).
  rewrite Enb, eqn_val in Fy by (try lra; rewrite <- Enb; unfold nb; lra).
  rewrite Enb, eqn_val in Fz by (try lra; rewrite <- Enb; unfold nb; lra).
  unfold nle in Fy, Fz. rcmp. rewrite <- Enb in Fy, Fz.
  assert (NR : 0 < N * r0) by (apply Rmult_lt_0_compat; auto).
  set (M := Rmax m (e * nb)) in *. assert (HM : m <= M /\ e * nb <= M) by (unfold M; split; [apply Rmax_l|apply Rmax_r]).
  assert (HR : r = (if Rltb (N * r0) M then M / N else r0) /\ r0 <= r).
  { cbn [nlt] in H. destruct (Rltb_spec (N * r0) M).
    - rewrite ndiv_fin in H by lra. cbn [nmul] in H. injection H as <-.
      assert (E : r0 * (M / (N * r0)) = M / N) by (field; lra). rewrite E. split; auto.
      apply (Rmult_le_reg_l N); auto. replace (N * (M / N)) with M by (field; lra). lra.
    - cbn [nmul] in H. injection H as <-. split; lra. }
  destruct HR as [HR Hle]. pose proof (tol_mono r0 r ltac:(lra) Hle) as Tm.
  assert (HMr : M <= N * r).
  { rewrite HR. destruct (Rltb_spec (N * r0) M); [|lra]. replace (N * (M / N)) with M by (field; lra). lra. }
  apply Rabs_le_iff in Ty. apply Rabs_le_iff in Tz.
  split; [lra|]. split; [lra|]. split; [unfold nb in *; lra|]. split.
  - intros r' Hr'. unfold detectable. fold nb. pose proof (tol_pos r).
    assert (N * r <= N * r') by (apply Rmult_le_compat_l; lra).
    repeat split; try lra.
    assert (lima (N * z + nb) b a <= lima (N * r' + nb) b a).
    { apply lima_mono; auto. assert (N * z <= N * r') by (apply Rmult_le_compat_l; lra). lra. }
    lra.
  - intros r' (D1 & D2 & D3). fold nb in D1, D3.
    assert (HMr' : M <= N * r') by (unfold M; apply Rmax_lub; lra).
    rewrite HR. pose proof (tol_pos r). destruct (Rltb_spec (N * r0) M) as [HC|HC].
    + rewrite <- HR. assert (r <= r'); [|lra]. apply (Rmult_le_reg_l N); auto.
      rewrite HR. destruct (Rltb_spec (N * r0) M); [|lra]. replace (N * (M / N)) with M by (field; lra). lra.
    + assert (r = r0) by (rewrite HR; destruct (Rltb_spec (N * r0) M); lra). subst r0.
      destruct (Rlt_le_dec r' y) as [Hlt|]; [|lra]. exfalso.
      assert (N * r' < N * y) by (apply Rmult_lt_compat_l; lra).
      destruct (Rle_dec nb (N * r' + nb)).
      * pose proof (lima_incr (N * r' + nb) (N * y + nb) b a Hb Ha ltac:(fold nb; lra) ltac:(lra)). lra.
      * rewrite lima_deficit in D1 by (fold nb; lra). lra.
Qed.
