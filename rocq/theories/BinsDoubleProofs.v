(** * BinsDoubleProofs: bin edges in double precision *)
From Coq Require Import Reals List Bool ZArith Lia Lra Permutation.
From Flocq Require Import Core.
From Verif Require Import Num Numpy Lists Binning BinningProofs2 Double DoubleProofs SpecDouble NearProofs LiMaDoubleProofs LiMaDouble2Proofs BinsDouble SpecBinsDouble PSFDoubleProofs StatisticsProofs.
Import ListNotations.
Open Scope R_scope.

Lemma flerr x b : Rabs x <= b -> b <= 1000000000 -> exists y, fl x = Fin y /\ Rabs (y - x) <= u * b + eta.
Proof.
  intros H B. destruct (round_err x) as (y & E & L).
  - eapply Rle_trans; [exact H|]. eapply Rle_trans; [exact B|]. eapply Rle_trans; [|apply one_le_fmax]. lra.
  - exists y. split; auto. eapply Rle_trans; [exact L|]. pose proof u_pos. apply Rplus_le_compat_r, Rmult_le_compat_l; lra.
Qed.
Lemma ln_le x y : 0 < x -> x <= y -> ln x <= ln y.
Proof. intros H [L|<-]; [left; apply ln_increasing; auto|lra]. Qed.
Lemma ln10_le : ln 10 <= 26 / 10.
Proof.
  assert (E : ln ((12 / 10) ^ 13) = 13 * ln (12 / 10)) by (rewrite ln_pow by lra; simpl; lra).
  assert (ln 10 <= ln ((12 / 10) ^ 13)) by (apply ln_le; lra). pose proof (ln_le_minus (12 / 10) ltac:(lra)). lra.
Qed.
Lemma ln10_ge : 1 <= ln 10.
Proof. replace 10 with (3 * (10/3)) by lra. rewrite ln_mult by lra. pose proof (ln_ge (10/3) ltac:(lra)). pose proof (ln_ge 3 ltac:(lra)). lra. Qed.
Lemma exp_close d : Rabs d <= / 100 -> Rabs (exp d - 1) <= 11 / 10 * Rabs d.
Proof.
  intros H. apply Rabs_le_inv in H. pose proof (exp_ineq1_le d) as L. pose proof (exp_ineq1_le (- d)) as M. rewrite exp_Ropp in M.
  pose proof (exp_pos d) as P. assert (U : exp d * (1 - d) <= 1).
  { apply Rmult_le_reg_r with (/ exp d); [apply Rinv_0_lt_compat; auto|]. replace (exp d * (1 - d) * / exp d) with (1 - d) by (field; lra). lra. }
  apply Rabs_le. destruct (Rle_or_lt 0 d).
  - rewrite Rabs_pos_eq by auto. split; nra.
  - rewrite Rabs_left by auto. split; nra.
Qed.
Lemma usable_log x : usable_energy x -> 0 < x /\ Rabs (ln x / ln 10) <= 30.
Proof.
  intros [_ [H1 H2]]. assert (P : 0 < / 10 ^ 30) by (apply Rinv_0_lt_compat, pow_lt; lra). split; [lra|]. pose proof ln10_ge.
  assert (E : ln (10 ^ 30) = 30 * ln 10) by (rewrite ln_pow by lra; simpl; lra).
  assert (L1 : ln (/ 10 ^ 30) <= ln x) by (apply ln_le; lra). assert (L2 : ln x <= ln (10 ^ 30)) by (apply ln_le; lra).
  rewrite ln_Rinv in L1 by (apply pow_lt; lra). apply Rabs_le. split; apply Rmult_le_reg_r with (ln 10); try lra; unfold Rdiv; rewrite Rmult_assoc, Rinv_l by lra; lra.
Qed.

Section Edges.
  Context (log10f powf : num -> num) (lo hi : R) (n : nat) (Hl : accurate_log10 log10f) (Hlo : usable_energy lo) (Hhi : usable_energy hi) (Hle : lo <= hi) (Hn : (1 <= n <= 1000)%nat).
  Notation A := (ln lo / ln 10).
  Notation B := (ln hi / ln 10).
  Notation nn := (INR n).
  Lemma nn_range : 1 <= nn <= 1000.
  Proof. split; [apply (le_INR 1); lia|]. replace 1000 with (INR 1000) by (simpl; lra). apply le_INR; lia. Qed.
  Lemma L_eq : bins_between lo hi n = nn * (B - A).
  Proof. destruct (usable_log _ Hlo), (usable_log _ Hhi). unfold bins_between. pose proof ln10_ge. unfold Rdiv at 2. rewrite ln_mult, ln_Rinv by (auto; apply Rinv_0_lt_compat; auto). field. lra. Qed.
  Lemma AB : A <= B.
  Proof. destruct (usable_log _ Hlo). pose proof ln10_ge. apply Rmult_le_compat_r; [left; apply Rinv_0_lt_compat; lra|]. apply ln_le; auto. Qed.
  Lemma get_log x : usable_energy x -> exists l, log10f (Fin x) = Fin l /\ Rabs (l - ln x / ln 10) <= 60 * u.
  Proof.
    intros H. destruct (usable_log _ H) as [P L]. destruct (Hl x P (proj1 H)) as (l & E & D). exists l. split; auto. rewrite eps53_u in D. pose proof u_pos. nra.
  Qed.
  Definition is_step (st : R) : Prop := fdiv (Fin 1) (Fin nn) = Fin st /\ Rabs (st - 1 / nn) <= u * (1 / nn) /\ st = round64 (1 / nn).
  Lemma inv_nn : / 1000 <= 1 / nn <= 1.
  Proof. pose proof nn_range. unfold Rdiv. rewrite Rmult_1_l. split; [apply Rinv_le_contravar; lra|]. rewrite <- Rinv_1. apply Rinv_le_contravar; lra. Qed.
  Lemma step_ex : exists st, is_step st.
  Proof.
    pose proof nn_range as N. pose proof inv_nn as I. exists (round64 (1 / nn)). split; [|split; auto].
    - rewrite fdiv_fin by lra. apply fl_fin. rewrite Rabs_pos_eq by lra. eapply Rle_trans; [|apply one_le_fmax]. lra.
    - rewrite <- (Rabs_pos_eq (1 / nn)) at 3 by lra. apply round64_rel. rewrite Rabs_pos_eq by lra. apply Rle_trans with (bpow radix2 (-10)); [apply bpow_le; lia|]. change (bpow radix2 (-10)) with (/ 1024). lra.
  Qed.
  Lemma uu : u <= / 1000000000000. Proof. change u with (/ 9007199254740992). lra. Qed.
  Lemma span_ex la lb st : Rabs (la - A) <= 60 * u -> Rabs (lb - B) <= 60 * u -> is_step st ->
    exists e stop span v, fdiv (Fin st) (Fin 10000) = Fin e /\ fadd (Fin lb) (Fin e) = Fin stop /\ fsub (Fin stop) (Fin la) = Fin span /\ fdiv (Fin span) (Fin st) = Fin v /\
      Rabs (v - (bins_between lo hi n + 1 / 10000)) <= 450 * (nn * u) /\ 0 < v.
  Proof.
    intros Ha Hb (_ & Hs & _). pose proof u_pos as U0. pose proof uu as U1. pose proof eta_u as T. pose proof nn_range as N. pose proof inv_nn as I. pose proof AB as AB'.
    destruct (usable_log _ Hlo) as [_ LA], (usable_log _ Hhi) as [_ LB]. apply Rabs_le_inv in LA, LB.
    set (a := A) in *. set (b := B) in *. set (w := 1 / nn) in *.
    assert (Ha' := Ha). assert (Hb' := Hb). assert (Hs' := Hs). apply Rabs_le_inv in Ha, Hb, Hs.
    assert (Uw : u * w <= u) by nra. assert (Uw0 : 0 < u * w) by nra.
    destruct (flerr (st / 10000) (1/1000)) as (e & Ee & De); [rewrite Rabs_pos_eq; lra|lra|]. apply Rabs_le_inv in De.
    assert (De' : Rabs (e - w / 10000) <= u) by (apply Rabs_le; lra). apply Rabs_le_inv in De'.
    destruct (flerr (lb + e) 32) as (stop & Eo & Do); [apply Rabs_le; lra|lra|]. apply Rabs_le_inv in Do.
    destruct (flerr (stop - la) 62) as (span & Ep & Dp); [apply Rabs_le; lra|lra|]. apply Rabs_le_inv in Dp.
    set (S := b - a + w / 10000).
    assert (DS : Rabs (span - S) <= 217 * u) by (unfold S; apply Rabs_le; lra).
    assert (S0 : w / 10000 <= S <= 61) by (unfold S; lra).
    assert (st0 : 0 < st) by lra.
    assert (EN : nn * w = 1) by (unfold w; field; lra).
    (* quotient *)
    assert (Q : Rabs (span / st - nn * S) <= 345 * (nn * u)).
    { replace (span / st - nn * S) with ((span - nn * st * S) / st) by (field; lra).
      assert (R1 : Rabs (nn * st - 1) <= u).
      { replace (nn * st - 1) with (nn * (st - w)) by (rewrite <- EN; ring). rewrite Rabs_mult, (Rabs_pos_eq nn) by lra. assert (nn * Rabs (st - w) <= nn * (u * w)) by (apply Rmult_le_compat_l; lra). nra. }
      assert (R2 : Rabs (span - nn * st * S) <= 279 * u).
      { replace (span - nn * st * S) with (span - S - (nn * st - 1) * S) by ring. eapply Rle_trans; [apply Rabs_triang|]. rewrite Rabs_Ropp, Rabs_mult, (Rabs_pos_eq S) by lra.
        assert (Rabs (nn * st - 1) * S <= u * 61) by (apply Rmult_le_compat; try lra; apply Rabs_pos). lra. }
      assert (R3 : / st <= 11/10 * nn).
      { apply Rmult_le_reg_r with st; [auto|]. rewrite Rinv_l by lra. apply Rabs_le_inv in R1. lra. }
      unfold Rdiv. rewrite Rabs_mult, (Rabs_pos_eq (/ st)) by (left; apply Rinv_0_lt_compat; auto).
      apply Rle_trans with (279 * u * (11/10 * nn)); [|lra || (assert (0 < nn * u) by nra; lra)]. apply Rmult_le_compat; auto; [apply Rabs_pos|left; apply Rinv_0_lt_compat; auto]. }
    assert (nu : 0 < nn * u <= / 1000000000) by (split; [nra|apply Rle_trans with (1000 * u); [nra|lra]]).
    assert (BQ : Rabs (span / st) <= nn * 62).
    { apply Rabs_le_inv in Q. assert (0 <= nn * S <= nn * 61) by (split; [apply Rmult_le_pos; lra|apply Rmult_le_compat_l; lra]). apply Rabs_le. lra. }
    destruct (flerr (span / st) (nn * 62) BQ ltac:(lra)) as (v & Ev & Dv).
    assert (E4 : nn * S = bins_between lo hi n + 1 / 10000) by (rewrite L_eq; unfold S; fold a b; replace (nn * (b - a + w / 10000)) with (nn * (b - a) + (nn * w) / 10000) by field; rewrite EN; lra).
    exists e, stop, span, v. split; [rewrite fdiv_fin by lra; auto|]. split; [auto|]. split; [auto|]. split; [rewrite fdiv_fin by lra; auto|].
    apply Rabs_le_inv in Q, Dv. assert (u <= nn * u) by nra.
    assert (F : Rabs (v - (bins_between lo hi n + 1 / 10000)) <= 450 * (nn * u)) by (rewrite <- E4; apply Rabs_le; lra).
    split; auto. apply Rabs_le_inv in F. assert (0 <= bins_between lo hi n) by (rewrite L_eq; fold a b; apply Rmult_le_pos; lra). lra.
  Qed.
  Definition entry (la st : R) (i : nat) : num :=
    match i with
    | O => Fin la
    | S O => fadd (Fin la) (Fin st)
    | _ => fadd (Fin la) (fmul (Fin (INR i)) (fsub (fadd (Fin la) (Fin st)) (Fin la)))
    end.
  Lemma entry_ex la st i : Rabs (la - A) <= 60 * u -> is_step st -> INR i <= nn * 62 ->
    exists x, entry la st i = Fin x /\ Rabs (x - (A + INR i / nn)) <= (220 + 36 * INR i) * u.
  Proof.
    intros Ha (_ & Hs & _) Hi. pose proof u_pos as U0. pose proof uu as U1. pose proof eta_u as T. pose proof nn_range as N. pose proof inv_nn as I.
    destruct (usable_log _ Hlo) as [_ LA]. apply Rabs_le_inv in LA. pose proof (pos_INR i) as I0.
    replace (INR i / nn) with (INR i * (1 / nn)) by (field; lra).
    set (a := A) in *. set (w := 1 / nn) in *. apply Rabs_le_inv in Ha, Hs.
    assert (Uw : u * w <= u) by nra. assert (Uw0 : 0 < u * w) by nra.
    assert (Iw : INR i * w <= 62). { apply Rle_trans with (nn * 62 * w); [apply Rmult_le_compat_r; lra|]. unfold w. right. field. lra. }
    assert (Iw0 : 0 <= INR i * w) by (apply Rmult_le_pos; lra).
    destruct (flerr (la + st) 32) as (nx & En & Dn); [apply Rabs_le; lra|lra|]. apply Rabs_le_inv in Dn.
    destruct (flerr (nx - la) 2) as (dl & Ed & Dd); [apply Rabs_le; lra|lra|]. apply Rabs_le_inv in Dd.
    destruct i as [|[|i]].
    - exists la. split; auto. cbn [INR]. apply Rabs_le. lra.
    - exists nx. split; auto. cbn [INR]. apply Rabs_le. lra.
    - set (m := INR (S (S i))) in *. cbn [entry]. rewrite fadd_fin, En. change (fsub (Fin nx) (Fin la)) with (fl (nx - la)). rewrite Ed, fmul_fin. fold m.
      assert (D : Rabs (dl - w) <= 36 * u) by (apply Rabs_le; lra).
      assert (Dm : Rabs (m * dl - m * w) <= 36 * (m * u)).
      { rewrite <- Rmult_minus_distr_l, Rabs_mult, (Rabs_pos_eq m) by auto. apply Rle_trans with (m * (36 * u)); [apply Rmult_le_compat_l; auto|right; ring]. }
      apply Rabs_le_inv in Dm.
      assert (mu : 0 <= m * u <= / 10000000) by (split; [nra|apply Rle_trans with (62000 * u); [apply Rmult_le_compat_r; lra|lra]]).
      destruct (flerr (m * dl) 63) as (pm & Ep & Dp); [apply Rabs_le; lra|lra|]. rewrite Ep, fadd_fin. apply Rabs_le_inv in Dp.
      destruct (flerr (la + pm) 93) as (x & Ex & Dx); [apply Rabs_le; lra|lra|]. apply Rabs_le_inv in Dx. exists x. split; auto. apply Rabs_le. lra.
  Qed.
  Context (Hp : accurate_pow10 powf).
  Lemma edge_ex la st i : Rabs (la - A) <= 60 * u -> is_step st -> INR i < bins_between lo hi n + 1 / 10000 + / 1000000000 ->
    exists e, powf (entry la st i) = Fin e /\ Rabs (e - lo * Rpower 10 (INR i / nn)) <= (1000 + 150 * INR i) * u * (lo * Rpower 10 (INR i / nn)).
  Proof.
    intros Ha Hs Hi. pose proof u_pos as U0. pose proof uu as U1. pose proof nn_range as N. pose proof (pos_INR i) as I0.
    destruct (usable_log _ Hlo) as [P0 LA], (usable_log _ Hhi) as [_ LB]. apply Rabs_le_inv in LA, LB. rewrite L_eq in Hi.
    assert (Hi' : INR i <= nn * 62).
    { assert (nn * (B - A) <= nn * 60) by (apply Rmult_le_compat_l; lra). lra. }
    destruct (entry_ex la st i Ha Hs Hi') as (x & -> & D). pose proof D as D'. apply Rabs_le_inv in D'.
    assert (iu : 0 <= INR i * u <= / 100000000) by (split; [nra|apply Rle_trans with (62000 * u); [apply Rmult_le_compat_r; lra|change u with (/ 9007199254740992); lra]]).
    assert (J : 0 <= INR i / nn <= B - A + 1 / 1000).
    { split; [apply Rmult_le_pos; [auto|left; apply Rinv_0_lt_compat; lra]|]. apply Rmult_le_reg_r with nn; [lra|]. unfold Rdiv at 1. rewrite Rmult_assoc, Rinv_l, Rmult_1_r by lra. apply Rle_trans with (nn * (B - A) + 1 / 1000); nra. }
    destruct (Hp x) as (e & -> & De); [lra|]. exists e. split; auto. rewrite eps53_u in De.
    set (T := lo * Rpower 10 (INR i / nn)). set (d := x - (A + INR i / nn)) in *.
    assert (ET : Rpower 10 x = T * exp (ln 10 * d)).
    { unfold T. rewrite <- (pow10_log10 lo P0) at 1. change (log10 lo) with A. unfold Rpower. rewrite <- !exp_plus. f_equal. unfold d. ring. }
    assert (T0 : 0 < T) by (apply Rmult_lt_0_compat; [auto|apply exp_pos]).
    pose proof ln10_le as G1. pose proof ln10_ge as G2.
    assert (Dd : Rabs (ln 10 * d) <= 26 / 10 * ((220 + 36 * INR i) * u)) by (rewrite Rabs_mult, (Rabs_pos_eq (ln 10)) by lra; apply Rmult_le_compat; try lra; apply Rabs_pos).
    assert (Q : Rabs (exp (ln 10 * d) - 1) <= 11 / 10 * Rabs (ln 10 * d)) by (apply exp_close; lra).
    set (E := exp (ln 10 * d)) in *. assert (Q' : Rabs (E - 1) <= 630 * u + 110 * (INR i * u)) by lra.
    replace (e - T) with ((e - Rpower 10 x) + T * (E - 1)) by (rewrite ET; ring). eapply Rle_trans; [apply Rabs_triang|]. rewrite Rabs_mult, (Rabs_pos_eq T) by lra.
    assert (E2 : E <= 2) by (apply Rabs_le_inv in Q'; lra).
    assert (4 * u * Rpower 10 x <= 8 * u * T) by (rewrite ET; assert (u * T * E <= u * T * 2) by (apply Rmult_le_compat_l; [nra|auto]); lra).
    assert (T * Rabs (E - 1) <= T * (630 * u + 110 * (INR i * u))) by (apply Rmult_le_compat_l; lra).
    assert (0 <= T * u) by nra. assert (0 <= T * (INR i * u)) by nra. lra.
  Qed.
  Lemma pow_ge n' : (1 <= n' <= 1000)%nat -> 1 + / 1000 <= Rpower 10 (1 / INR n').
  Proof.
    intros H. unfold Rpower. eapply Rle_trans; [|apply exp_ineq1_le]. apply Rplus_le_compat_l. pose proof ln10_ge.
    assert (/ 1000 <= 1 / INR n') by (unfold Rdiv; rewrite Rmult_1_l; apply Rinv_le_contravar; [apply lt_0_INR; lia|replace 1000 with (INR 1000) by (simpl; lra); apply le_INR; lia]). nra.
  Qed.
  Theorem bins_double : exists out, create_bins_per_decade_double log10f powf (Fin lo) (Fin hi) n = Ok (map Fin out) /\
    INR (length out) - 1 < bins_between lo hi n + 1 / 10000 + / 10 ^ 9 /\ bins_between lo hi n + 1 / 10000 - / 10 ^ 9 <= INR (length out) /\
    (forall i e, nth_error out i = Some e -> Rabs (e - lo * Rpower 10 (INR i / INR n)) <= (1000 + 150 * INR i) * eps53 * (lo * Rpower 10 (INR i / INR n))) /\
    (forall i a b, nth_error out i = Some a -> nth_error out (S i) = Some b -> 0 < a < b).
  Proof.
    pose proof u_pos as U0. pose proof uu as U1. pose proof nn_range as N.
    destruct (get_log lo Hlo) as (la & Ela & Da). destruct (get_log hi Hhi) as (lb & Elb & Db). destruct step_ex as (st & Hst).
    destruct (span_ex la lb st Da Db Hst) as (e & stop & span & v & Ee & Eo & Ep & Ev & Dv & Pv).
    assert (E9 : / 10 ^ 9 = / 1000000000) by (f_equal; ring).
    assert (NU : 450 * (nn * u) <= / 10000000000) by (apply Rle_trans with (450 * (1000 * u)); [nra|change u with (/ 9007199254740992); lra]).
    apply Rabs_le_inv in Dv. destruct (Rceil_spec v) as [C1 C2].
    set (len := Z.to_nat (Rceil v)). assert (EL : INR len = IZR (Rceil v)).
    { unfold len. rewrite INR_IZR_INZ, Z2Nat.id; auto. apply le_IZR. lra. }
    set (g := fun i => match powf (entry la st i) with Fin r => r | _ => 0 end).
    assert (G : forall i, (i < len)%nat -> powf (entry la st i) = Fin (g i) /\ Rabs (g i - lo * Rpower 10 (INR i / nn)) <= (1000 + 150 * INR i) * u * (lo * Rpower 10 (INR i / nn))).
    { intros i Hi. assert (INR i + 1 <= INR len) by (rewrite <- S_INR; apply le_INR; lia).
      destruct (edge_ex la st i Da Hst) as (x & Ex & Dx); [lra|]. unfold g. rewrite Ex. auto. }
    exists (map g (seq 0 len)).
    assert (EN : nth_error (map g (seq 0 len)) = fun i => if (i <? len)%nat then Some (g i) else None).
    { apply FunctionalExtensionality.functional_extensionality. intros i. destruct (Nat.ltb_spec i len).
      - erewrite map_nth_error; [reflexivity|]. rewrite nth_error_nth' with (d := 0%nat) by (rewrite seq_length; auto). rewrite seq_nth by auto. reflexivity.
      - apply nth_error_None. rewrite map_length, seq_length. auto. }
    split; [|split; [|split; [|split]]].
    - unfold create_bins_per_decade_double. destruct n as [|n'] eqn:En; [lia|]. rewrite <- En in *. cbv zeta. rewrite Ela, Elb. destruct Hst as (Es & Hs). rewrite Es, Ee, Eo. unfold arange_double. cbv zeta. rewrite Ep, Ev.
      destruct (Reqb_spec v 0); [lra|]. cbn [andb rbind]. fold len. f_equal. rewrite !map_map. apply map_ext_in. intros i Hi. apply in_seq in Hi.
      destruct (G i) as [<- _]; [lia|]. reflexivity.
    - rewrite map_length, seq_length, EL. lra.
    - rewrite map_length, seq_length, EL. lra.
    - intros i x. rewrite EN. destruct (Nat.ltb_spec i len); [|discriminate]. injection 1 as <-. rewrite eps53_u. apply G; auto.
    - intros i x y. rewrite EN. destruct (Nat.ltb_spec i len); [|discriminate]. destruct (Nat.ltb_spec (S i) len) as [L|]; [|discriminate]. injection 1 as <-. injection 1 as <-.
      destruct (G i) as [_ G1]; [lia|]. destruct (G (S i)) as [_ G2]; [lia|].
      assert (INR (S i) <= INR len) by (apply le_INR; lia). assert (IU : INR (S i) <= 61001).
      { rewrite L_eq in Dv. destruct (usable_log _ Hlo) as [_ LA], (usable_log _ Hhi) as [_ LB]. apply Rabs_le_inv in LA, LB. assert (nn * (B - A) <= 1000 * 60) by (apply Rmult_le_compat; pose proof AB; lra). lra. }
      assert (ES : Rpower 10 (INR (S i) / nn) = Rpower 10 (INR i / nn) * Rpower 10 (1 / nn)) by (rewrite <- Rpower_plus, S_INR; f_equal; field; lra).
      set (T := lo * Rpower 10 (INR i / nn)) in *. assert (T0 : 0 < T) by (apply Rmult_lt_0_compat; [apply usable_log; auto|apply exp_pos]).
      pose proof (pow_ge n Hn) as PG. rewrite ES, <- Rmult_assoc in G2. fold T in G2. set (T2 := T * Rpower 10 (1 / nn)) in *.
      assert (TT : T * (1 + / 1000) <= T2) by (apply Rmult_le_compat_l; lra).
      assert (K : forall m, 0 <= m <= 61001 -> 0 <= (1000 + 150 * m) * u <= / 1000000) by (intros m Hm; split; [nra|apply Rle_trans with (10000000 * u); [apply Rmult_le_compat_r; lra|change u with (/ 9007199254740992); lra]]).
      pose proof (pos_INR i). assert (INR i <= INR (S i)) by (apply le_INR; lia).
      pose proof (K (INR i) ltac:(lra)) as K1. pose proof (K (INR (S i)) ltac:(lra)) as K2.
      assert (W1 : (1000 + 150 * INR i) * u * T <= / 1000000 * T) by (apply Rmult_le_compat_r; lra).
      assert (W2 : (1000 + 150 * INR (S i)) * u * T2 <= / 1000000 * T2) by (apply Rmult_le_compat_r; lra).
      apply Rabs_le_inv in G1, G2. lra.
  Qed.
  Theorem bins_double_count (k : nat) : Rabs (bins_between lo hi n - INR k) <= / 20000 ->
    exists out, create_bins_per_decade_double log10f powf (Fin lo) (Fin hi) n = Ok out /\ length out = S k.
  Proof.
    intros H. destruct bins_double as (out & E & N1 & N2 & _). exists (map Fin out). split; auto. rewrite map_length.
    assert (E9 : / 10 ^ 9 = / 1000000000) by (f_equal; ring). rewrite E9 in *. apply Rabs_le_inv in H.
    assert (INR (length out) < INR (S (S k))) by (rewrite !S_INR; lra). assert (INR k < INR (length out)) by lra. apply INR_lt in H0, H1. lia.
  Qed.
End Edges.
(** ** the correctly rounded functions meet the contracts *)
Definition rounded_log10 (x : num) : num := match x with Fin r => fl (ln r / ln 10) | _ => x end.
Definition rounded_pow10 (x : num) : num := match x with Fin r => fl (Rpower 10 r) | _ => x end.
Lemma rounded_log10_accurate : accurate_log10 rounded_log10.
Proof.
  intros x P D. unfold rounded_log10. pose proof ln10_ge as G1. pose proof ln10_le as G2. pose proof u_pos as U0. exists (round64 (ln x / ln 10)).
  assert (B : Rabs (ln x / ln 10) <= Rabs (ln x)).
  { unfold Rdiv. rewrite Rabs_mult, (Rabs_pos_eq (/ ln 10)) by (left; apply Rinv_0_lt_compat; lra). rewrite <- (Rmult_1_r (Rabs (ln x))) at 2. apply Rmult_le_compat_l; [apply Rabs_pos|]. rewrite <- Rinv_1. apply Rinv_le_contravar; lra. }
  split.
  - apply fl_fin. eapply Rle_trans; [exact B|]. destruct (double_fix x D) as [_ M]. rewrite Rabs_pos_eq in M by lra. pose proof (double_pos x D P) as L. pose proof (ln_le_sub1 x P) as K1. pose proof (ln_ge x P) as K2.
    assert (F : fmax <= bpow radix2 1074). { unfold fmax. rewrite pow_IZR, (pow_IZR 2 971), <- minus_IZR, <- mult_IZR, <- (IZR_Zpower radix2 1074) by lia. apply IZR_le. vm_compute. discriminate. }
    pose proof (ln_le x _ P M) as K3. pose proof (ln_le _ x (bpow_gt_0 radix2 (-1074)) L) as K4. pose proof (ln_le _ _ fmax_pos F) as K5.
    assert (E1 : ln (bpow radix2 1074) <= 1074 * ln 2) by (rewrite bpow_powerRZ; change 1074%Z with (Z.of_nat 1074); rewrite <- pow_powerRZ; cbn [radix_val radix2]; rewrite ln_pow by lra; rewrite INR_IZR_INZ; right; f_equal).
    change (-1074)%Z with (- (1074))%Z in K4. rewrite bpow_opp, ln_Rinv in K4 by apply bpow_gt_0. pose proof (ln_le_sub1 2 ltac:(lra)). pose proof one_le_fmax. apply Rabs_le. split; apply Rmult_le_reg_r with 1; lra.
  - rewrite eps53_u. destruct (Req_dec x 1) as [->|N].
    { rewrite ln_1. unfold Rdiv. rewrite Rmult_0_l, round64_0, Rminus_0_r, Rabs_R0. lra. }
    pose proof (ln_tiny x D P N) as T. pose proof (round64_rel (ln x / ln 10)) as E. fold u in E. pose proof (Rabs_pos (ln x / ln 10)).
    apply Rle_trans with (u * Rabs (ln x / ln 10)); [apply E|nra]. unfold Rdiv. rewrite Rabs_mult, (Rabs_pos_eq (/ ln 10)) by (left; apply Rinv_0_lt_compat; lra).
    apply Rle_trans with (bpow radix2 (-54) * / 4); [|apply Rmult_le_compat; auto; [apply bpow_ge_0|lra|apply Rinv_le_contravar; lra]]. change (/ 4) with (bpow radix2 (-2)). rewrite <- bpow_plus. apply bpow_le. lia.
Qed.
Lemma rounded_pow10_accurate : accurate_pow10 rounded_pow10.
Proof.
  intros x H. unfold rounded_pow10. exists (round64 (Rpower 10 x)). pose proof (exp_pos (x * ln 10)) as P. fold (Rpower 10 x) in P.
  assert (B : / 10 ^ 40 <= Rpower 10 x <= 10 ^ 40).
  { replace (10 ^ 40) with (Rpower 10 40) by (replace 40 with (INR 40) by (simpl; lra); apply Rpower_pow; lra). rewrite <- Rpower_Ropp. split; apply Rle_Rpower; lra. }
  assert (B1 : 10 ^ 40 <= bpow radix2 300) by (rewrite pow_IZR, <- (IZR_Zpower radix2 300) by lia; apply IZR_le; vm_compute; discriminate).
  assert (B2 : bpow radix2 (-300) <= / 10 ^ 40) by (change (-300)%Z with (- (300))%Z; rewrite bpow_opp; apply Rinv_le_contravar; [apply pow_lt; lra|auto]).
  split; [apply fl_fin; rewrite Rabs_pos_eq by lra; apply Rle_trans with (bpow radix2 300); [lra|apply bpow_fmax; lia]|].
  pose proof (round64_rel (Rpower 10 x)) as E. fold u in E. rewrite (Rabs_pos_eq (Rpower 10 x)) in E by lra. rewrite eps53_u. pose proof u_pos. apply Rle_trans with (u * Rpower 10 x); [|nra]. apply E. apply Rle_trans with (bpow radix2 (-300)); [apply bpow_le; lia|lra].
Qed.
Lemma usable_int (k : Z) : (1 <= k <= 1000000)%Z -> usable_energy (IZR k).
Proof.
  intros H. split; [exists k, 0%Z; split; [cbn; lia|]; split; [lia|]; cbn; ring|]. destruct H as [H1 H2]. apply IZR_le in H1, H2.
  assert (1 <= 10 ^ 30) by (apply pow_R1_Rle; lra). assert (1000000 <= 10 ^ 30) by (replace 1000000 with (10 ^ 6) by lra; apply Rle_pow; [lra|lia]). split; [|lra]. rewrite <- Rinv_1 in H1. eapply Rle_trans; [|exact H1]. apply Rinv_le_contravar; lra.
Qed.
Theorem bins_example : accurate_log10 rounded_log10 /\ accurate_pow10 rounded_pow10 /\ usable_energy 1 /\ usable_energy 1000 /\ bins_between 1 1000 5 = INR 15.
Proof.
  split; [apply rounded_log10_accurate|]. split; [apply rounded_pow10_accurate|]. split; [apply (usable_int 1); lia|]. split; [apply (usable_int 1000); lia|].
  unfold bins_between. replace (1000 / 1) with (10 ^ 3) by field. rewrite ln_pow by lra. pose proof ln10_ge. simpl. field. lra.
Qed.
