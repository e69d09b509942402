(** * PercentileDoubleProofs: bin centres and percentiles in double precision *)
From Coq Require Import Reals List Bool ZArith Lia Lra Permutation Sorted.
From Flocq Require Import Core Sterbenz.
From Verif Require Import Num Numpy Lists Sort Binning Percentile PercentileProofs SpecCuts Double DoubleProofs SpecDouble NearProofs LiMaDoubleProofs LiMaDouble2Proofs IRFDoubleProofs HistDoubleProofs BinsDouble SpecBinsDouble PSFDoubleProofs StatisticsProofs SpecBinning BinningProofs HistProofs BinsDoubleProofs.
Import ListNotations.
Open Scope R_scope.

Lemma format_of x : double x -> generic_format radix2 fexp x.
Proof. intros D. destruct (double_fix x D) as [<- _]. apply generic_format_round; auto with typeclass_instances. Qed.
Lemma sterbenz_exact x y : double x -> double y -> y / 2 <= x <= 2 * y -> round64 (x - y) = x - y.
Proof. intros Dx Dy H. apply round64_id. apply sterbenz; auto using format_of with typeclass_instances. Qed.
(** the rounded difference times at most one half is not more than the difference *)
Lemma half_diff a b s : double a -> double b -> a <= b -> 0 <= s <= 1 / 2 -> 0 <= round64 (round64 (b - a) * s) <= b - a.
Proof.
  intros Da Db H Hs. pose proof u_pos as U0. pose proof u_small as U1. set (D := round64 (b - a)).
  assert (D0 : 0 <= D) by (rewrite <- round64_0; apply round64_mono; lra).
  split; [rewrite <- round64_0 at 1; apply round64_mono; nra|].
  destruct (Rle_or_lt (bpow radix2 (-1021)) D) as [L|L].
  - apply Rle_trans with (round64 (D / 2)); [apply round64_mono; nra|].
    assert (N : Rabs (round64 (D / 2) - D / 2) <= u * Rabs (D / 2)).
    { apply round64_rel. rewrite Rabs_pos_eq by lra. replace (bpow radix2 (-1022)) with (bpow radix2 (-1021) / 2); [lra|]. change (-1021)%Z with (1 + -1022)%Z. rewrite bpow_plus. change (bpow radix2 1) with 2. field. }
    rewrite (Rabs_pos_eq (D / 2)) in N by lra. apply Rabs_le_inv in N.
    destruct (near_abs 1 _ _ ltac:(lia) (minus_near b a Db Da)) as [M|M]; fold D in M.
    + cbn [INR Nat.add] in M. rewrite (Rabs_pos_eq (b - a)) in M by lra. apply Rlt_le, Rabs_le_inv in M. nra.
    + cbn [INR Nat.add] in M. rewrite (Rabs_pos_eq (b - a)) in M by lra. apply Req_le, Rabs_le_inv in M. nra.
  - assert (E : D = b - a).
    { apply round64_id. destruct (double_multiple a Da) as (i & Ei). destruct (double_multiple b Db) as (j & Ej).
      assert (Em : b - a = IZR (j - i) * bpow radix2 (-1074)) by (rewrite Ei, Ej, minus_IZR; ring).
      rewrite Em. apply generic_format_FLT. exists (Float radix2 (j - i) (-1074)); [reflexivity| |cbn; lia]. cbn.
      assert (L' : b - a < bpow radix2 (-1021)).
      { apply Rnot_le_lt. intros K. apply round64_mono in K. fold D in K. rewrite (round64_id (bpow radix2 (-1021))) in K; [lra|]. apply generic_format_bpow. cbn. lia. }
      apply lt_IZR. rewrite abs_IZR. apply (Rmult_lt_reg_r (bpow radix2 (-1074))); [apply bpow_gt_0|].
      replace (Rabs (IZR (j - i)) * bpow radix2 (-1074)) with (b - a).
      - eapply Rlt_le_trans; [exact L'|]. replace (bpow radix2 (-1021)) with (bpow radix2 53 * bpow radix2 (-1074)) by (rewrite <- bpow_plus; reflexivity). apply Rmult_le_compat_r; [apply bpow_ge_0|]. rewrite <- (IZR_Zpower radix2 53) by lia. apply IZR_le. cbn. lia.
      - rewrite Em, Rabs_pos_eq; auto. apply IZR_le. assert (K : 0 <= IZR (j - i)); [|apply le_IZR; auto]. apply (Rmult_le_reg_r (bpow radix2 (-1074))); [apply bpow_gt_0|]. rewrite <- Em. lra. }
    rewrite E. destruct (double_fix D) as [F _].
    { apply double_round. destruct (double_fix a Da) as [_ Ma], (double_fix b Db) as [_ Mb]. apply Rle_trans with (bpow radix2 (-1021)); [|apply bpow_fmax; lia]. rewrite Rabs_pos_eq by lra. rewrite <- E. lra. }
    apply Rle_trans with (round64 D); [rewrite <- E; apply round64_mono; nra|rewrite F; lra].
Qed.
Lemma huge_fmax x : Rabs x <= 10 ^ 300 -> 4 * Rabs x <= fmax.
Proof.
  intros H. apply Rle_trans with (bpow radix2 1000); [|apply bpow_fmax; lia]. apply Rle_trans with (4 * 10 ^ 300); [lra|].
  rewrite <- (IZR_Zpower radix2 1000) by lia. rewrite pow_IZR, <- mult_IZR. apply IZR_le. vm_compute. discriminate.
Qed.
Lemma round_between a b x : double a -> double b -> a <= x <= b -> a <= round64 x <= b.
Proof. intros Da Db H. destruct (double_fix a Da) as [<- _], (double_fix b Db) as [<- _]. split; apply round64_mono; lra. Qed.

(** ** interpolation between two doubles *)
Section Lerp.
  Context (a b t M : R) (Da : double a) (Db : double b) (Dt : double t) (Hab : a <= b) (Ht : 0 <= t < 1) (HM : Rabs a <= M /\ Rabs b <= M) (Hhuge : M <= 10 ^ 300).
  Lemma lerp_ok : exists r, lerp_double (Fin a) (Fin b) (Fin t) = Fin r /\ a <= r <= b /\ Rabs (r - (a + t * (b - a))) <= 6 * u * M + eta /\ (t = 0 -> r = a).
  Proof.
    pose proof u_pos as U0. pose proof u_small as U1. destruct HM as [Ma Mb]. apply Rabs_le_inv in Ma, Mb. assert (M0 : 0 <= M) by lra.
    assert (MF : 4 * M <= fmax) by (rewrite <- (Rabs_pos_eq M) by lra; apply huge_fmax; rewrite Rabs_pos_eq; lra).
    unfold lerp_double. cbv zeta. change (fsub (Fin b) (Fin a)) with (fl (b - a)). rewrite fl_fin by (apply Rabs_le; lra).
    set (D := round64 (b - a)). assert (ND : Rabs (D - (b - a)) <= 2 * u * (b - a)).
    { pose proof (near_abs 1 _ _ ltac:(lia) (minus_near b a Db Da)) as N. fold D in N. cbn [INR Nat.add] in N. rewrite (Rabs_pos_eq (b - a)) in N by lra. lra. }
    assert (Gap : 0 <= b - a <= 2 * M) by lra.
    assert (E0 : 0 < eta) by apply bpow_gt_0.
    assert (G : forall s, 0 <= s <= 1 / 2 -> let x := round64 (D * s) in fl (D * s) = Fin x /\ 0 <= x <= b - a /\ Rabs (x - s * (b - a)) <= 2 * u * M + 2 * u * M + eta /\ double x).
    { intros s Hs x. pose proof (half_diff a b s Da Db Hab Hs) as HD. fold D in HD. fold x in HD.
      apply Rabs_le_inv in ND. assert (D0 : 0 <= D <= 2 * (b - a)).
      { split; [rewrite <- round64_0; apply round64_mono; lra|]. nra. }
      assert (Ds : 0 <= D * s <= D / 2) by nra.
      split; [apply fl_fin; rewrite Rabs_pos_eq by lra; lra|]. split; auto.
      pose proof (round64_error (D * s)) as RE. fold x in RE. fold u in RE. fold eta in RE. rewrite (Rabs_pos_eq (D * s)) in RE by lra.
      split; [|apply double_round; rewrite Rabs_pos_eq by lra; lra].
      replace (x - s * (b - a)) with ((x - D * s) + s * (D - (b - a))) by ring. eapply Rle_trans; [apply Rabs_triang|]. rewrite Rabs_mult, (Rabs_pos_eq s) by lra.
      assert (s * Rabs (D - (b - a)) <= 1 / 2 * (2 * u * (2 * M))) by (apply Rmult_le_compat; try lra; [apply Rabs_pos|apply Rabs_le; nra]).
      assert (u * (D * s) <= u * (2 * M)) by (apply Rmult_le_compat_l; nra).
      lra. }
    destruct (double_fix t Dt) as [Ft _].
    change (nlt (Fin t) (Fin (1 / 2))) with (Rltb t (1 / 2)). destruct (Rltb_spec t (1 / 2)) as [L|L].
    - rewrite fmul_fin. destruct (G t ltac:(lra)) as (-> & B & E & Dx). set (x := round64 (D * t)) in *. rewrite fadd_fin.
      assert (Bx : a <= a + x <= b) by lra. exists (round64 (a + x)). split; [apply fl_fin; apply Rabs_le; lra|]. split; [apply round_between; auto|].
      pose proof (near_abs 1 _ _ ltac:(lia) (plus_near a x Da Dx)) as N. cbn [INR Nat.add] in N. assert (Rabs (a + x) <= M) by (apply Rabs_le; lra).
      assert (2 * u * Rabs (a + x) <= 2 * u * M) by (apply Rmult_le_compat_l; lra).
      replace (round64 (a + x) - (a + t * (b - a))) with ((round64 (a + x) - (a + x)) + (x - t * (b - a))) by ring. split; [eapply Rle_trans; [apply Rabs_triang|]; lra|].
      intros T0. unfold x. rewrite T0, Rmult_0_r, round64_0, Rplus_0_r. apply double_fix; auto.
    - change (fsub (Fin 1) (Fin t)) with (fl (1 - t)). assert (D1 : double 1) by (exists 1%Z, 0%Z; split; [reflexivity|]; split; [lia|]; cbn; ring).
      rewrite fl_fin by (rewrite Rabs_pos_eq by lra; apply Rle_trans with (bpow radix2 0); [change (bpow radix2 0) with 1; lra|apply bpow_fmax; lia]). rewrite sterbenz_exact by (auto; lra).
      rewrite fmul_fin. destruct (G (1 - t) ltac:(lra)) as (-> & B & E & Dx). set (x := round64 (D * (1 - t))) in *. change (fsub (Fin b) (Fin x)) with (fl (b - x)).
      assert (Bx : a <= b - x <= b) by lra. exists (round64 (b - x)). split; [apply fl_fin; apply Rabs_le; lra|]. split; [apply round_between; auto|].
      pose proof (near_abs 1 _ _ ltac:(lia) (minus_near b x Db Dx)) as N. cbn [INR Nat.add] in N. assert (Rabs (b - x) <= M) by (apply Rabs_le; lra).
      assert (2 * u * Rabs (b - x) <= 2 * u * M) by (apply Rmult_le_compat_l; lra).
      replace (round64 (b - x) - (a + t * (b - a))) with ((round64 (b - x) - (b - x)) - (x - (1 - t) * (b - a))) by ring. split; [eapply Rle_trans; [apply Rabs_triang|]; rewrite Rabs_Ropp; lra|]. lra.
  Qed.
End Lerp.

(** ** bin centres *)
Lemma bin_center_pair a b : double a -> double b -> a <= b -> Rabs a <= 10 ^ 300 -> Rabs b <= 10 ^ 300 ->
  exists c, fmul (Fin (1 / 2)) (fadd (Fin a) (Fin b)) = Fin c /\ a <= c <= b /\ Rabs (c - (a + b) / 2) <= 2 * u * Rabs (a + b) + eta.
Proof.
  intros Da Db H Ma Mb. pose proof u_pos as U0. pose proof u_small as U1. apply huge_fmax in Ma, Mb.
  assert (F2 : forall x, double x -> 4 * Rabs x <= fmax -> round64 (2 * x) = 2 * x).
  { intros x Dx _. apply round64_id. rewrite Rmult_comm. change 2 with (bpow radix2 1). apply format_of in Dx. destruct (FLT_format_generic radix2 (-1074) 53 x Dx) as [f E1 E2 E3].
    apply generic_format_FLT. exists (Float radix2 (Fnum f) (Fexp f + 1)); cbn [Fnum Fexp]; [|auto|lia]. rewrite E1. unfold F2R. cbn [Fnum Fexp]. rewrite bpow_plus. ring. }
  assert (S : Rabs (a + b) <= fmax) by (eapply Rle_trans; [apply Rabs_triang|]; pose proof (Rabs_pos a); pose proof (Rabs_pos b); lra).
  rewrite fadd_fin, fl_fin by auto. set (s := round64 (a + b)). rewrite fmul_fin.
  assert (S1 : 2 * a <= s <= 2 * b) by (rewrite <- (F2 a), <- (F2 b) by auto; split; apply round64_mono; lra).
  assert (N : Rabs (s - (a + b)) <= 2 * u * Rabs (a + b)) by (pose proof (near_abs 1 _ _ ltac:(lia) (plus_near a b Da Db)) as N; cbn [INR Nat.add] in N; fold s in N; lra).
  assert (SS : Rabs s <= 2 * Rabs (a + b)).
  { replace s with ((a + b) + (s - (a + b))) by ring. eapply Rle_trans; [apply Rabs_triang|]. pose proof (Rabs_pos (a + b)). nra. }
  assert (B : a <= 1 / 2 * s <= b) by lra. exists (round64 (1 / 2 * s)). split; [|split].
  - apply fl_fin. rewrite Rabs_mult, (Rabs_pos_eq (1 / 2)) by lra. lra.
  - apply round_between; auto.
  - pose proof (round64_error (1 / 2 * s)) as E. fold u eta in E. rewrite Rabs_mult, (Rabs_pos_eq (1 / 2)) in E by lra.
    replace (round64 (1 / 2 * s) - (a + b) / 2) with ((round64 (1 / 2 * s) - 1 / 2 * s) + 1 / 2 * (s - (a + b))) by field. eapply Rle_trans; [apply Rabs_triang|]. rewrite (Rabs_mult (1 / 2)), (Rabs_pos_eq (1 / 2)) by lra.
    assert (u * (1 / 2 * Rabs s) <= u * Rabs (a + b)) by (apply Rmult_le_compat_l; lra). lra.
Qed.
Theorem bin_center_double_ok edges : (forall e, In e edges -> double e /\ Rabs e <= 10 ^ 300) ->
  length (bin_center_double (map Fin edges)) = (length edges - 1)%nat /\
  forall i a b, nth_error edges i = Some a -> nth_error edges (S i) = Some b -> a <= b ->
    exists c, nth_error (bin_center_double (map Fin edges)) i = Some (Fin c) /\ a <= c <= b /\ Rabs (c - (a + b) / 2) <= 4 * eps53 * Rabs ((a + b) / 2) + / 2 ^ 1075.
Proof.
  intros H. split; [unfold bin_center_double; rewrite zipwith_length, but_last_length, tl_len, map_length; lia|].
  intros i a b Ha Hb L. destruct (H a (nth_error_In _ _ Ha)) as [Da Ma], (H b (nth_error_In _ _ Hb)) as [Db Mb].
  destruct (bin_center_pair a b Da Db L Ma Mb) as (c & E & B & K). exists c. split; [|split; auto].
  - rewrite <- E. unfold bin_center_double. apply (zipwith_nth (fun a b => fmul (Fin (1 / 2)) (fadd a b))).
    + rewrite nth_error_but_last; [apply map_nth_error; auto|]. rewrite map_length. apply nth_error_Some. congruence.
    + rewrite nth_error_tl. apply map_nth_error; auto.
  - rewrite eps53_u. assert (Ee : / 2 ^ 1075 = eta) by (unfold eta; change (-1075)%Z with (- (1075))%Z; rewrite bpow_opp; f_equal; rewrite <- (IZR_Zpower radix2 1075) by lia; rewrite pow_IZR; reflexivity).
    rewrite Ee. unfold Rdiv at 2. rewrite Rabs_mult, (Rabs_pos_eq (/ 2)) by lra. lra.
Qed.
(** ** percentiles *)
Section Percentile.
  Context (vals : list R) (p M : R) (Hne : vals <> []) (Hv : forall x, In x vals -> double x /\ Rabs x <= M) (HM : M <= 10 ^ 300) (Hlen : (Z.of_nat (length vals) <= 2 ^ 53)%Z)
    (Dp : double p) (Hp : p = 0 \/ / 10 ^ 60 <= p <= 100).
  Notation N1 := (INR (length vals) - 1).
  Notation h := (p / 100 * N1).
  Lemma len_pos : (1 <= length vals)%nat.
  Proof. destruct vals; [congruence|simpl; lia]. Qed.
  Lemma N1_eq : N1 = INR (length vals - 1). Proof. rewrite minus_INR by apply len_pos. reflexivity. Qed.
  Lemma N1_0 : 0 <= N1. Proof. rewrite N1_eq. apply pos_INR. Qed.
  Lemma p_range : 0 <= p <= 100.
  Proof. destruct Hp as [->|[A B]]; [lra|]. assert (0 < / 10 ^ 60) by (apply Rinv_0_lt_compat, pow_lt; lra). lra. Qed.
  Lemma position_ex : exists q v, fdiv (Fin p) (Fin 100) = Fin q /\ 0 <= q <= 1 /\ fmul (Fin N1) (Fin q) = Fin v /\ 0 <= v <= N1 /\ double v /\ Rabs (v - h) <= 3 * u * h.
  Proof.
    pose proof u_pos as U0. pose proof p_range as P. pose proof N1_0 as N0. rewrite N1_eq in *. set (m := (length vals - 1)%nat) in *.
    assert (Q0 : 0 <= p / 100 <= 1) by lra. assert (F1 : 1 <= fmax) by (apply Rle_trans with (bpow radix2 0); [cbn; lra|apply bpow_fmax; lia]).
    exists (round64 (p / 100)). rewrite fdiv_fin by lra.
    assert (D1 : double 1) by (exists 1%Z, 0%Z; split; [reflexivity|]; split; [lia|]; cbn; ring).
    assert (B : 0 <= round64 (p / 100) <= 1) by (apply round_between; auto using double_0). set (q := round64 (p / 100)) in *.
    assert (Im : fl (INR m) = Fin (INR m)) by (apply fl_int; lia).
    assert (Dm : double (INR m)).
    { assert (Fm : Rabs (INR m) <= fmax). { rewrite Rabs_pos_eq by auto. apply Rle_trans with (bpow radix2 53); [|apply bpow_fmax; lia]. rewrite INR_IZR_INZ, <- (IZR_Zpower radix2 53) by lia. apply IZR_le. cbn. cbn in Hlen. lia. }
      rewrite (fl_fin _ Fm) in Im. injection Im as <-. apply double_round; auto. }
    assert (Bq : 0 <= INR m * q <= INR m) by nra. exists (round64 (INR m * q)). split; [apply fl_fin; rewrite Rabs_pos_eq; lra|]. split; auto.
    destruct (double_fix _ Dm) as [_ Fm]. rewrite Rabs_pos_eq in Fm by auto.
    split; [rewrite fmul_fin; apply fl_fin; rewrite Rabs_pos_eq; lra|]. split; [apply round_between; auto using double_0|]. split; [apply double_round; rewrite Rabs_pos_eq; lra|].
    destruct Hp as [->|Hp'].
    { replace q with 0 by (unfold q; replace (0 / 100) with 0 by field; symmetry; apply round64_0). rewrite Rmult_0_r, round64_0. replace (0 - 0 / 100 * INR m) with 0 by field. rewrite Rabs_R0. nra. }
    destruct (Nat.eq_dec m 0) as [E0|E0].
    { rewrite E0. cbn [INR]. rewrite Rmult_0_l, round64_0, Rmult_0_r, Rminus_0_r, Rabs_R0. nra. }
    assert (Hm : 1 <= INR m) by (apply (le_INR 1); lia).
    assert (P60 : / 10 ^ 60 / 100 >= bpow radix2 (-300)).
    { apply Rle_ge. replace (/ 10 ^ 60 / 100) with (/ (10 ^ 60 * 100)) by (field; apply pow_nonzero; lra). change (-300)%Z with (- (300))%Z. rewrite bpow_opp. apply Rinv_le_contravar; [apply Rmult_lt_0_compat; [apply pow_lt; lra|lra]|]. rewrite <- (IZR_Zpower radix2 300) by lia. rewrite pow_IZR, <- mult_IZR. apply IZR_le. vm_compute. discriminate. }
    assert (Nq : near 1 (p / 100) q) by (apply near_round; rewrite Rabs_pos_eq by lra; apply Rle_trans with (bpow radix2 (-300)); [apply bpow_le; lia|lra]).
    assert (q0 : bpow radix2 (-300) <= q) .
    { apply Rle_trans with (round64 (bpow radix2 (-300))); [rewrite round64_id; [lra|]; apply generic_format_bpow; unfold FLT_exp; lia|]. apply round64_mono. lra. }
    assert (Nv : near 2 (INR m * (p / 100)) (round64 (INR m * q))).
    { apply (near_trans 1 1 _ (INR m * q)); [apply (near_mult 0 1); auto using near_refl|]. apply near_round. rewrite Rabs_pos_eq by lra. apply Rle_trans with (bpow radix2 (-300)); [apply bpow_le; lia|]. pose proof (bpow_ge_0 radix2 (-300)). nra. }
    apply near_abs in Nv; [|lia]. cbn [INR Nat.add] in Nv. rewrite (Rabs_pos_eq (INR m * (p / 100))) in Nv by nra. replace (p / 100 * INR m) with (INR m * (p / 100)) by ring. lra.
  Qed.
  Notation s := (sortR vals).
  Lemma s_len : length s = length vals. Proof. apply isort_length. Qed.
  Lemma s_in x i : nth_error s i = Some x -> double x /\ Rabs x <= M.
  Proof. intros E. apply Hv. eapply Permutation_in; [symmetry; apply sortR_perm|]. eapply nth_error_In; eauto. Qed.
  (** what the code computes *)
  Lemma percentile_cell : exists v r i a, percentile_double (map Fin vals) (Fin p) = Ok (Fin r) /\ 0 <= v <= N1 /\ Rabs (v - h) <= 3 * u * h /\ nth_error s i = Some a /\
    ((v = INR i /\ r = a) \/ exists b, nth_error s (S i) = Some b /\ INR i <= v < INR i + 1 /\ a <= r <= b /\ Rabs (r - (a + (v - INR i) * (b - a))) <= 6 * u * M + eta /\ (v = INR i -> r = a)).
  Proof.
    destruct position_ex as (q & v & Eq & Bq & Ev & Bv & Dv & Hd). pose proof len_pos as LP. pose proof s_len as SL.
    unfold percentile_double. cbv zeta. rewrite Eq. cbn [nle]. destruct (Rleb_spec 0 q); [|lra]. destruct (Rleb_spec q 1); [|lra]. cbn [andb].
    destruct (map Fin vals) as [|x0 l0] eqn:EM; [destruct vals; [congruence|discriminate]|]. rewrite <- EM. rewrite nsort_fin, map_length, SL. rewrite <- N1_eq, Ev. clear EM x0 l0.
    destruct (Rleb_spec N1 v) as [L|L].
    - assert (s <> []) by (intros E; rewrite E in SL; cbn in SL; lia). rewrite (last_map_fin _ _ 0) by auto.
      exists v, (last s 0), (length vals - 1)%nat, (last s 0). split; auto. split; auto. split; auto. split; [rewrite <- SL; apply last_nth_error; auto|]. left. split; auto. rewrite <- N1_eq. lra.
    - pose proof (Rfloor_nat v (proj1 Bv)) as Hf. set (i := Z.to_nat (Rfloor v)) in *.
      assert (Hi : (i < length vals - 1)%nat) by (apply INR_lt; rewrite <- N1_eq; lra).
      destruct (nth_error_ex s i) as [a Ha]; [lia|]. destruct (nth_error_ex s (S i)) as [b Hb]; [lia|].
      rewrite (nth_error_nth (map Fin s) i NaN (map_nth_error Fin i _ Ha)). rewrite (nth_error_nth (map Fin s) (S i) NaN (map_nth_error Fin (S i) _ Hb)).
      assert (Hab : a <= b) by (apply (sorted_nth s i (S i)); auto; apply sortR_sorted).
      destruct (s_in _ _ Ha) as [Da Ba], (s_in _ _ Hb) as [Db Bb].
      assert (Fi : (Z.of_nat i <= 2 ^ 53)%Z) by lia. pose proof (fl_int i Fi) as Ei.
      assert (Fv : 0 <= v <= fmax) by (destruct (double_fix v Dv) as [_ K]; rewrite Rabs_pos_eq in K; lra).
      assert (Di : double (INR i)). { rewrite fl_fin in Ei; [injection Ei as <-; apply double_round|]; pose proof (pos_INR i); rewrite Rabs_pos_eq; lra. }
      assert (Et : round64 (v - INR i) = v - INR i).
      { destruct i as [|i'] eqn:Ei0; [cbn [INR]; rewrite Rminus_0_r; apply double_fix; auto|]. apply sterbenz_exact; auto. rewrite <- Ei0 in *. assert (1 <= INR i) by (apply (le_INR 1); lia). lra. }
      assert (EF : fsub (Fin v) (Fin (INR i)) = Fin (v - INR i)).
      { change (fsub (Fin v) (Fin (INR i))) with (fl (v - INR i)). rewrite fl_fin, Et; auto. pose proof (pos_INR i). rewrite Rabs_pos_eq; lra. }
      rewrite EF. assert (Dt : double (v - INR i)) by (rewrite <- Et; apply double_round; pose proof (pos_INR i); rewrite Rabs_pos_eq; lra).
      destruct (lerp_ok a b (v - INR i) M Da Db Dt Hab ltac:(lra) (conj Ba Bb) HM) as (y & -> & Br & Er & Z0).
      exists v, y, i, a. split; auto. split; auto. split; auto. split; auto. right. exists b. split; auto. split; [lra|]. split; auto. split; [auto|]. intros K. apply Z0. lra.
  Qed.
End Percentile.
(** interpolated values at nearby positions *)
Lemma gap_chain s G j k a b : ascending s -> (forall i a b, nth_error s i = Some a -> nth_error s (S i) = Some b -> b - a <= G) ->
  nth_error s j = Some a -> nth_error s (j + k) = Some b -> 0 <= b - a <= G * INR k.
Proof.
  intros As HG Ha. revert b. induction k as [|k IH]; intros b Hb.
  - rewrite Nat.add_0_r in Hb. replace b with a by congruence. cbn [INR]. lra.
  - destruct (nth_error_ex s (j + k)) as [c Hc]. { assert (j + S k < length s)%nat by (apply nth_error_Some; congruence). lia. }
    specialize (IH c Hc). rewrite Nat.add_succ_r in Hb. pose proof (HG _ _ _ Hc Hb). pose proof (As _ _ _ Hc Hb). rewrite S_INR. lra.
Qed.
Definition at_pos (s : list R) (h c : R) : Prop := exists i a, nth_error s i = Some a /\ ((h = INR i /\ c = a) \/ (exists b, nth_error s (S i) = Some b /\ INR i <= h < INR i + 1 /\ c = a + (h - INR i) * (b - a))).
Lemma at_pos_close_le s G h h' c c' : ascending s -> (forall i a b, nth_error s i = Some a -> nth_error s (S i) = Some b -> b - a <= G) -> 0 <= G ->
  at_pos s h c -> at_pos s h' c' -> h <= h' -> 0 <= c' - c <= G * (h' - h).
Proof.
  intros As HG G0 (i & a & Ha & Hc) (i' & a' & Ha' & Hc') L.
  assert (Hi' : INR i' <= h' < INR i' + 1) by (destruct Hc' as [[-> _]|(b & _ & K & _)]; lra).
  assert (Hi : INR i <= h < INR i + 1) by (destruct Hc as [[-> _]|(b & _ & K & _)]; lra).
  assert (T' : c' = a' /\ h' = INR i' \/ exists b', nth_error s (S i') = Some b' /\ c' = a' + (h' - INR i') * (b' - a') /\ 0 <= b' - a' <= G).
  { destruct Hc' as [[-> ->]|(b & K1 & _ & K2)]; [left; auto|right; exists b]. pose proof (HG _ _ _ Ha' K1). pose proof (As _ _ _ Ha' K1). repeat split; auto; lra. }
  assert (T : c = a /\ h = INR i \/ exists b, nth_error s (S i) = Some b /\ c = a + (h - INR i) * (b - a) /\ 0 <= b - a <= G).
  { destruct Hc as [[-> ->]|(b & K1 & _ & K2)]; [left; auto|right; exists b]. pose proof (HG _ _ _ Ha K1). pose proof (As _ _ _ Ha K1). repeat split; auto; lra. }
  clear Hc Hc'. assert (II : (i <= i')%nat). { apply INR_le. destruct (le_lt_dec i i') as [K|K]; [apply le_INR; auto|]. apply (le_INR (S i') i) in K. rewrite S_INR in K. lra. }
  assert (P : 0 <= c' - a' <= G * (h' - INR i')).
  { destruct T' as [[-> ->]|(b' & _ & -> & K)]; [lra|]. split; [|replace (a' + (h' - INR i') * (b' - a') - a') with ((b' - a') * (h' - INR i')) by ring; apply Rmult_le_compat_r; lra]. assert (0 <= (h' - INR i') * (b' - a')) by (apply Rmult_le_pos; lra). lra. }
  destruct (Nat.eq_dec i i') as [<-|Ne].
  - replace a' with a in * by congruence. destruct T as [[-> ->]|(b & Hb & -> & K)]; [lra|]. destruct T' as [[-> ->]|(b' & Hb' & -> & K')].
    + assert (E : h = INR i) by lra. rewrite E. lra.
    + replace b' with b in * by congruence. replace (a + (h' - INR i) * (b - a) - (a + (h - INR i) * (b - a))) with ((b - a) * (h' - h)) by ring. split; [apply Rmult_le_pos; lra|apply Rmult_le_compat_r; lra].
  - destruct T as [[-> ->]|(b & Hb & -> & K)].
    + replace i' with (i + (i' - i))%nat in Ha' by lia. pose proof (gap_chain s G i (i' - i) a a' As HG Ha Ha') as Q. rewrite minus_INR in Q by lia. lra.
    + replace i' with (S i + (i' - S i))%nat in Ha' by lia. pose proof (gap_chain s G (S i) (i' - S i) b a' As HG Hb Ha') as Q. rewrite minus_INR, S_INR in Q by lia.
      assert (b - (a + (h - INR i) * (b - a)) = (b - a) * (INR i + 1 - h)) by ring. assert (0 <= (b - a) * (INR i + 1 - h) <= G * (INR i + 1 - h)) by (split; [apply Rmult_le_pos; lra|apply Rmult_le_compat_r; lra]). lra.
Qed.
Lemma at_pos_close s G h h' c c' : ascending s -> (forall i a b, nth_error s i = Some a -> nth_error s (S i) = Some b -> b - a <= G) -> 0 <= G ->
  at_pos s h c -> at_pos s h' c' -> Rabs (c' - c) <= G * Rabs (h' - h).
Proof.
  intros As HG G0 P P'. destruct (Rle_or_lt h h') as [L|L].
  - pose proof (at_pos_close_le s G h h' c c' As HG G0 P P' L). rewrite !Rabs_pos_eq by lra. lra.
  - pose proof (at_pos_close_le s G h' h c' c As HG G0 P' P ltac:(lra)). rewrite (Rabs_minus_sym c'), (Rabs_minus_sym h'), !Rabs_pos_eq by lra. lra.
Qed.
Lemma ascending_perm_eq s s' : ascending s -> ascending s' -> Permutation s s' -> s = s'.
Proof.
  intros As As' Hp. apply (sorted_perm_eq Rleb Rleb_antisym); auto.
  - pose proof (ascending_sorted s As) as Hx. clear - Hx. induction Hx as [|y l Hs IH Hf]; constructor; auto. eapply Forall_impl; [|exact Hf]. intros z Hz. destruct (Rleb_spec y z); auto; lra.
  - pose proof (ascending_sorted s' As') as Hx. clear - Hx. induction Hx as [|y l Hs IH Hf]; constructor; auto. eapply Forall_impl; [|exact Hf]. intros z Hz. destruct (Rleb_spec y z); auto; lra.
Qed.

Lemma eta_pow : / 2 ^ 1075 = eta.
Proof. unfold eta. change (-1075)%Z with (- (1075))%Z. rewrite bpow_opp. f_equal. rewrite <- (IZR_Zpower radix2 1075) by lia. rewrite pow_IZR. reflexivity. Qed.
Theorem percentile_double_ok l vals p M : finite_part l vals -> vals <> [] -> (forall x, In x vals -> double x /\ Rabs x <= M) -> M <= 10 ^ 300 -> (Z.of_nat (length vals) <= 2 ^ 53)%Z ->
  double p -> p = 0 \/ / 10 ^ 60 <= p <= 100 ->
  exists r, nanpercentile_double l (Fin p) = Ok (Fin r) /\
    (forall c s G, linear_percentile vals p c -> Permutation vals s -> ascending s -> 0 <= G -> (forall i a b, nth_error s i = Some a -> nth_error s (S i) = Some b -> b - a <= G) ->
      Rabs (r - c) <= 3 * eps53 * (p / 100 * (INR (length vals) - 1)) * G + 6 * eps53 * M + / 2 ^ 1075) /\
    (exists lo hi, In lo vals /\ In hi vals /\ lo <= r <= hi) /\
    (forall n, number_of (fun x => x <= r) vals n -> p / 100 * (INR (length vals) - 1) * (1 - 3 * eps53) < INR n) /\
    (forall n, number_of (fun x => r <= x) vals n -> INR (length vals) - 1 - p / 100 * (INR (length vals) - 1) * (1 + 3 * eps53) < INR n).
Proof.
  intros HF Hne Hv HM Hlen Dp Hp. destruct (percentile_cell vals p M Hne Hv HM Hlen Dp Hp) as (v & r & i & a & E & Bv & Dv & Ha & C).
  exists r. unfold nanpercentile_double. rewrite (finite_part_drop _ _ HF), eps53_u, eta_pow. split; auto.
  pose proof u_pos as U0. assert (E0 : 0 < eta) by apply bpow_gt_0. assert (M0 : 0 <= M) by (destruct vals as [|x vs]; [congruence|]; destruct (Hv x (or_introl eq_refl)) as [_ K]; pose proof (Rabs_pos x); lra).
  pose proof (sortR_perm vals) as SP. pose proof (sortR_sorted vals) as SS. pose proof (sorted_ascending _ SS) as SA. assert (SL : length (sortR vals) = length vals) by apply isort_length.
  set (h := p / 100 * (INR (length vals) - 1)) in *. apply Rabs_le_inv in Dv.
  (* brackets *)
  assert (Br : exists j b, nth_error (sortR vals) j = Some b /\ a <= r <= b /\ INR i <= v /\ INR j < v + 1 /\ v < INR i + 1).
  { destruct C as [[-> ->]|(b & Hb & Bi & Bb & _ & Z0)]; [exists i, a; repeat split; auto; lra|]. destruct (Req_dec v (INR i)) as [Ev|Ev]; [|exists (S i), b; rewrite S_INR; repeat split; auto; lra].
    rewrite (Z0 Ev). exists i, a. repeat split; auto; lra. }
  split; [|split; [|split]].
  - intros c s G Hc Hs As G0 HG. assert (s = sortR vals) as -> by (apply ascending_perm_eq; auto; rewrite <- Hs; auto).
    assert (P : at_pos (sortR vals) h c).
    { destruct Hc as (s' & i' & a' & Hs' & As' & Ha' & Hc'). assert (s' = sortR vals) as -> by (apply ascending_perm_eq; auto; rewrite <- Hs'; auto). exists i', a'. split; auto. }
    destruct C as [[-> ->]|(b & Hb & Bi & Bb & Eb & _)].
    + assert (P' : at_pos (sortR vals) (INR i) a) by (exists i, a; auto). pose proof (at_pos_close _ G _ _ _ _ SA HG G0 P P') as K.
      assert (G * Rabs (INR i - h) <= G * (3 * u * h)) by (apply Rmult_le_compat_l; auto; apply Rabs_le; lra). nra.
    + assert (P' : at_pos (sortR vals) v (a + (v - INR i) * (b - a))) by (exists i, a; split; eauto 6). pose proof (at_pos_close _ G _ _ _ _ SA HG G0 P P') as K.
      assert (G * Rabs (v - h) <= G * (3 * u * h)) by (apply Rmult_le_compat_l; auto; apply Rabs_le; lra).
      replace (r - c) with ((r - (a + (v - INR i) * (b - a))) + ((a + (v - INR i) * (b - a)) - c)) by ring. eapply Rle_trans; [apply Rabs_triang|]. lra.
  - destruct Br as (j & b & Hb & Bb & _). exists a, b. split; [|split; auto]; (eapply Permutation_in; [symmetry; exact SP|eapply nth_error_In; eauto]).
  - intros n Hn. destruct Br as (j & b & Hb & Bb & B1 & B2 & B3).
    rewrite (number_of_unique _ _ _ _ Hn (number_of_count (fun x => x <= r) (fun x => Rleb x r) vals ltac:(intros x _; apply Rleb_true))).
    rewrite (count_perm _ _ _ SP), <- (firstn_skipn (S i) (sortR vals)), count_app, (count_all _ (firstn (S i) (sortR vals))).
    + assert (Hl : (i < length (sortR vals))%nat) by (apply nth_error_Some; congruence). rewrite firstn_length, Nat.min_l by lia. rewrite plus_INR, S_INR.
      pose proof (pos_INR (count (fun x => Rleb x r) (skipn (S i) (sortR vals)))). lra.
    + intros x Hx. apply firstn_all_in in Hx. destruct Hx as (k & Hk & Ek). apply Rleb_true. assert (x <= a) by (apply (sorted_nth (sortR vals) k i); auto; lia). lra.
  - intros n Hn. destruct Br as (j & b & Hb & Bb & B1 & B2 & B3).
    rewrite (number_of_unique _ _ _ _ Hn (number_of_count (fun x => r <= x) (fun x => Rleb r x) vals ltac:(intros x _; apply Rleb_true))).
    rewrite (count_perm _ _ _ SP), <- (firstn_skipn j (sortR vals)), count_app, (count_all _ (skipn j (sortR vals))).
    + assert (Hl : (j < length (sortR vals))%nat) by (apply nth_error_Some; congruence). rewrite skipn_length, plus_INR, minus_INR, SL by lia.
      pose proof (pos_INR (count (fun x => Rleb r x) (firstn j (sortR vals)))). lra.
    + intros x Hx. apply skipn_all_in in Hx. destruct Hx as (k & Hk & Ek). apply Rleb_true. assert (b <= x) by (apply (sorted_nth (sortR vals) j k); auto; lia). lra.
Qed.
(** differences beyond the largest double *)
Theorem percentile_overflow : nanpercentile_double [Fin (- fmax); Fin fmax] (Fin 0) = Ok NaN.
Proof.
  pose proof fmax_pos as F. unfold nanpercentile_double. cbn [drop_nan filter is_nan negb]. unfold percentile_double. cbv zeta. rewrite fdiv_fin by lra. replace (0 / 100) with 0 by field. rewrite fl0. cbn [nle]. destruct (Rleb_spec 0 0); [|lra]. destruct (Rleb_spec 0 1); [|lra]. cbn [andb].
  assert (ES : nsort [Fin (- fmax); Fin fmax] = [Fin (- fmax); Fin fmax]).
  { change [Fin (- fmax); Fin fmax] with (map Fin [- fmax; fmax]). rewrite nsort_fin. f_equal. unfold sortR. cbn. destruct (Rleb_spec (- fmax) fmax); [auto|lra]. }
  rewrite ES. cbn [length Nat.sub INR]. rewrite fmul_fin, Rmult_0_r, fl0. destruct (Rleb_spec 1 0); [lra|].
  assert (E0 : Rfloor 0 = 0%Z). { unfold Rfloor. pose proof (archimed 0) as [A1 A2]. assert (0 < up 0 < 2)%Z by (split; apply lt_IZR; lra). lia. }
  rewrite E0. cbn [Z.to_nat nth INR]. f_equal. assert (ED : fsub (Fin fmax) (Fin (- fmax)) = PInf).
  { change (fsub (Fin fmax) (Fin (- fmax))) with (fl (fmax - - fmax)). unfold fl. cbv zeta. assert (L : fmax < round64 (fmax - - fmax)).
    { assert (E : round64 (fmax - - fmax) = 2 * fmax). { replace (fmax - - fmax) with (fmax * 2) by ring. rewrite Rmult_comm. apply round64_id. rewrite Rmult_comm. change 2 with (bpow radix2 1). destruct (FLT_format_generic radix2 (-1074) 53 fmax fmax_format) as [f E1 E2 E3].
      apply generic_format_FLT. exists (Float radix2 (Fnum f) (Fexp f + 1)); cbn [Fnum Fexp]; [|auto|lia]. rewrite E1. unfold F2R. cbn [Fnum Fexp]. rewrite bpow_plus. ring. }
      rewrite E. lra. }
    rewrite Rabs_pos_eq by lra. destruct (Rltb_spec fmax (round64 (fmax - - fmax))); [|lra]. destruct (Rltb_spec 0 (round64 (fmax - - fmax))); [auto|lra]. }
  unfold lerp_double. cbv zeta. rewrite ED. change (fsub (Fin 0) (Fin 0)) with (fl (0 - 0)). rewrite Rminus_0_r, fl0. cbn [nlt]. destruct (Rltb_spec 0 (1 / 2)); [|lra].
  unfold fmul. cbn [nmul]. unfold inf_signed. destruct (Reqb_spec 0 0); [|lra]. reflexivity.
Qed.
