(** * Proofs about pyirf/benchmarks/energy_bias_resolution.py: from events *)
From Coq Require Import String Reals List Bool ZArith Arith Lia Lra Permutation Sorting.Sorted.
From Verif Require Import Num Numpy Sort Table Binning SpecBinning BinningProofs Lists Percentile Cuts SpecCuts PercentileProofs CutsProofs CutsProofs2 SpecIRF IRFProofs Quantile QuantileProofs2 QuantileProofs3 Benchmarks SpecBenchmarks BenchmarkProofs BenchmarkProofs2.
Import ListNotations.
Open Scope R_scope.

Lemma nanmedian_spec l rs : finite_part l rs -> exists c, nanmedian l = Ok c /\ match rs with [] => c = NaN | _ => exists r, c = Fin r /\ linear_percentile rs 50 r end.
Proof.
  intros H. unfold nanmedian. rewrite (finite_part_drop _ _ H), nsort_fin, map_length. assert (Hl : length (sortR rs) = length rs) by (unfold sortR; apply isort_length). rewrite Hl.
  destruct (length rs) as [|n'] eqn:En; [destruct rs; [|discriminate]; eauto|]. destruct rs as [|r0 rs0]; [discriminate|]. remember (r0 :: rs0) as rs eqn:Ers. rewrite <- En in *. clear Ers r0 rs0 H.
  assert (Hn : (0 < length rs)%nat) by lia. clear En n'. set (n := length rs) in *. pose proof (Nat.div_mod n 2 ltac:(lia)) as Dn. pose proof (Nat.mod_upper_bound n 2 ltac:(lia)) as Mn. set (m := (n / 2)%nat) in *.
  destruct (Nat.odd n) eqn:Ho.
  - assert (E1 : (n mod 2 = 1)%nat) by (apply Nat.odd_spec in Ho; destruct Ho as (q & Hq); rewrite Hq, Nat.add_comm, Nat.mul_comm, Nat.mod_add by lia; auto).
    destruct (nth_some_ex (sortR rs) m) as (a & Ha); [lia|]. rewrite (nth_error_nth (map Fin (sortR rs)) m NaN (map_nth_error Fin m _ Ha)).
    eexists. split; [reflexivity|]. exists a. split; auto. exists (sortR rs), m, a. split; [apply sortR_perm|]. split; [apply sorted_ascending, sortR_sorted|]. split; auto. left. split; auto. fold n.
    replace n with (2 * m + 1)%nat by lia. rewrite plus_INR, mult_INR. cbn. lra.
  - assert (E1 : (n mod 2 = 0)%nat). { assert (Nat.even n = true) by (rewrite <- Nat.negb_odd, Ho; auto). apply Nat.even_spec in H. destruct H as (q & Hq). rewrite Hq, Nat.mul_comm, Nat.mod_mul; auto. }
    destruct (nth_some_ex (sortR rs) (m - 1)) as (a & Ha); [lia|]. destruct (nth_some_ex (sortR rs) m) as (b & Hb); [lia|].
    rewrite (nth_error_nth (map Fin (sortR rs)) (m - 1) NaN (map_nth_error Fin _ _ Ha)), (nth_error_nth (map Fin (sortR rs)) m NaN (map_nth_error Fin m _ Hb)).
    eexists. split; [reflexivity|]. exists ((a + b) / 2). split; [cbn; destruct (Reqb_spec 2 0); [lra|auto]|].
    exists (sortR rs), (m - 1)%nat, a. split; [apply sortR_perm|]. split; [apply sorted_ascending, sortR_sorted|]. split; auto. right. exists b.
    split; [replace (S (m - 1)) with m by lia; auto|]. fold n. replace n with (2 * (m - 1) + 2)%nat by lia. rewrite plus_INR, mult_INR. cbn [INR]. split; lra.
Qed.
Lemma rel_errors_length ur ut rs ts es : rel_errors ur ut rs ts es -> length rs = length es /\ length ts = length es.
Proof. induction 1; cbn; auto. lia. Qed.
Lemma relative_error_ok ur ut rs ts es : u_dim ur = u_dim ut -> 0 < u_scale ut -> rel_errors ur ut rs ts es -> relative_error (mkArr rs (Some ur)) (mkArr ts (Some ut)) = Ok (map Fin es).
Proof.
  intros Hd Hs H. unfold relative_error. cbn [a_unit a_val]. rewrite Hd, Nat.eqb_refl. f_equal. induction H as [|r t rs ts es e Ht He H IH]; auto. cbn [map zipwith]. rewrite IH. f_equal.
  cbn. destruct (Reqb_spec t 0); [lra|]. cbn. f_equal. rewrite He. field. split; lra.
Qed.
Lemma bias_default lower upper sel : 0 <= lower <= 1 -> 0 <= upper <= 1 -> exists b r,
  nanmedian (map Fin sel) = Ok b /\ inter_quantile_distance lower upper (map Fin sel) = Ok r /\ bias_and_resolution lower upper sel b r.
Proof.
  intros Hl Hu. destruct (nanmedian_spec (map Fin sel) sel (finite_part_map sel)) as (b & Eb & Hb).
  destruct (nanquantile_doc (map Fin sel) lower Hl) as (lo & El & Dl). destruct (nanquantile_doc (map Fin sel) upper Hu) as (hi & Eh & Dh).
  specialize (Dl sel (finite_part_map sel)). specialize (Dh sel (finite_part_map sel)).
  exists b, (nmul (Fin (1/2)) (nsub hi lo)). split; auto. split; [unfold inter_quantile_distance; rewrite El, Eh; auto|]. unfold bias_and_resolution. destruct sel as [|s sel].
  - subst. auto.
  - destruct Hb as (m & -> & Hm). destruct Dl as (l & -> & Hl'). destruct Dh as (h & -> & Hh'). exists m, l, h. split; auto. split; [cbn; f_equal; lra|]. auto.
Qed.
Lemma picks_fin P (xs : list num) es : forall sel, picks P xs (map Fin es) sel -> exists rs, sel = map Fin rs /\ picks P xs es rs.
Proof.
  revert es. induction xs as [|x xs IH]; intros [|e es] sel H; cbn in H; inversion H; subst.
  - exists []. split; auto. constructor.
  - destruct (IH es _ ltac:(eassumption)) as (rs & -> & Hr). exists (e :: rs). split; auto. constructor; auto.
  - destruct (IH es _ ltac:(eassumption)) as (rs & -> & Hr). exists rs. split; auto. constructor; auto.
Qed.

Section Energy.
  Context (events : columns) (energy_type : string) (trues recos : list num) (ut ur : unit_) (es : list R) (xs : list num) (u : unit_) (edges : list num).
  Hypothesis Ht : getitem events "true_energy" = Some (mkArr trues (Some ut)).
  Hypothesis Hr : getitem events "reco_energy" = Some (mkArr recos (Some ur)).
  Hypothesis Hrows : n_rows events = length trues.
  Hypothesis Hdim : u_dim ur = u_dim ut.
  Hypothesis Hst : 0 < u_scale ut.
  Hypothesis Hsr : 0 < u_scale ur.
  Hypothesis Hes : rel_errors ur ut recos trues es.
  Hypothesis Hx : binned_energy energy_type trues recos ut ur xs u.
  Hypothesis Hnd : nondecreasing edges.
  Hypothesis H2 : (2 <= length edges)%nat.

  Lemma energy_length : length xs = length es /\ length trues = length es.
  Proof. destruct (rel_errors_length _ _ _ _ _ Hes) as (A & B). destruct Hx as [(_ & -> & _)|(_ & -> & _)]; split; auto. Qed.
  Lemma energy_scale : 0 < u_scale u.
  Proof. destruct Hx as [(_ & _ & ->)|(_ & _ & ->)]; auto. Qed.
  Lemma energy_reduce bf rf : xs <> [] -> energy_bias_resolution events (mkArr edges (Some u)) energy_type bf rf =
    (do iv <- calculate_bin_indices (mkArr xs (Some u)) (mkArr edges (Some u));
     group_and_fill ["bias"; "resolution"]%string (fun g => do b <- bf g; do r <- rf g; Ok [b; r]) (map Fin es) iv (empty_table (mkArr edges (Some u)) ["bias"; "resolution"]%string)).
  Proof.
    intros Hne. unfold energy_bias_resolution, get_column. rewrite Ht, Hr. cbn [rbind]. rewrite (relative_error_ok ur ut recos trues es Hdim Hst Hes). cbn [rbind].
    destruct energy_length as (L1 & L2). assert (0 < length xs)%nat by (destruct xs; [congruence|cbn; lia]). destruct (Nat.eqb_spec (n_rows events) 0); [lia|].
    destruct Hx as [(-> & -> & ->)|(-> & -> & ->)]; reflexivity.
  Qed.
  (** any total pair of functions *)
  Lemma energy_values bf rf : (forall g, exists b, bf g = Ok b) -> (forall g, exists r, rf g = Ok r) -> (exists x k, In x xs /\ in_bin edges k x) ->
    exists t, energy_bias_resolution events (mkArr edges (Some u)) energy_type bf rf = Ok t /\ table_of edges ["bias"; "resolution"]%string t /\
      forall k sel, (k < length edges - 1)%nat -> picks (in_bin edges k) xs es sel ->
        nth_error (bt_n_events t) k = Some (Z.of_nat (length sel)) /\
        match sel with [] => cell t "bias" k NaN /\ cell t "resolution" k NaN
        | _ => exists b r, bf (map Fin sel) = Ok b /\ rf (map Fin sel) = Ok r /\ cell t "bias" k b /\ cell t "resolution" k r end.
  Proof.
    intros Hbf Hrf Hex. pose proof energy_length as (L1 & L2).
    destruct (bins_ok ["bias"; "resolution"]%string (fun g => do b <- bf g; do r <- rf g; Ok [b; r]) (map Fin es) xs edges u) as (iv & t & E1 & E2 & Htab & Hk); auto.
    - repeat constructor; cbn; intuition discriminate.
    - rewrite map_length; auto.
    - apply energy_scale.
    - intros g. destruct (Hbf g) as (b & ->). destruct (Hrf g) as (r & ->). cbn. eauto.
    - exists t. rewrite energy_reduce by (destruct Hex as (x & k & Hin & _); intros E; rewrite E in Hin; contradiction). rewrite E1. cbn [rbind]. split; auto. split; auto.
      intros k sel Hlt Hp. destruct (Hk k (map Fin sel) Hlt (picks_map Fin _ _ _ _ Hp)) as (N & C). rewrite map_length in N. split; auto. destruct sel as [|s sel].
      + split; apply C; cbn; auto.
      + cbn [map] in C |- *. destruct C as (vs & Ev & Hc). destruct (Hbf (Fin s :: map Fin sel)) as (b & Eb). destruct (Hrf (Fin s :: map Fin sel)) as (r & Er). rewrite Eb, Er in Ev. cbn [rbind] in Ev. injection Ev as <-.
        exists b, r. split; auto. split; auto. split; [apply (Hc 0%nat); auto|apply (Hc 1%nat); auto].
  Qed.
  Lemma energy_default lower upper : 0 <= lower <= 1 -> 0 <= upper <= 1 -> (exists x k, In x xs /\ in_bin edges k x) ->
    exists t, energy_bias_resolution events (mkArr edges (Some u)) energy_type nanmedian (inter_quantile_distance lower upper) = Ok t /\ table_of edges ["bias"; "resolution"]%string t /\
      forall k sel, (k < length edges - 1)%nat -> picks (in_bin edges k) xs es sel ->
        nth_error (bt_n_events t) k = Some (Z.of_nat (length sel)) /\
        exists b r, cell t "bias" k b /\ cell t "resolution" k r /\ bias_and_resolution lower upper sel b r.
  Proof.
    intros Hl Hu Hex.
    assert (B : forall g, exists b, nanmedian g = Ok b).
    { intros g. unfold nanmedian. cbv zeta. destruct (length (nsort (drop_nan g))) as [|n]; [eauto|]. destruct (Nat.odd (S n)); eauto. }
    assert (Q : forall g, exists r, inter_quantile_distance lower upper g = Ok r).
    { intros g. unfold inter_quantile_distance. destruct (nanquantile_doc g upper Hu) as (h & -> & _). destruct (nanquantile_doc g lower Hl) as (l & -> & _). cbn. eauto. }
    destruct (energy_values nanmedian (inter_quantile_distance lower upper) B Q Hex) as (t & E & Htab & Hk). exists t. split; auto. split; auto.
    intros k sel Hlt Hp. destruct (Hk k sel Hlt Hp) as (N & C). split; auto. destruct sel as [|s sel].
    - exists NaN, NaN. destruct C. cbn. auto.
    - destruct C as (b & r & Eb & Er & Cb & Cr). exists b, r. split; auto. split; auto. destruct (bias_default lower upper (s :: sel) Hl Hu) as (b' & r' & Eb' & Er' & D). rewrite Eb in Eb'. rewrite Er in Er'. injection Eb' as <-. injection Er' as <-. auto.
  Qed.
  Lemma energy_none bf rf : xs <> [] -> ~ (exists x k, In x xs /\ in_bin edges k x) ->
    energy_bias_resolution events (mkArr edges (Some u)) energy_type bf rf = Err IndexError.
  Proof.
    intros Hne Hno. rewrite energy_reduce by auto.
    destruct (nothing_in_bins ["bias"; "resolution"]%string (fun g => do b <- bf g; do r <- rf g; Ok [b; r]) (map Fin es) xs edges u (empty_table (mkArr edges (Some u)) ["bias"; "resolution"]%string) Hnd H2 energy_scale Hno) as (iv & E1 & E2).
    rewrite E1. exact E2.
  Qed.
  Lemma energy_empty bf rf : xs = [] ->
    exists t, energy_bias_resolution events (mkArr edges (Some u)) energy_type bf rf = Ok t /\ table_of edges ["bias"; "resolution"]%string t /\
      forall k, (k < length edges - 1)%nat -> nth_error (bt_n_events t) k = Some 0%Z /\ cell t "bias" k NaN /\ cell t "resolution" k NaN.
  Proof.
    intros H0. pose proof energy_length as (L1 & L2). exists (empty_table (mkArr edges (Some u)) ["bias"; "resolution"]%string). split.
    - unfold energy_bias_resolution, get_column. rewrite Ht, Hr. cbn [rbind]. rewrite (relative_error_ok ur ut recos trues es Hdim Hst Hes). cbn [rbind]. rewrite Hrows, L2, <- L1, H0. auto.
    - split.
      + split; [cbn; apply repeat_length|]. split; [auto|]. split; [|split; [cbn; apply but_last_length|split; [cbn; destruct edges; cbn; lia|]]].
        * intros nm c Hc. cbn in Hc. destruct Hc as [Hc|[Hc|[]]]; injection Hc as <- <-; apply repeat_length.
        * intros k Hk. cbn [bt_low bt_high empty_table a_val]. split; [apply but_last_nth; lia|]. destruct edges; auto. destruct k; auto.
      + intros k Hk. split; [cbn; apply nth_error_repeat; auto|]. split; eexists; (split; [reflexivity|apply nth_error_repeat; auto]).
  Qed.
End Energy.
Lemma energy_no_units events bins energy_type bf rf trues recos : getitem events "true_energy" = Some (mkArr trues None) -> getitem events "reco_energy" = Some (mkArr recos None) ->
  energy_bias_resolution events bins energy_type bf rf = Err AttributeError.
Proof. intros H1 H2. unfold energy_bias_resolution, get_column. rewrite H1, H2. auto. Qed.

(** *** consequences *)
Lemma resolution_nonneg lower upper sel b r : 0 <= lower <= upper -> bias_and_resolution lower upper sel b (Fin r) -> 0 <= r.
Proof.
  intros Hlu H. destruct sel as [|s sel]; [destruct H; discriminate|]. destruct H as (m & lo & hi & _ & E & _ & Hlo & Hhi). injection E as ->.
  assert (lo <= hi) by (eapply (lp_mono (s :: sel) (100 * lower) (100 * upper)); eauto; lra). lra.
Qed.
Lemma bias_in_range lower upper sel b r : bias_and_resolution lower upper sel (Fin b) r -> exists lo hi, In lo sel /\ In hi sel /\ lo <= b <= hi.
Proof. intros H. destruct sel as [|s sel]; [destruct H; discriminate|]. destruct H as (m & lo & hi & E & _ & Hm & _). injection E as ->. eapply lp_bounds; eauto. Qed.
Lemma resolution_bounded lower upper sel b r : bias_and_resolution lower upper sel b (Fin r) -> exists lo hi, In lo sel /\ In hi sel /\ 2 * r <= hi - lo.
Proof.
  intros H. destruct sel as [|s sel]; [destruct H; discriminate|]. destruct H as (m & lo & hi & _ & E & _ & Hlo & Hhi). injection E as ->.
  destruct (lp_bounds _ _ _ Hlo) as (a & _ & Ha & _ & Ha' & _). destruct (lp_bounds _ _ _ Hhi) as (_ & d & _ & Hd & _ & Hd'). exists a, d. repeat split; auto. lra.
Qed.
(** exact reconstruction: no bias, resolution zero *)
Lemma bias_exact lower upper sel e b r : sel <> [] -> (forall x, In x sel -> x = e) -> bias_and_resolution lower upper sel b r -> b = Fin e /\ r = Fin 0.
Proof.
  intros Hne He H. destruct sel as [|s sel]; [congruence|]. destruct H as (m & lo & hi & -> & -> & Hm & Hlo & Hhi).
  assert (A : forall p c, linear_percentile (s :: sel) p c -> c = e).
  { intros p c Hc. destruct (lp_bounds _ _ _ Hc) as (x & y & Hx & Hy & H). rewrite (He x Hx), (He y Hy) in H. lra. }
  rewrite (A _ _ Hm), (A _ _ Hlo), (A _ _ Hhi). split; f_equal. lra.
Qed.
Lemma lp_affine vals p x c d : 0 < c -> linear_percentile vals p x -> linear_percentile (map (fun v => c * v + d) vals) p (c * x + d).
Proof.
  intros Hc (s & i & a & Hp & Hs & Ha & H). exists (map (fun v => c * v + d) s), i, (c * a + d). split; [apply Permutation_map; auto|]. split.
  - intros j y z Hy Hz. apply map_nth_inv in Hy. apply map_nth_inv in Hz. destruct Hy as (y' & Hy' & ->). destruct Hz as (z' & Hz' & ->). pose proof (Hs j y' z' Hy' Hz'). assert (c * y' <= c * z') by (apply Rmult_le_compat_l; lra). lra.
  - split; [rewrite nth_error_map, Ha; auto|]. rewrite map_length. destruct H as [(E & ->)|(b & Hb & Hi & ->)]; [left; auto|]. right. exists (c * b + d). split; [rewrite nth_error_map, Hb; auto|]. split; auto. ring.
Qed.
Lemma lp_unique vals p x y : 0 <= p -> linear_percentile vals p x -> linear_percentile vals p y -> x = y.
Proof. intros Hp H1 H2. apply Rle_antisym; [eapply (lp_mono vals p p x y)|eapply (lp_mono vals p p y x)]; auto; lra. Qed.
Lemma bias_scaling lower upper c sel b r b' r' : 0 < c -> 0 <= lower -> 0 <= upper ->
  bias_and_resolution lower upper sel (Fin b) (Fin r) -> bias_and_resolution lower upper (map (fun e => c * (1 + e) - 1) sel) (Fin b') (Fin r') ->
  1 + b' = c * (1 + b) /\ r' = c * r.
Proof.
  intros Hc Hl Hu H H'. destruct sel as [|s sel]; [destruct H; discriminate|]. destruct H as (m & lo & hi & Eb & Er & Hm & Hlo & Hhi). injection Eb as ->. injection Er as ->.
  assert (M : map (fun e => c * (1 + e) - 1) (s :: sel) = map (fun e => c * e + (c - 1)) (s :: sel)) by (apply map_ext; intros; ring). rewrite M in H'. clear M.
  destruct H' as (m' & lo' & hi' & Eb & Er & Hm' & Hlo' & Hhi'). injection Eb as ->. injection Er as ->. cbn [map] in *.
  rewrite (lp_unique _ 50 _ _ ltac:(lra) Hm' (lp_affine _ _ _ c (c - 1) Hc Hm)), (lp_unique _ (100 * lower) _ _ ltac:(lra) Hlo' (lp_affine _ _ _ c (c - 1) Hc Hlo)), (lp_unique _ (100 * upper) _ _ ltac:(lra) Hhi' (lp_affine _ _ _ c (c - 1) Hc Hhi)). split; field.
Qed.
Lemma rel_errors_scale ur ut c rs ts es : rel_errors ur ut rs ts es -> 0 < u_scale ut ->
  rel_errors ur ut (map (fun r => match r with Fin x => Fin (c * x) | _ => r end) rs) ts (map (fun e => c * (1 + e) - 1) es).
Proof. intros H Hu. induction H as [|r t rs ts es e Ht He H IH]; cbn; constructor; auto. rewrite He. field. split; lra. Qed.
(** the alternative resolution *)
Lemma absolute_68_spec coverage sel : 0 <= coverage <= 1 -> exists c, energy_resolution_absolute_68 coverage (map Fin sel) = Ok c /\
  match sel with [] => c = NaN | _ => exists r, c = Fin r /\ 0 <= r /\ linear_percentile (map Rabs sel) (100 * coverage) r end.
Proof.
  intros Hc. unfold energy_resolution_absolute_68. replace (map nabs (map Fin sel)) with (map Fin (map Rabs sel)) by (rewrite !map_map; auto).
  destruct (nanquantile_doc (map Fin (map Rabs sel)) coverage Hc) as (c & E & D). exists c. split; auto. specialize (D _ (finite_part_map _)). destruct sel as [|s sel]; auto. cbn [map] in D.
  destruct D as (r & -> & L). exists r. split; auto. split; auto. destruct (lp_bounds _ _ _ L) as (lo & hi & Hlo & _ & H & _). change (Rabs s :: map Rabs sel) with (map Rabs (s :: sel)) in Hlo. apply in_map_iff in Hlo. destruct Hlo as (y & <- & _). pose proof (Rabs_pos y). lra.
Qed.
