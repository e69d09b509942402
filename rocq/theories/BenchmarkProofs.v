(** * Proofs about pyirf/benchmarks *)
From Coq Require Import String Ascii Reals List Bool ZArith Arith Lia Lra Permutation Sorting.Sorted DecimalString DecimalNat.
From Verif Require Import Num Numpy Sort Table Binning SpecBinning BinningProofs Lists Percentile Cuts SpecCuts PercentileProofs CutsProofs CutsProofs2 SpecIRF IRFProofs Quantile QuantileProofs2 QuantileProofs3 Benchmarks SpecBenchmarks.
Import ListNotations.
Open Scope R_scope.

(** *** columns *)
Lemma setitem_names {A} (t : list (string * A)) k c : In k (map fst t) -> map fst (setitem t k c) = map fst t.
Proof.
  induction t as [|(k', c') t IH]; cbn; [contradiction|]. intros [->|H]; [rewrite String.eqb_refl; auto|]. destruct (String.eqb_spec k k') as [->|]; auto. cbn. rewrite IH; auto.
Qed.
Lemma getitem_in {A} (t : list (string * A)) k : In k (map fst t) -> exists c, getitem t k = Some c.
Proof.
  induction t as [|(k', c') t IH]; cbn; [contradiction|]. intros H. destruct (String.eqb_spec k k'); [eauto|]. apply IH. destruct H as [->|]; [congruence|auto].
Qed.
Lemma getitem_In {A} (t : list (string * A)) k c : getitem t k = Some c -> In (k, c) t.
Proof. induction t as [|(k', c') t IH]; cbn; [discriminate|]. destruct (String.eqb_spec k k') as [->|]; [intros E; injection E as ->; auto|auto]. Qed.
Lemma in_getitem {A} (t : list (string * A)) k c : NoDup (map fst t) -> In (k, c) t -> getitem t k = Some c.
Proof.
  induction t as [|(k', c') t IH]; cbn; [contradiction|]. intros Hn [E|H].
  - injection E as -> ->. rewrite String.eqb_refl. auto.
  - inversion Hn; subst. destruct (String.eqb_spec k k') as [->|]; [|auto]. exfalso. apply H2. apply (in_map fst) in H. auto.
Qed.
Lemma setitem_new {A} (t : list (string * A)) k c : ~ In k (map fst t) -> setitem t k c = t ++ [(k, c)].
Proof.
  induction t as [|(k', c') t IH]; cbn; auto. intros H. destruct (String.eqb_spec k k') as [->|]; [exfalso; auto|]. rewrite IH; auto.
Qed.
Lemma init_columns {A} (x : A) names : NoDup names -> forall t, (forall k, In k names -> ~ In k (map fst t)) ->
  fold_left (fun t k => setitem t k x) names t = t ++ map (fun k => (k, x)) names.
Proof.
  induction 1 as [|k names Hk Hn IH]; intros t Ht; cbn; [rewrite app_nil_r; auto|]. rewrite setitem_new by (apply Ht; left; auto). rewrite IH.
  - rewrite <- app_assoc. auto.
  - intros q Hq. rewrite map_app. cbn. rewrite in_app_iff. intros [H|[H|[]]]; [eapply Ht; eauto; right; auto|subst; auto].
Qed.
Lemma set_all k : forall names vs cs, NoDup names -> length vs = length names -> (forall nm, In nm names -> In nm (map fst cs)) ->
  let cs' := fold_left (fun c nv => set_entry c (fst nv) k (snd nv)) (combine names vs) cs in
  map fst cs' = map fst cs /\
  (forall nm, ~ In nm names -> getitem cs' nm = getitem cs nm) /\
  (forall j nm v c, nth_error names j = Some nm -> nth_error vs j = Some v -> getitem cs nm = Some c -> getitem cs' nm = Some (list_set c k v)).
Proof.
  induction names as [|nm names IH]; intros [|v vs] cs Hnd Hl Hin; cbn in Hl; try lia.
  - cbn. repeat split; auto. intros [|j]; discriminate.
  - inversion Hnd; subst. cbn [combine fold_left fst snd]. destruct (getitem_in cs nm (Hin nm (or_introl eq_refl))) as (c0 & Hc0).
    assert (E : set_entry cs nm k v = setitem cs nm (list_set c0 k v)) by (unfold set_entry; rewrite Hc0; auto). rewrite E.
    assert (N : map fst (setitem cs nm (list_set c0 k v)) = map fst cs) by (apply setitem_names, Hin; left; auto).
    destruct (IH vs (setitem cs nm (list_set c0 k v)) H2 ltac:(lia)) as (I1 & I2 & I3); [intros q Hq; rewrite N; apply Hin; right; auto|].
    split; [rewrite I1; auto|]. split.
    + intros q Hq. rewrite I2 by (intros X; apply Hq; right; auto). apply getitem_setitem_neq. intros ->. apply Hq. left; auto.
    + intros [|j] q w c Hq Hw Hc; cbn in Hq, Hw.
      * injection Hq as <-. injection Hw as <-. rewrite I2 by auto. rewrite getitem_setitem_eq. congruence.
      * eapply I3; eauto. rewrite getitem_setitem_neq; auto. intros ->. apply H1. eapply nth_error_In; eauto.
Qed.
(** *** the loop over the groups *)
Lemma fill_ok names f values idx valid : NoDup names -> forall keys t,
  NoDup keys -> (forall k, In k keys -> (0 <= k < Z.of_nat (length (bt_n_events t)))%Z) ->
  map fst (bt_cols t) = names -> (forall nm c, In (nm, c) (bt_cols t) -> length c = length (bt_n_events t)) ->
  (forall k, In k keys -> exists vs, f (bin_group values idx valid k) = Ok vs /\ length vs = length names) ->
  exists t', fill_bins names f values idx valid keys t = Ok t' /\ bt_low t' = bt_low t /\ bt_high t' = bt_high t /\ bt_center t' = bt_center t /\ bt_unit t' = bt_unit t /\
    length (bt_n_events t') = length (bt_n_events t) /\ map fst (bt_cols t') = names /\ (forall nm c, In (nm, c) (bt_cols t') -> length c = length (bt_n_events t)) /\
    (forall k, In (Z.of_nat k) keys ->
       nth_error (bt_n_events t') k = Some (Z.of_nat (length (bin_group values idx valid (Z.of_nat k)))) /\
       exists vs, f (bin_group values idx valid (Z.of_nat k)) = Ok vs /\ forall j nm v, nth_error names j = Some nm -> nth_error vs j = Some v -> cell t' nm k v) /\
    (forall k, ~ In (Z.of_nat k) keys -> nth_error (bt_n_events t') k = nth_error (bt_n_events t) k /\ forall nm v, cell t nm k v -> cell t' nm k v).
Proof.
  intros Hnn. induction keys as [|z keys IH]; intros t Hnd Hr Hcol Hlen Hg.
  - exists t. cbn [fill_bins]. repeat split; auto. contradiction. contradiction.
  - inversion_clear Hnd as [|? ? Hnin Hnd']. destruct (Hg z (or_introl eq_refl)) as (vs & Hvs & Lvs). pose proof (Hr z (or_introl eq_refl)) as Hz.
    cbn [fill_bins]. rewrite Hvs. cbn [rbind].
    set (t1 := mkBench _ _ _ _ _ _). destruct (set_all (Z.to_nat z) names vs (bt_cols t) Hnn Lvs ltac:(rewrite Hcol; auto)) as (S1 & S2 & S3).
    assert (Hc1 : map fst (bt_cols t1) = names) by (cbn; rewrite S1; auto).
    assert (Hl1 : length (bt_n_events t1) = length (bt_n_events t)) by (cbn; apply list_set_length).
    assert (Hlen1 : forall nm c, In (nm, c) (bt_cols t1) -> length c = length (bt_n_events t1)).
    { intros nm c Hin. rewrite Hl1. pose proof (in_getitem _ _ _ (eq_ind_r (@NoDup string) Hnn Hc1) Hin) as Hget.
      assert (Hnm : In nm names) by (rewrite <- Hc1; apply (in_map fst) in Hin; auto). apply In_nth_error in Hnm. destruct Hnm as (j & Hj). destruct (nth_some_ex vs j) as (v & Hv); [rewrite Lvs; eapply nth_some_lt; eauto|].
      destruct (getitem_in (bt_cols t) nm) as (c0 & Hc0); [rewrite Hcol; eapply nth_error_In; eauto|]. cbn in Hget. rewrite (S3 j nm v c0 Hj Hv Hc0) in Hget. injection Hget as <-. rewrite list_set_length. eapply Hlen. apply getitem_In; eauto. }
    destruct (IH t1 Hnd' ltac:(intros k Hk; rewrite Hl1; apply Hr; right; auto) Hc1 Hlen1 ltac:(intros k Hk; apply Hg; right; auto)) as (t' & E & A1 & A2 & A3 & A4 & A5 & A6 & A7 & A8 & A9).
    exists t'. split; [exact E|]. split; [exact A1|]. split; [exact A2|]. split; [exact A3|]. split; [exact A4|]. split; [rewrite A5; auto|]. split; [auto|]. split; [intros nm c Hnc; rewrite <- Hl1; eauto|]. split.
    + intros k [Hk|Hk]; [|apply A8; auto]. subst z. destruct (A9 k Hnin) as (B1 & B2). split.
      * rewrite B1. cbn [bt_n_events t1]. rewrite Nat2Z.id. apply list_set_eq. lia.
      * exists vs. split; auto. intros j nm v Hj Hv. apply B2. destruct (getitem_in (bt_cols t) nm) as (c0 & Hc0); [rewrite Hcol; eapply nth_error_In; eauto|].
        exists (list_set c0 k v). split; [cbn [bt_cols t1]; rewrite (S3 j nm v c0 Hj Hv Hc0), Nat2Z.id; auto|]. apply list_set_eq. rewrite (Hlen nm c0) by (apply getitem_In; auto). lia.
    + intros k Hk. assert (Hne : Z.to_nat z <> k) by (intros <-; apply Hk; left; rewrite Z2Nat.id; lia). destruct (A9 k) as (B1 & B2); [intros X; apply Hk; right; auto|]. split.
      * rewrite B1. cbn [bt_n_events t1]. apply list_set_neq; auto.
      * intros nm v (c & Hc & Hv). apply B2. assert (Hnm : In nm names) by (rewrite <- Hcol; apply getitem_In in Hc; apply (in_map fst) in Hc; auto).
        apply In_nth_error in Hnm. destruct Hnm as (j & Hj). destruct (nth_some_ex vs j) as (w & Hw); [rewrite Lvs; eapply nth_some_lt; eauto|].
        exists (list_set c (Z.to_nat z) w). split; [cbn [bt_cols t1]; apply (S3 j nm w c Hj Hw Hc)|]. rewrite list_set_neq; auto.
Qed.
Lemma same_unit u xs edges : 0 < u_scale u -> calculate_bin_indices (mkArr xs (Some u)) (mkArr edges (Some u)) = calculate_bin_indices (mkArr xs None) (mkArr edges None).
Proof. intros H. unfold calculate_bin_indices, to_value. cbn [a_unit a_val]. rewrite Nat.eqb_refl. cbn [rbind]. rewrite !map_convert_same by auto. auto. Qed.

(** *** all bins of the result; [f]: the values of a group *)
Lemma bins_ok names f values xs edges u : NoDup names -> nondecreasing edges -> (2 <= length edges)%nat -> length values = length xs -> 0 < u_scale u ->
  (forall g, exists vs, f g = Ok vs /\ length vs = length names) -> (exists x k, In x xs /\ in_bin edges k x) ->
  exists iv t, calculate_bin_indices (mkArr xs (Some u)) (mkArr edges (Some u)) = Ok iv /\
    group_and_fill names f values iv (empty_table (mkArr edges (Some u)) names) = Ok t /\ table_of edges names t /\
    forall k sel, (k < length edges - 1)%nat -> picks (in_bin edges k) xs values sel ->
      nth_error (bt_n_events t) k = Some (Z.of_nat (length sel)) /\
      match sel with [] => forall nm, In nm names -> cell t nm k NaN
      | _ => exists vs, f sel = Ok vs /\ forall j nm v, nth_error names j = Some nm -> nth_error vs j = Some v -> cell t nm k v end.
Proof.
  intros Hnn Hnd Hlen Hl Hu Hf (x0 & k0 & Hx0 & Hk0).
  destruct (bin_indices_inc xs edges Hnd ltac:(destruct edges; simpl in *; [lia|discriminate])) as (idx & valid & E & L1 & L2 & Ho).
  set (t0 := empty_table (mkArr edges (Some u)) names).
  assert (C0 : bt_cols t0 = map (fun k => (k, repeat NaN (length edges - 1))) names) by (unfold t0, empty_table; cbn [bt_cols a_val]; rewrite init_columns; auto).
  assert (N0 : map fst (bt_cols t0) = names) by (rewrite C0, map_map; cbn; apply map_id).
  assert (L0 : length (bt_n_events t0) = (length edges - 1)%nat) by (cbn; apply repeat_length).
  destruct (fill_ok names f values idx valid Hnn (bin_keys idx valid) t0) as (t & Et & A1 & A2 & A3 & A4 & A5 & A6 & A7 & A8 & A9); auto.
  - apply bin_keys_nodup.
  - intros k Hk. rewrite L0. apply bin_keys_in in Hk. apply in_combine_nth in Hk. destruct Hk as (i & Hi1 & Hi2).
    destruct (nth_error_ex xs i) as [x Hx]; [rewrite <- L1; apply nth_error_Some; congruence|].
    destruct (Ho i x Hx) as (z & v & Hz & Hv & Hout). assert (z = k) by congruence. assert (v = true) by congruence. subst z v.
    destruct (outcome_range _ _ _ Hout) as (j & -> & _ & Hj). lia.
  - intros nm c Hc. rewrite L0. rewrite C0 in Hc. apply in_map_iff in Hc. destruct Hc as (q & Eq & _). injection Eq as <- <-. apply repeat_length.
  - assert (Hex : existsb (fun b : bool => b) valid = true).
    { apply existsb_exists. exists true. split; auto. apply In_nth_error in Hx0. destruct Hx0 as [i Hi].
      destruct (Ho i x0 Hi) as (z & v & _ & Hv & Hout').
      destruct (bin_outcome_functional edges x0 z v (Z.of_nat k0) true Hnd Hout' (inside edges x0 k0 Hk0)) as [_ ->].
      eapply nth_error_In; eauto. }
    exists (idx, valid), t. split; [rewrite same_unit; auto|]. split; [unfold group_and_fill; cbn [fst snd]; rewrite Hex; exact Et|]. rewrite L0 in A5, A7. split.
    + repeat split; auto.
      * rewrite A1. cbn. rewrite but_last_length. auto.
      * rewrite A2. cbn. destruct edges; cbn; lia.
      * rewrite A1. cbn [bt_low t0 empty_table a_val]. apply but_last_nth; lia.
      * rewrite A2. cbn [bt_high t0 empty_table a_val]. destruct edges; auto. destruct k; auto.
    + intros k sel Hk Hs. assert (Hg : bin_group values idx valid (Z.of_nat k) = sel) by (apply (bin_group_picks edges values xs); auto). destruct sel as [|s sel].
      * assert (Hn : ~ In (Z.of_nat k) (bin_keys idx valid)). { rewrite bin_keys_in, <- (bin_group_in values); [|lia|lia]. rewrite Hg. congruence. }
        destruct (A9 k Hn) as [E1 E2]. split; [rewrite E1; cbn; apply nth_error_repeat; auto|]. intros nm Hnm. apply E2. exists (repeat NaN (length edges - 1)). split; [|apply nth_error_repeat; auto].
        apply in_getitem; [rewrite N0; auto|]. rewrite C0. apply in_map_iff. eauto.
      * assert (Hn : In (Z.of_nat k) (bin_keys idx valid)). { rewrite bin_keys_in, <- (bin_group_in values); [|lia|lia]. rewrite Hg. discriminate. }
        destruct (A8 k Hn) as (E1 & vs & E2 & E3). rewrite Hg in *. split; auto. exists vs. split; auto.
Qed.
Lemma nothing_in_bins names f values xs edges u t : nondecreasing edges -> (2 <= length edges)%nat -> 0 < u_scale u ->
  ~ (exists x k, In x xs /\ in_bin edges k x) -> exists iv, calculate_bin_indices (mkArr xs (Some u)) (mkArr edges (Some u)) = Ok iv /\
  group_and_fill names f values iv t = Err IndexError.
Proof.
  intros Hnd Hlen Hu Hno. destruct (bin_indices_inc xs edges Hnd ltac:(destruct edges; simpl in *; [lia|discriminate])) as (idx & valid & E & L1 & L2 & Ho).
  exists (idx, valid). split; [rewrite same_unit; auto|]. unfold group_and_fill. cbn [snd].
  assert (existsb (fun b : bool => b) valid = false); [|rewrite H; auto]. apply not_true_is_false. intros H. apply existsb_exists in H. destruct H as (b & Hb & ->).
  apply In_nth_error in Hb. destruct Hb as (i & Hi). destruct (nth_some_ex xs i) as (x & Hx); [rewrite <- L2; eapply nth_some_lt; eauto|].
  destruct (Ho i x Hx) as (z & v & _ & Hv & Hout). assert (v = true) by congruence. subst v. destruct (outcome_range _ _ _ Hout) as (j & _ & Hj & _). apply Hno. exists x, j. split; [eapply nth_error_In; eauto|]. auto.
Qed.
