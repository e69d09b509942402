(** * Proofs about pyirf/benchmarks/angular_resolution.py *)
From Coq Require Import String Ascii Reals List Bool ZArith Arith Lia Lra Permutation Sorting.Sorted DecimalString DecimalNat.
From Verif Require Import Num Numpy Sort Table Binning SpecBinning BinningProofs Lists Percentile Cuts SpecCuts PercentileProofs CutsProofs CutsProofs2 SpecIRF IRFProofs Quantile QuantileProofs2 QuantileProofs3 Benchmarks SpecBenchmarks BenchmarkProofs.
Import ListNotations.
Open Scope R_scope.

Lemma nanquantile_doc g q : 0 <= q <= 1 -> exists c, nanquantile g q = Ok c /\ documented_quantile g q c.
Proof.
  intros Hq. assert (O : exists c, nanquantile g q = Ok c).
  { unfold nanquantile, nanpercentile. destruct (Rltb_spec (100 * q) 0); [lra|]. destruct (Rltb_spec 100 (100 * q)); [lra|]. cbn [orb]. destruct (drop_nan g); eauto. }
  destruct O as (c & Hc). exists c. split; auto. intros rs Hf. destruct (nanpercentile_spec g rs (100 * q) Hf ltac:(lra)) as (raw & E & H). unfold nanquantile in Hc. rewrite Hc in E. injection E as <-. auto.
Qed.
Lemma quantiles_ok g qs : (forall q, In q qs -> 0 <= q <= 1) -> exists vs, rmap (nanquantile g) qs = Ok vs /\ length vs = length qs /\
  forall j q v, nth_error qs j = Some q -> nth_error vs j = Some v -> documented_quantile g q v.
Proof.
  induction qs as [|q qs IH]; intros H.
  - exists []. cbn. repeat split; auto. intros [|j]; discriminate.
  - destruct (nanquantile_doc g q (H q (or_introl eq_refl))) as (c & Hc & Hd). destruct IH as (vs & E & L & Hv); [intros x Hx; apply H; right; auto|].
    exists (c :: vs). cbn [rmap]. rewrite Hc. cbn [rbind]. rewrite E. cbn [rbind length]. repeat split; auto.
    intros [|j] q' v Hq' Hv'; cbn in Hq', Hv'; [injection Hq' as <-; injection Hv' as <-; auto|eauto].
Qed.
Lemma doc_nil q c : documented_quantile [] q c -> c = NaN.
Proof. intros H. exact (H [] fp_nil). Qed.
Lemma doc_nil' q : documented_quantile [] q NaN.
Proof. intros rs H. inversion H; subst. auto. Qed.

Section Resolution.
  Context (events : columns) (energy_type : string) (xs thetas : list num) (u : unit_) (tu : option unit_) (edges : list num).
  Hypothesis He : getitem events (energy_type ++ "_energy") = Some (mkArr xs (Some u)).
  Hypothesis Ht : getitem events "theta" = Some (mkArr thetas tu).
  Hypothesis Hrows : n_rows events = length xs.
  Hypothesis Hlen : length thetas = length xs.
  Hypothesis Hu : 0 < u_scale u.
  Hypothesis Hnd : nondecreasing edges.
  Hypothesis H2 : (2 <= length edges)%nat.

  Lemma resolution_values qs : (forall q, In q qs -> 0 <= q <= 1) -> NoDup (map column_name qs) ->
    (exists x k, In x xs /\ in_bin edges k x) ->
    exists t, angular_resolution events (mkArr edges (Some u)) energy_type (QSeq qs) = Ok t /\ table_of edges (map column_name qs) t /\
      forall k sel, (k < length edges - 1)%nat -> picks (in_bin edges k) xs thetas sel ->
        nth_error (bt_n_events t) k = Some (Z.of_nat (length sel)) /\
        forall q, In q qs -> exists c, cell t (column_name q) k c /\ documented_quantile sel q c.
  Proof.
    intros Hq Hnn Hex.
    destruct (bins_ok (map column_name qs) (fun g => rmap (nanquantile g) qs) thetas xs edges u Hnn Hnd H2 Hlen Hu) as (iv & t & E1 & E2 & Htab & Hk); auto.
    - intros g. destruct (quantiles_ok g qs Hq) as (vs & E & L & _). exists vs. rewrite map_length. auto.
    - exists t. split.
      + unfold angular_resolution, get_column. rewrite He, Ht. cbn [rbind]. rewrite E1. cbn [rbind]. destruct Hex as (x & k & Hx & _).
        destruct (Nat.eqb_spec (n_rows events) 0); [|exact E2]. rewrite Hrows in e. destruct xs; [contradiction|discriminate].
      + split; auto. intros k sel Hlt Hp. destruct (Hk k sel Hlt Hp) as (N & C). split; auto. intros q Hin. apply In_nth_error in Hin. destruct Hin as (j & Hj). destruct sel as [|s sel].
        * exists NaN. split; [apply C; apply in_map; eapply nth_error_In; eauto|apply doc_nil'].
        * destruct C as (vs & Ev & Hc). destruct (quantiles_ok (s :: sel) qs Hq) as (vs' & E & L & Hd). rewrite E in Ev. injection Ev as <-.
          destruct (nth_some_ex vs' j) as (v & Hv); [rewrite L; eapply nth_some_lt; eauto|]. exists v. split; [|eauto]. eapply Hc; [|eauto]. rewrite nth_error_map, Hj. auto.
  Qed.
  Lemma resolution_scalar q : angular_resolution events (mkArr edges (Some u)) energy_type (QScalar q) = angular_resolution events (mkArr edges (Some u)) energy_type (QSeq [q]).
  Proof using. auto. Qed.
  Lemma resolution_none qs : ~ (exists x k, In x xs /\ in_bin edges k x) -> xs <> [] ->
    angular_resolution events (mkArr edges (Some u)) energy_type (QSeq qs) = Err IndexError.
  Proof.
    intros Hno Hne. destruct (nothing_in_bins (map column_name qs) (fun g => rmap (nanquantile g) qs) thetas xs edges u (empty_table (mkArr edges (Some u)) (map column_name qs)) Hnd H2 Hu Hno) as (iv & E1 & E2).
    unfold angular_resolution, get_column. rewrite He, Ht. cbn [rbind]. rewrite E1. cbn [rbind].
    destruct (Nat.eqb_spec (n_rows events) 0); [|exact E2]. rewrite Hrows in e. destruct xs; [congruence|discriminate].
  Qed.
  Lemma bins_defined : exists iv, calculate_bin_indices (mkArr xs (Some u)) (mkArr edges (Some u)) = Ok iv.
  Proof using Hnd H2 Hu. assert (Hne : edges <> []) by (intros E; clear -H2 E; rewrite E in H2; cbn in H2; lia). destruct (bin_indices_inc xs edges Hnd Hne) as (idx & valid & E & _). exists (idx, valid). rewrite same_unit; auto. Qed.
  Lemma resolution_array qs : angular_resolution events (mkArr edges (Some u)) energy_type (QArray qs) = Err TypeError.
  Proof. destruct bins_defined as (iv & E). unfold angular_resolution, get_column. rewrite He, Ht. cbn [rbind]. rewrite E. auto. Qed.
  Lemma resolution_empty qs : xs = [] -> NoDup (map column_name qs) ->
    exists t, angular_resolution events (mkArr edges (Some u)) energy_type (QSeq qs) = Ok t /\ table_of edges (map column_name qs) t /\
      forall k, (k < length edges - 1)%nat -> nth_error (bt_n_events t) k = Some 0%Z /\ forall q, In q qs -> cell t (column_name q) k NaN.
  Proof.
    intros H0 Hnn. destruct bins_defined as (iv & E). exists (empty_table (mkArr edges (Some u)) (map column_name qs)). split.
    - unfold angular_resolution, get_column. rewrite He, Ht. cbn [rbind]. rewrite E. cbn [rbind]. rewrite Hrows, H0. auto.
    - assert (C0 : bt_cols (empty_table (mkArr edges (Some u)) (map column_name qs)) = map (fun k => (k, repeat NaN (length edges - 1))) (map column_name qs)) by (unfold empty_table; cbn [bt_cols a_val]; rewrite init_columns; auto).
      assert (N0 : map fst (bt_cols (empty_table (mkArr edges (Some u)) (map column_name qs))) = map column_name qs) by (rewrite C0, map_map; cbn; apply map_id).
      split.
      + split; [cbn; apply repeat_length|]. split; [auto|]. split; [|split; [cbn; apply but_last_length|split; [cbn; destruct edges; cbn; lia|]]].
        * intros nm c Hc. rewrite C0 in Hc. apply in_map_iff in Hc. destruct Hc as (q & Eq & _). injection Eq as <- <-. apply repeat_length.
        * intros k Hk. cbn [bt_low bt_high empty_table a_val]. split; [apply but_last_nth; lia|]. destruct edges; auto. destruct k; auto.
      + intros k Hk. split; [cbn; apply nth_error_repeat; auto|]. intros q Hq. exists (repeat NaN (length edges - 1)). split; [|apply nth_error_repeat; auto].
        apply in_getitem; [rewrite N0; auto|]. rewrite C0. apply in_map_iff. exists (column_name q). split; auto. apply in_map; auto.
  Qed.
End Resolution.
Lemma resolution_missing events bins energy_type q : getitem events (energy_type ++ "_energy") = None \/ getitem events "theta" = None ->
  angular_resolution events bins energy_type q = Err KeyError.
Proof.
  unfold angular_resolution, get_column. intros [-> | H]; auto. rewrite H. destruct (getitem events (energy_type ++ "_energy")); auto.
Qed.
(** monotone in the quantile *)
Lemma quantile_mono sel q1 q2 c1 c2 rs : 0 <= q1 -> q1 <= q2 -> documented_quantile sel q1 (Fin c1) -> documented_quantile sel q2 (Fin c2) -> finite_part sel rs -> c1 <= c2.
Proof.
  intros H1 H2 D1 D2 Hf. pose proof (D1 rs Hf) as A. pose proof (D2 rs Hf) as B. destruct rs as [|r rs]; [discriminate|].
  destruct A as (a & Ea & La). destruct B as (b & Eb & Lb). injection Ea as ->. injection Eb as ->. eapply lp_mono; [| |exact La|exact Lb]; lra.
Qed.

(** *** the names of the columns *)
Lemma Rfloor_unique x z : IZR z <= x < IZR z + 1 -> Rfloor x = z.
Proof.
  intros H. pose proof (Rfloor_spec x) as F. assert (IZR (Rfloor x) < IZR (z + 1)) by (rewrite plus_IZR; lra). assert (IZR z < IZR (Rfloor x + 1)) by (rewrite plus_IZR; lra). apply lt_IZR in H0, H1. lia.
Qed.
Lemma rint_near x z : Rabs (x - IZR z) < 1/2 -> rint x = z.
Proof.
  intros H. apply Rabs_def2 in H. unfold rint. destruct (Rle_lt_dec (IZR z) x) as [Hz|Hz].
  - rewrite (Rfloor_unique x z) by lra. destruct (Rltb_spec (x - IZR z) (1/2)); [auto|lra].
  - rewrite (Rfloor_unique x (z - 1)) by (rewrite minus_IZR; lra). rewrite minus_IZR. destruct (Rltb_spec (x - (IZR z - 1)) (1/2)); [lra|]. destruct (Rltb_spec (1/2) (x - (IZR z - 1))); [lia|lra].
Qed.
Lemma rint_close x : Rabs (x - IZR (rint x)) <= 1/2.
Proof.
  pose proof (Rfloor_spec x). unfold rint. apply Rabs_le. destruct (Rltb_spec (x - IZR (Rfloor x)) (1/2)); [lra|]. destruct (Rltb_spec (1/2) (x - IZR (Rfloor x))); [rewrite plus_IZR; lra|].
  destruct (Z.even (Rfloor x)); [lra|rewrite plus_IZR; lra].
Qed.
Lemma rint_nonneg x : 0 <= x -> (0 <= rint x)%Z.
Proof. intros H. pose proof (Rfloor_nonneg x H). unfold rint. destruct (Rltb _ _); [lia|]. destruct (Rltb _ _); [lia|]. destruct (Z.even _); lia. Qed.
Lemma decimal_inj m n : decimal m = decimal n -> m = n.
Proof.
  unfold decimal. intros H. apply Unsigned.to_uint_inj. pose proof (f_equal NilEmpty.uint_of_string H) as E. rewrite !NilEmpty.usu in E. injection E as E. auto.
Qed.
Lemma append_inj p a b : (p ++ a)%string = (p ++ b)%string -> a = b.
Proof. induction p as [|c p IH]; cbn; auto. intros E. injection E as E. auto. Qed.
Lemma column_name_near q n : 0 <= q -> Rabs (100 * q - INR n) < 1/2 -> column_name q = ("angular_resolution_" ++ decimal n)%string.
Proof.
  intros Hq H. unfold column_name, format_0f. destruct (Rltb_spec (q * 100) 0); [lra|]. rewrite (rint_near (q * 100) (Z.of_nat n)); [rewrite Nat2Z.id; auto|]. rewrite <- INR_IZR_INZ. replace (q * 100) with (100 * q) by ring. auto.
Qed.
Lemma column_names_differ q1 q2 : 0 <= q1 -> 0 <= q2 -> 1 < Rabs (100 * q1 - 100 * q2) -> column_name q1 <> column_name q2.
Proof.
  intros H1 H2 H E. unfold column_name in E. apply append_inj in E. unfold format_0f in E. destruct (Rltb_spec (q1 * 100) 0); [lra|]. destruct (Rltb_spec (q2 * 100) 0); [lra|].
  apply decimal_inj in E. pose proof (rint_nonneg (q1 * 100) ltac:(lra)). pose proof (rint_nonneg (q2 * 100) ltac:(lra)). assert (E' : rint (q1 * 100) = rint (q2 * 100)) by lia.
  pose proof (rint_close (q1 * 100)) as A. pose proof (rint_close (q2 * 100)) as B. rewrite E' in A. revert A B H. unfold Rabs. repeat destruct (Rcase_abs _); lra.
Qed.
Lemma column_names_nodup qs : (forall q, In q qs -> 0 <= q) -> (forall i j a b, i <> j -> nth_error qs i = Some a -> nth_error qs j = Some b -> 1 < Rabs (100 * a - 100 * b)) ->
  NoDup (map column_name qs).
Proof.
  intros H0 Hd. apply NoDup_nth_error. intros i j Hi E. rewrite map_length in Hi. destruct (nth_some_ex qs i Hi) as (a & Ha). rewrite !nth_error_map, Ha in E. cbn [option_map] in E.
  destruct (nth_error qs j) as [b|] eqn:Hb; [|discriminate]. cbn [option_map] in E. assert (E2 : column_name a = column_name b) by congruence. clear E. rename E2 into E. destruct (Nat.eq_dec i j) as [|Hne]; auto. exfalso.
  eapply column_names_differ; [| | |exact E]; eauto using nth_error_In.
Qed.
(** two quantiles with the same name: only the last one is left *)
Lemma list_set_twice {A} (l : list A) k a b : list_set (list_set l k a) k b = list_set l k b.
Proof. revert k. induction l as [|x l IH]; intros [|k]; cbn; auto. rewrite IH. auto. Qed.
Lemma setitem_twice {A} (t : list (string * A)) n a b : setitem (setitem t n a) n b = setitem t n b.
Proof. induction t as [|(k, c) t IH]; cbn; [rewrite String.eqb_refl; auto|]. destruct (String.eqb_spec n k); cbn; [subst; rewrite String.eqb_refl; auto|]. destruct (String.eqb_spec n k); [congruence|]. rewrite IH; auto. Qed.
Lemma set_entry_twice cs n k a b : set_entry (set_entry cs n k a) n k b = set_entry cs n k b.
Proof.
  unfold set_entry. destruct (getitem cs n) eqn:E; [|rewrite E; auto]. rewrite getitem_setitem_eq, list_set_twice, setitem_twice. auto.
Qed.
Lemma fill_twice n q1 q2 values idx valid : 0 <= q1 <= 1 -> forall keys t,
  fill_bins [n; n] (fun g => rmap (nanquantile g) [q1; q2]) values idx valid keys t = fill_bins [n] (fun g => rmap (nanquantile g) [q2]) values idx valid keys t.
Proof.
  intros H1. induction keys as [|k keys IH]; intros t; cbn [fill_bins]; auto.
  destruct (nanquantile_doc (bin_group values idx valid k) q1 H1) as (c & Hc & _). cbn [rmap]. rewrite Hc. cbn [rbind].
  destruct (nanquantile (bin_group values idx valid k) q2) as [v|e]; cbn [rbind]; auto. cbn [combine fold_left fst snd]. rewrite set_entry_twice. apply IH.
Qed.
Lemma resolution_same_name events bins energy_type q1 q2 : 0 <= q1 <= 1 -> column_name q1 = column_name q2 ->
  angular_resolution events bins energy_type (QSeq [q1; q2]) = angular_resolution events bins energy_type (QSeq [q2]).
Proof.
  intros H1 E. unfold angular_resolution. destruct (get_column events (energy_type ++ "_energy")) as [en|]; cbn [rbind]; auto. destruct (get_column events "theta") as [th|]; cbn [rbind]; auto.
  destruct (calculate_bin_indices en bins) as [iv|]; cbn [rbind]; auto. cbn [map]. rewrite E. assert (ET : empty_table bins [column_name q2; column_name q2] = empty_table bins [column_name q2]) by (unfold empty_table; cbn [fold_left]; rewrite setitem_twice; auto).
  rewrite ET. destruct (Nat.eqb _ _); auto. unfold group_and_fill. destruct (existsb _ _); auto. apply fill_twice; auto.
Qed.
