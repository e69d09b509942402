(** * CutsProofs2: evaluation of cuts, comparison, smoothing, units *)
From Coq Require Import String Reals List Bool ZArith Lia Lra Permutation Sorted.
From Verif Require Import Num Numpy Sort Table Binning SpecBinning BinningProofs HistProofs Percentile Cuts SpecCuts PercentileProofs CutsProofs.
Import ListNotations.
Open Scope R_scope.

(** ** evaluation *)
Lemma np_index_nat {A} (l : list A) k a : nth_error l k = Some a -> np_index l (Z.of_nat k) = Ok a.
Proof.
  intros H. assert (Hk : (k < length l)%nat) by (apply nth_error_Some; congruence).
  unfold np_index. destruct (Z.ltb_spec (Z.of_nat k) 0); [lia|].
  destruct (Z.ltb_spec (Z.of_nat k) 0); [lia|]. destruct (Z.leb_spec (Z.of_nat (length l)) (Z.of_nat k)); [lia|].
  simpl. rewrite Nat2Z.id, H. reflexivity.
Qed.

Lemma eval_rows_ok op cuts edges : nondecreasing edges -> (length edges - 1 <= length cuts)%nat ->
  forall values xs idx valid, length values = length xs -> length idx = length xs -> length valid = length xs ->
  (forall i x, nth_error xs i = Some x -> exists z v, nth_error idx i = Some z /\ nth_error valid i = Some v /\ bin_outcome edges x z v) ->
  exists out, eval_rows op cuts values idx valid = Ok out /\ length out = length xs /\
    forall i v x, nth_error values i = Some v -> nth_error xs i = Some x ->
      (forall k c, in_bin edges k x -> nth_error cuts k = Some c -> nth_error out i = Some (op v c)) /\
      ((forall k, ~ in_bin edges k x) -> nth_error out i = Some false).
Proof.
  intros Hnd Hc. induction values as [|v values IH]; intros [|x xs] [|z idx] [|b valid] H1 H2 H3 Ho; try discriminate.
  - exists []. simpl. repeat split; auto; destruct i; discriminate.
  - destruct (IH xs idx valid) as (out & E & L & H); try (simpl in *; lia).
    { intros i y Hy. apply (Ho (S i)); auto. }
    destruct (Ho 0%nat x eq_refl) as (z' & b' & Ez & Eb & Hout). simpl in Ez, Eb.
    injection Ez as <-. injection Eb as <-. cbn [eval_rows].
    assert (Hr : exists r, (if b then do c <- np_index cuts z; Ok (op v c) else Ok false) = Ok r /\
       (forall k c, in_bin edges k x -> nth_error cuts k = Some c -> r = op v c) /\
       ((forall k, ~ in_bin edges k x) -> r = false)).
    { destruct b.
      - destruct (outcome_range _ _ _ Hout) as (k & -> & Hk & Hlt).
        destruct (nth_error_ex cuts k) as [c Hck]; [lia|]. rewrite (np_index_nat _ _ _ Hck). simpl.
        exists (op v c). split; auto. split.
        + intros k' c' Hk' Hc'. assert (k = k') by (eapply in_bin_unique; eauto). subst. congruence.
        + intros Hn. exfalso. eapply Hn; eauto.
      - exists false. split; auto. split; auto.
        intros k c Hk _.
        destruct (bin_outcome_functional edges x z false (Z.of_nat k) true Hnd Hout (inside edges x k Hk)). discriminate. }
    destruct Hr as (r & Er & Hr1 & Hr2). rewrite Er, E. simpl. exists (r :: out). split; auto. split; [simpl; auto|].
    intros [|i] v' x' Hv Hx; simpl in Hv, Hx; [injection Hv as <-; injection Hx as <-|apply H; auto].
    simpl. split.
    + intros k c Hk Hck. rewrite (Hr1 k c); auto.
    + intros Hn. rewrite Hr2; auto.
Qed.

Lemma rev_last {A} (l : list A) d : l <> [] -> exists t, rev l = last l d :: t.
Proof.
  intros H. exists (rev (removelast l)).
  transitivity (rev (removelast l ++ [last l d])); [f_equal; apply app_removelast_last; auto|apply rev_unit].
Qed.

Lemma table_edges low high : low <> [] -> contiguous low high -> edges_ascend low high ->
  nondecreasing (low ++ [last high NaN]) /\
  forall k x, in_bin (low ++ [last high NaN]) k x <-> in_table_bin low high k x.
Proof.
  intros Hne [Hl Hc] [Hn Ha].
  assert (Hhne : high <> []) by (intros ->; destruct low; [congruence|discriminate]).
  assert (Hlast : nth_error high (length low - 1) = Some (last high NaN)) by (rewrite Hl; apply last_nth_error; auto).
  assert (Hpos : (0 < length low)%nat) by (destruct low; [congruence|simpl; lia]).
  assert (Hhi : forall k b, nth_error high k = Some b <-> ((k < length low)%nat /\ nth_error (low ++ [last high NaN]) (S k) = Some b)).
  { intros k b. split.
    - intros Hb. assert (Hk : (k < length low)%nat) by (rewrite Hl; apply nth_error_Some; congruence). split; auto.
      destruct (Nat.eq_dec (S k) (length low)) as [E|E].
      + rewrite nth_error_app2 by lia. replace (S k - length low)%nat with 0%nat by lia. simpl.
        replace (length low - 1)%nat with k in Hlast by lia. congruence.
      + rewrite nth_error_app1 by lia. destruct (nth_error_ex low (S k)) as [a Ha']; [lia|].
        rewrite Ha'. f_equal. eapply Hc; eauto.
    - intros [Hk Hb]. destruct (nth_error_ex high k) as [b' Hb']; [lia|].
      rewrite Hb'. destruct (Nat.eq_dec (S k) (length low)) as [E|E].
      + rewrite nth_error_app2 in Hb by lia. replace (S k - length low)%nat with 0%nat in Hb by lia. simpl in Hb.
        replace (length low - 1)%nat with k in Hlast by lia. congruence.
      + rewrite nth_error_app1 in Hb by lia. f_equal. symmetry. eapply Hc; eauto. }
  split.
  - split.
    + intros e He. apply in_app_or in He. destruct He as [He|[<-|[]]]; apply Hn; auto. right.
      eapply nth_error_In; eauto.
    + intros i a b Ha' Hb'. assert (Hi : (i < length low)%nat).
      { assert (S i < length (low ++ [last high NaN]))%nat by (apply nth_error_Some; congruence).
        rewrite app_length in H; simpl in H; lia. }
      apply (Ha i); [rewrite nth_error_app1 in Ha' by lia; auto|]. apply Hhi; auto.
  - intros k x. unfold in_bin, in_table_bin. split.
    + intros (a & b & H1 & H2 & H3 & H4). assert (Hk : (k < length low)%nat).
      { assert (S k < length (low ++ [last high NaN]))%nat by (apply nth_error_Some; congruence).
        rewrite app_length in H; simpl in H; lia. }
      exists a, b. repeat split; auto; [rewrite nth_error_app1 in H1 by lia; auto|]. apply Hhi; auto.
    + intros (a & b & H1 & H2 & H3 & H4). exists a, b.
      assert (Hk : (k < length low)%nat) by (apply nth_error_Some; congruence).
      repeat split; auto; [rewrite nth_error_app1 by lia; auto|]. apply Hhi; auto.
Qed.

Lemma c14 values xs low high cuts op : low <> [] -> contiguous low high -> edges_ascend low high ->
  length cuts = length low -> length values = length xs ->
  exists out, evaluate_binned_cut true values (raw xs) low high None cuts op = Ok out /\
    length out = length values /\
    forall i v x, nth_error values i = Some v -> nth_error xs i = Some x ->
      (forall k c, in_table_bin low high k x -> nth_error cuts k = Some c -> nth_error out i = Some (op v c)) /\
      ((forall k, ~ in_table_bin low high k x) -> nth_error out i = Some false).
Proof.
  intros Hne Hc Ha Hlc Hl. destruct (table_edges low high Hne Hc Ha) as [Hnd Hbin].
  assert (Hhne : high <> []) by (destruct Hc as [Hlh _]; intros ->; destruct low; [congruence|discriminate]).
  destruct (rev_last high NaN Hhne) as [tl' Hrev].
  destruct (bin_indices_inc xs (low ++ [last high NaN]) Hnd) as (idx & valid & E & L1 & L2 & Ho).
  { destruct low; discriminate. }
  destruct (eval_rows_ok op cuts (low ++ [last high NaN]) Hnd ltac:(rewrite app_length; simpl; lia)
              values xs idx valid Hl L1 L2 Ho) as (out & Eo & Lo & H).
  exists out. unfold evaluate_binned_cut. cbn [negb]. rewrite Hrev. unfold raw. rewrite E. cbn [rbind fst snd].
  unfold evaluate_binned_cut_by_index. cbn [negb].
  rewrite L1, L2, Hl, Nat.eqb_refl. cbn [negb]. split; [exact Eo|]. split; [lia|].
  intros i v x Hv Hx. destruct (H i v x Hv Hx) as [Ha' Hb']. split.
  - intros k c Hk Hck. apply (Ha' k c); auto. apply Hbin; auto.
  - intros Hn. apply Hb'. intros k Hk. apply (Hn k), Hbin; auto.
Qed.

Lemma c14_by_index q values xs low high cuts op h rest : rev high = h :: rest ->
  evaluate_binned_cut q values xs low high None cuts op =
  (if q then
    match calculate_bin_indices xs (raw (low ++ [h])) with
    | Ok (idx, valid) => evaluate_binned_cut_by_index true values idx valid cuts op
    | Err e => Err e
    end else Err ValueError).
Proof.
  intros Hr. unfold evaluate_binned_cut. destruct q; cbn [negb]; auto. rewrite Hr. unfold raw.
  destruct (calculate_bin_indices xs (mkArr (low ++ [h]) None)) as [[idx valid]|e]; reflexivity.
Qed.

(** invalid rows are False whatever their index says, valid rows use exactly the indexed cut *)
Lemma c14_index values idx valid cuts op :
  length values = length idx -> length valid = length idx ->
  (forall i z, nth_error idx i = Some z -> nth_error valid i = Some true -> (0 <= z < Z.of_nat (length cuts))%Z) ->
  exists out, evaluate_binned_cut_by_index true values idx valid cuts op = Ok out /\ length out = length values /\
    forall i v z b, nth_error values i = Some v -> nth_error idx i = Some z -> nth_error valid i = Some b ->
      (b = false -> nth_error out i = Some false) /\
      (b = true -> forall k c, z = Z.of_nat k -> nth_error cuts k = Some c -> nth_error out i = Some (op v c)).
Proof.
  unfold evaluate_binned_cut_by_index. intros H1 H2 Hr. rewrite H1, H2, Nat.eqb_refl. cbn [negb].
  revert idx valid H1 H2 Hr. induction values as [|v values IH]; intros [|z idx] [|b valid] H1 H2 Hr; try discriminate.
  - exists []. repeat split; auto; destruct i; discriminate.
  - destruct (IH idx valid) as (out & E & L & H); try (simpl in *; lia).
    { intros i z' Hz Hv. apply (Hr (S i)); auto. }
    cbn [eval_rows]. destruct b.
    + pose proof (Hr 0%nat z eq_refl eq_refl) as Hz.
      destruct (nth_error_ex cuts (Z.to_nat z)) as [c Hc]; [lia|].
      pose proof (np_index_nat _ _ _ Hc) as Hi. rewrite Z2Nat.id in Hi by lia. rewrite Hi. simpl. rewrite E. simpl.
      exists (op v c :: out). split; [reflexivity|]. split; [simpl in *; lia|].
      intros [|i] v' z' b' Hv Hz' Hb; simpl in Hv, Hz', Hb.
      * injection Hv as <-; injection Hz' as <-; injection Hb as <-. split; [discriminate|].
        intros _ k c' Ek Hc'. simpl. subst z. rewrite Nat2Z.id in Hc. congruence.
      * apply (H i); auto.
    + rewrite E. simpl. exists (false :: out). split; [reflexivity|]. split; [simpl in *; lia|].
      intros [|i] v' z' b' Hv Hz' Hb; simpl in Hv, Hz', Hb.
      * injection Hb as <-. split; [reflexivity|discriminate].
      * apply (H i); auto.
Qed.

(** a table with a gap: an event in the gap gets the cut of the bin below it *)
Lemma c14_gap : exists low high cuts x,
  edges_ascend low high /\ (forall k, ~ in_table_bin low high k x) /\
  evaluate_binned_cut true [Fin 0] (raw [x]) low high None cuts (fun a b => nle a b) = Ok [true].
Proof.
  exists [Fin 0; Fin 2], [Fin 1; Fin 3], [Fin 0; Fin 0], (Fin (3/2)). split.
  - split.
    + simpl. intuition; subst; reflexivity.
    + intros [|[|k]] a b Ha Hb; simpl in *; try discriminate; try (destruct k; discriminate);
        injection Ha as <-; injection Hb as <-; simpl; rsolve; reflexivity.
  - split.
    + intros [|[|k]] (a & b & Ha & Hb & H1 & H2); simpl in *; try discriminate; try (destruct k; discriminate);
        injection Ha as <-; injection Hb as <-; simpl in *; rcmp; lra.
    + unfold evaluate_binned_cut, raw, calculate_bin_indices, calculate_bin_indices_raw. simpl. unfold bin_index1, digitize1, monotonicity.
      simpl. rsolve. simpl. rsolve. simpl. unfold ngt. simpl. rsolve. simpl. unfold searchsorted_right, count, np_lt. simpl. rsolve. simpl. unfold evaluate_binned_cut_by_index. simpl. rsolve. reflexivity.
Qed.

(** ** compare_irf_cuts *)
Definition no_nan_rows (rows : list (list num)) := forall r x, In r rows -> In x r -> is_nan x = false.
Lemma row_eqb_spec a b : (forall x, In x a -> is_nan x = false) -> (row_eqb a b = true <-> a = b).
Proof.
  intros Hn. unfold row_eqb. split.
  - intros H. apply andb_prop in H. destruct H as [Hl H]. apply Nat.eqb_eq in Hl.
    apply list_eq_nth; auto. intros i x y Hx Hy. rewrite forallb_forall in H.
    specialize (H (x, y) (nth_combine_in _ _ _ _ _ Hx Hy)). simpl in H. apply neqb_eq in H. tauto.
  - intros <-. rewrite Nat.eqb_refl. simpl. apply forallb_forall. intros [x y] Hxy.
    apply in_combine_nth in Hxy. destruct Hxy as (i & H1 & H2). assert (x = y) by congruence. subst. simpl.
    apply neqb_eq. split; auto. apply Hn. eapply nth_error_In; eauto.
Qed.
Lemma rows_differ_spec a b : length a = length b -> no_nan_rows a ->
  exists d, rows_differ a b = Ok d /\ (d = false <-> a = b).
Proof.
  intros Hl Hn. unfold rows_differ. rewrite Hl, Nat.eqb_refl. eexists; split; [reflexivity|]. split.
  - intros H. apply list_eq_nth; auto. intros i x y Hx Hy.
    destruct (row_eqb x y) eqn:E.
    + apply row_eqb_spec in E; auto. intros z Hz. eapply Hn; eauto. eapply nth_error_In; eauto.
    + exfalso. assert (existsb (fun p => negb (row_eqb (fst p) (snd p))) (combine a b) = true); [|congruence].
      apply existsb_exists. exists (x, y). split; [eapply nth_combine_in; eauto|]. simpl. rewrite E; auto.
  - intros <-. destruct (existsb _ _) eqn:E; auto. exfalso. apply existsb_exists in E. destruct E as ([x y] & Hxy & Hd).
    apply in_combine_nth in Hxy. destruct Hxy as (i & H1 & H2). assert (x = y) by congruence. subst. simpl in Hd.
    assert (row_eqb y y = true) by (apply row_eqb_spec; auto; intros z Hz; eapply Hn; eauto; eapply nth_error_In; eauto).
    rewrite H in Hd. discriminate.
Qed.

Lemma tables_differ_spec names n a b : comparable names n a -> comparable names n b ->
  exists d, tables_differ a b = Ok d /\ (d = false <-> q_rows a = q_rows b).
Proof.
  intros (N1 & L1 & H1) (N2 & L2 & H2). unfold tables_differ. rewrite N1, N2.
  destruct (list_eq_dec string_dec names names); [|congruence]. cbn [negb].
  apply rows_differ_spec; [congruence|exact H1].
Qed.
Lemma c16 names n cuts : (forall t, In t cuts -> comparable names n t) ->
  exists b, compare_irf_cuts cuts = Ok b /\
    (b = true <-> forall t t', In t cuts -> In t' cuts -> q_rows t = q_rows t').
Proof.
  induction cuts as [|a cuts IH]; intros H.
  - exists true. split; auto. split; auto. intros _ t t' [].
  - destruct cuts as [|a' cuts].
    + exists true. split; auto. split; auto. intros _ t t' [<-|[]] [<-|[]]; auto.
    + destruct IH as (b & Eb & Hb); [intros t Ht; apply H; right; auto|].
      destruct (tables_differ_spec names n a a') as (d & Ed & Hd); [apply H; left; auto|apply H; right; left; auto|].
      cbn [compare_irf_cuts]. cbn [compare_irf_cuts] in Eb. rewrite Ed. cbn [rbind]. destruct d.
      * exists false. split; auto. split; [discriminate|]. intros Hall. exfalso.
        assert (true = false); [|discriminate]. apply Hd. apply Hall; simpl; auto.
      * exists b. split; [exact Eb|]. rewrite Hb. assert (Ea : q_rows a = q_rows a') by (apply Hd; auto). split.
        -- intros Hall t t' [<-|Ht] [<-|Ht']; auto; try (rewrite Ea); try (symmetry; rewrite Ea); apply Hall; simpl; auto.
        -- intros Hall t t' Ht Ht'. apply Hall; right; auto.
Qed.
Lemma c16_order names n cuts cuts' : (forall t, In t cuts -> comparable names n t) -> Permutation cuts cuts' ->
  compare_irf_cuts cuts = compare_irf_cuts cuts'.
Proof.
  intros H Hp. destruct (c16 names n cuts H) as (b & Eb & Hb).
  destruct (c16 names n cuts') as (b' & Eb' & Hb').
  { intros t Ht. apply H. eapply Permutation_in; [symmetry|]; eauto. }
  rewrite Eb, Eb'. f_equal.
  assert (Hbb : b = true <-> b' = true).
  { pose proof (Permutation_sym Hp) as Hp'.
    rewrite Hb, Hb'. split; intros Hall t t' Ht Ht'; apply Hall; eapply Permutation_in; try eassumption. }
  destruct b, b'; auto; exfalso; destruct Hbb as [A B]; [discriminate (A eq_refl)|discriminate (B eq_refl)].
Qed.
Lemma c16_nan : exists t, compare_irf_cuts [t; t] = Ok false.
Proof. exists (mkQ ["cut"%string] [None] [[NaN]]). reflexivity. Qed.
Lemma c16_units : exists t1 t2, t1 <> t2 /\ q_units t1 <> q_units t2 /\ compare_irf_cuts [t1; t2] = Ok true.
Proof.
  exists (mkQ ["cut"%string] [Some (mkUnit 1 1)] [[Fin 1]]), (mkQ ["cut"%string] [Some (mkUnit 2 1)] [[Fin 1]]).
  split; [|split]; try (intros H; injection H; intros; lra).
  unfold compare_irf_cuts, tables_differ. simpl. unfold rows_differ. simpl. unfold row_eqb. simpl. rsolve. reflexivity.
Qed.
Lemma c16_broadcast r : (forall x, In x r -> is_nan x = false) ->
  compare_irf_cuts [mkQ [] [] [r]; mkQ [] [] [r; r]] = Ok true.
Proof.
  intros H. unfold compare_irf_cuts, tables_differ. simpl. unfold rows_differ. simpl.
  rewrite (proj2 (row_eqb_spec r r H) eq_refl). reflexivity.
Qed.

(** ** smoothing *)
Lemma gauss_raw_pos s j : 0 < gauss_raw s j.
Proof. apply exp_pos. Qed.
Lemma offsets_nonempty lw : (0 <= lw)%Z -> offsets lw <> [].
Proof. intros H. unfold offsets. destruct (Z.to_nat (2 * lw + 1)) eqn:E; [lia|]. simpl. discriminate. Qed.
Lemma rsum_pos l : l <> [] -> (forall x, In x l -> 0 < x) -> 0 < rsum l.
Proof.
  destruct l as [|a l]; [congruence|]. intros _ H. rewrite rsum_cons.
  assert (0 < a) by (apply H; left; auto).
  assert (0 <= rsum l) by (apply rsum_nonneg; intros x Hx; left; apply H; right; auto). lra.
Qed.
Lemma kernel_total_pos s lw : (0 <= lw)%Z -> 0 < rsum (map (gauss_raw s) (offsets lw)).
Proof.
  intros H. apply rsum_pos.
  - intros E. apply map_eq_nil in E. revert E. apply offsets_nonempty; auto.
  - intros x Hx. apply in_map_iff in Hx. destruct Hx as (j & <- & _). apply gauss_raw_pos.
Qed.
Lemma kernel_pos s lw j : (0 <= lw)%Z -> 0 < gauss_kernel s lw j.
Proof. intros H. unfold gauss_kernel. apply Rdiv_lt_0_compat; [apply gauss_raw_pos|apply kernel_total_pos; auto]. Qed.
Lemma kernel_sum s lw : (0 <= lw)%Z -> rsum (map (gauss_kernel s lw) (offsets lw)) = 1.
Proof.
  intros H. pose proof (kernel_total_pos s lw H). unfold gauss_kernel.
  rewrite (rsum_map_ext _ (fun j => / rsum (map (gauss_raw s) (offsets lw)) * gauss_raw s j)) by (intros; unfold Rdiv; ring).
  rewrite <- (map_map (gauss_raw s) (fun v => / rsum (map (gauss_raw s) (offsets lw)) * v)), rsum_scale. field. lra.
Qed.
Lemma nsum_fin {A} (f : A -> R) l : nsum (map (fun j => Fin (f j)) l) = Fin (rsum (map f l)).
Proof. unfold nsum, rsum. induction l as [|a l IH]; simpl; auto. rewrite IH. reflexivity. Qed.
Lemma truncZ_nonneg r : 0 <= r -> (0 <= truncZ r)%Z.
Proof. intros H. unfold truncZ. destruct (Rleb_spec 0 r); [apply Rfloor_nonneg; auto|lra]. Qed.
Lemma gauss_lw_nonneg s : 0 < s -> (0 <= gauss_lw s)%Z.
Proof. intros H. apply truncZ_nonneg. lra. Qed.
Lemma clamp_lt n i : (0 < n)%nat -> (clamp_index n i < n)%nat.
Proof. intros H. unfold clamp_index. lia. Qed.
Lemma rsum_le_map {A} (f g : A -> R) l : (forall x, In x l -> f x <= g x) -> rsum (map f l) <= rsum (map g l).
Proof.
  induction l as [|a l IH]; intros H; simpl; [rewrite !rsum_nil; lra|]. rewrite !rsum_cons.
  assert (f a <= g a) by (apply H; left; auto).
  assert (rsum (map f l) <= rsum (map g l)) by (apply IH; intros; apply H; right; auto). lra.
Qed.

Definition gauss_out (s : R) (us : list R) (i : nat) : R :=
  rsum (map (fun j => gauss_kernel s (gauss_lw s) j * nth (clamp_index (length us) (Z.of_nat i + j)%Z) us 0) (offsets (gauss_lw s))).
Lemma gaussian_filter1d_fin s us : 0 < s ->
  gaussian_filter1d s (map Fin us) = Ok (map Fin (map (gauss_out s us) (seq 0 (length us)))).
Proof.
  intros Hs. unfold gaussian_filter1d. destruct (Reqb_spec s 0); [lra|].
  pose proof (gauss_lw_nonneg s Hs). destruct (Z.ltb_spec (gauss_lw s) 0); [lia|].
  f_equal. rewrite map_map, map_length. apply map_ext_in. intros i Hi. apply in_seq in Hi.
  unfold gauss_out. rewrite <- nsum_fin. f_equal. apply map_ext. intros j.
  assert (Hc : (clamp_index (length us) (Z.of_nat i + j) < length us)%nat) by (apply clamp_lt; lia).
  rewrite (nth_indep (map Fin us) NaN (Fin 0)) by (rewrite map_length; auto).
  rewrite (map_nth Fin). reflexivity.
Qed.
Lemma gauss_out_bounds s us i m M : 0 < s -> (i < length us)%nat -> (forall v, In v us -> m <= v <= M) ->
  m <= gauss_out s us i <= M.
Proof.
  intros Hs Hi Hb. unfold gauss_out. pose proof (gauss_lw_nonneg s Hs) as Hlw.
  assert (Hv : forall j, m <= nth (clamp_index (length us) (Z.of_nat i + j)%Z) us 0 <= M)
    by (intros j; apply Hb, nth_In, clamp_lt; lia).
  split.
  - replace m with (rsum (map (fun j => m * gauss_kernel s (gauss_lw s) j) (offsets (gauss_lw s)))).
    + apply rsum_le_map. intros j _. rewrite Rmult_comm. apply Rmult_le_compat_l; [left; apply kernel_pos; auto|apply Hv].
    + rewrite <- (map_map (gauss_kernel s (gauss_lw s)) (fun v => m * v)), rsum_scale, kernel_sum; auto. lra.
  - replace M with (rsum (map (fun j => M * gauss_kernel s (gauss_lw s) j) (offsets (gauss_lw s)))).
    + apply rsum_le_map. intros j _. rewrite (Rmult_comm M). apply Rmult_le_compat_l; [left; apply kernel_pos; auto|apply Hv].
    + rewrite <- (map_map (gauss_kernel s (gauss_lw s)) (fun v => M * v)), rsum_scale, kernel_sum; auto. lra.
Qed.
Lemma rmap_cast l : rmap (cast false) l = Ok l.
Proof. induction l as [|a l IH]; simpl; auto. rewrite IH. reflexivity. Qed.

Lemma c17 values xs edges fill p lo hi me us s : nondecreasing edges -> (2 <= length edges)%nat ->
  length values = length xs -> 0 <= p <= 100 -> (exists x k, In x xs /\ in_bin edges k x) -> 0 < s ->
  forall t, calculate_percentile_cut false (raw values) (raw xs) (raw edges) (plain fill) (PScalar p)
    (plaino lo) (plaino hi) None me = Ok t -> ct_cut t = Cut1 (map Fin us) ->
  exists t' ss, calculate_percentile_cut false (raw values) (raw xs) (raw edges) (plain fill) (PScalar p)
    (plaino lo) (plaino hi) (Some s) me = Ok t' /\ ct_cut t' = Cut1 (map Fin ss) /\
    length ss = length us /\ ct_n_events t' = ct_n_events t /\
    forall m M, (forall v, In v us -> m <= v <= M) -> forall v, In v ss -> m <= v <= M.
Proof.
  intros Hnd Hlen Hl Hp Hex Hs t Et Hcut.
  destruct (unsmoothed values xs edges fill (PScalar p) lo hi me Hnd Hlen Hl) as (ns & rows & E & L1 & L2 & H); auto.
  { intros q [<-|[]]; auto. }
  rewrite E in Et. simpl in Et. injection Et as <-. simpl in Hcut. injection Hcut as Hu.
  eexists. exists (map (gauss_out s us) (seq 0 (length us))). rewrite E. cbn [column_of]. rewrite Hu. cbn [smooth].
  rewrite gaussian_filter1d_fin by auto. cbn [rbind]. rewrite rmap_cast. cbn [rbind].
  split; [reflexivity|]. cbn [ct_cut ct_n_events]. split; auto. split; [rewrite map_length, seq_length; auto|].
  split; auto. intros m M Hb v Hv. apply in_map_iff in Hv. destruct Hv as (i & <- & Hi). apply in_seq in Hi.
  apply gauss_out_bounds; auto. lia.
Qed.

(** several percentiles: the smoothing mixes the percentiles of one bin *)
Lemma clamp2 (i j : Z) : (0 < i + j)%Z -> clamp_index 2 (i + j) = 1%nat.
Proof. intros H. unfold clamp_index. replace (Z.max 0 (Z.min (i + j) (Z.of_nat 2 - 1))) with 1%Z by lia. reflexivity. Qed.
Lemma clamp2' (i j : Z) : (i + j <= 0)%Z -> clamp_index 2 (i + j) = 0%nat.
Proof. intros H. unfold clamp_index. replace (Z.max 0 (Z.min (i + j) (Z.of_nat 2 - 1))) with 0%Z by lia. reflexivity. Qed.
Lemma in_offsets lw j : (0 <= lw)%Z -> In j (offsets lw) <-> (- lw <= j <= lw)%Z.
Proof.
  intros H. unfold offsets. rewrite in_map_iff. split.
  - intros (i & <- & Hi). apply in_seq in Hi. lia.
  - intros Hj. exists (Z.to_nat (j + lw)). split; [lia|]. apply in_seq. lia.
Qed.
Lemma rsum_lt_map {A} (f g : A -> R) l a : In a l -> (forall x, In x l -> f x <= g x) -> f a < g a -> rsum (map f l) < rsum (map g l).
Proof.
  intros Ha H Hlt. induction l as [|b l IH]; [destruct Ha|]. simpl. rewrite !rsum_cons.
  assert (f b <= g b) by (apply H; left; auto).
  assert (rsum (map f l) <= rsum (map g l)) by (apply rsum_le_map; intros; apply H; right; auto).
  destruct Ha as [->|Ha]; [lra|]. assert (rsum (map f l) < rsum (map g l)) by (apply IH; auto; intros; apply H; right; auto). lra.
Qed.
Lemma smooth_pair_moves s a b : 1/8 <= s -> a < b ->
  exists a' b', gaussian_filter1d s [Fin a; Fin b] = Ok [Fin a'; Fin b'] /\ a < a' /\ b' < b.
Proof.
  intros Hs Hab. pose proof (gaussian_filter1d_fin s [a; b] ltac:(lra)) as E. simpl in E. rewrite E. do 2 eexists. split; [reflexivity|].
  assert (Hlw : (1 <= gauss_lw s)%Z).
  { unfold gauss_lw, truncZ. destruct (Rleb_spec 0 (4 * s + 1 / 2)); [|lra].
    pose proof (Rfloor_spec (4 * s + 1/2)). assert (Hx : IZR 0 < IZR (Rfloor (4 * s + 1 / 2))) by (simpl; lra).
    apply lt_IZR in Hx. lia. }
  assert (Hk : forall j, 0 < gauss_kernel s (gauss_lw s) j) by (intros; apply kernel_pos; lia).
  split.
  - unfold gauss_out.
    apply Rle_lt_trans with (rsum (map (fun j => a * gauss_kernel s (gauss_lw s) j) (offsets (gauss_lw s)))).
    { rewrite <- (map_map (gauss_kernel s (gauss_lw s)) (fun v => a * v)), rsum_scale, kernel_sum by lia. lra. }
    apply (rsum_lt_map _ _ _ 1%Z).
    + apply in_offsets; lia.
    + intros j _. rewrite Rmult_comm. apply Rmult_le_compat_l; [left; apply Hk|]. simpl length. change (Z.of_nat 0) with 0%Z.
      destruct (Z_lt_le_dec 0 (0 + j)); [rewrite clamp2 by lia|rewrite clamp2' by lia]; simpl; lra.
    + simpl length. change (Z.of_nat 0) with 0%Z. rewrite clamp2 by lia. simpl nth. rewrite Rmult_comm. apply Rmult_lt_compat_l; auto.
  - unfold gauss_out.
    apply Rlt_le_trans with (rsum (map (fun j => b * gauss_kernel s (gauss_lw s) j) (offsets (gauss_lw s)))).
    2:{ rewrite <- (map_map (gauss_kernel s (gauss_lw s)) (fun v => b * v)), rsum_scale, kernel_sum by lia. lra. }
    apply (rsum_lt_map _ _ _ (-1)%Z).
    + apply in_offsets; lia.
    + intros j _. rewrite (Rmult_comm b). apply Rmult_le_compat_l; [left; apply Hk|]. simpl length. change (Z.of_nat 1) with 1%Z.
      destruct (Z_lt_le_dec 0 (1 + j)); [rewrite clamp2 by lia|rewrite clamp2' by lia]; simpl; lra.
    + simpl length. change (Z.of_nat 1) with 1%Z. rewrite clamp2' by lia. simpl nth. rewrite (Rmult_comm b). apply Rmult_lt_compat_l; auto.
Qed.

Lemma nsum_nan l : In NaN l -> nsum l = NaN.
Proof.
  unfold nsum. induction l as [|a l IH]; [intros []|]. intros [->|H]; simpl; auto.
  rewrite IH by auto. destruct a; reflexivity.
Qed.
(** the fill value of an empty bin leaks into its neighbours *)
Lemma smooth_fill_leaks s c : 1/8 <= s -> gaussian_filter1d s [Fin c; NaN] = Ok [NaN; NaN].
Proof.
  intros Hs. unfold gaussian_filter1d. destruct (Reqb_spec s 0); [lra|].
  assert (Hlw : (1 <= gauss_lw s)%Z).
  { unfold gauss_lw, truncZ. destruct (Rleb_spec 0 (4 * s + 1 / 2)); [|lra].
    pose proof (Rfloor_spec (4 * s + 1/2)). assert (Hx : IZR 0 < IZR (Rfloor (4 * s + 1 / 2))) by (simpl; lra).
    apply lt_IZR in Hx. lia. }
  destruct (Z.ltb_spec (gauss_lw s) 0); [lia|]. f_equal. cbn [length seq map].
  f_equal; [|f_equal]; apply nsum_nan; apply in_map_iff; exists 1%Z; (split; [|apply in_offsets; lia]);
    (rewrite clamp2 by (simpl; lia)); reflexivity.
Qed.

Lemma c17_several_refuted : forall s, 1/8 <= s -> exists values xs edges t t',
  nondecreasing edges /\
  calculate_percentile_cut false (raw values) (raw xs) (raw edges) (plain (Fin 0)) (PList [0; 100]) None None None 1 = Ok t /\
  ct_cut t = Cut2 [[Fin 0; Fin 1]; [Fin 0; Fin 1]] /\
  calculate_percentile_cut false (raw values) (raw xs) (raw edges) (plain (Fin 0)) (PList [0; 100]) None None (Some s) 1 = Ok t' /\
  ct_cut t' <> ct_cut t.
Proof.
  intros s Hs. exists [Fin 0; Fin 1; Fin 0; Fin 1], [Fin 0; Fin 0; Fin 1; Fin 1], [Fin 0; Fin 1; Fin 2].
  assert (Hnd : nondecreasing [Fin 0; Fin 1; Fin 2]).
  { split; [intros e [<-|[<-|[<-|[]]]]; reflexivity|].
    intros [|[|[|i]]] a b Ha Hb; simpl in *; try discriminate; injection Ha as <-; injection Hb as <-; simpl; rsolve; reflexivity. }
  assert (B0 : in_bin [Fin 0; Fin 1; Fin 2] 0 (Fin 0)) by (exists (Fin 0), (Fin 1); simpl; rsolve; auto).
  assert (B1 : in_bin [Fin 0; Fin 1; Fin 2] 1 (Fin 1)) by (exists (Fin 1), (Fin 2); simpl; rsolve; auto).
  assert (N0 : ~ in_bin [Fin 0; Fin 1; Fin 2] 0 (Fin 1)).
  { intros H. pose proof (in_bin_unique _ _ _ _ Hnd H B1). lia. }
  assert (N1 : ~ in_bin [Fin 0; Fin 1; Fin 2] 1 (Fin 0)).
  { intros H. pose proof (in_bin_unique _ _ _ _ Hnd H B0). lia. }
  destruct (unsmoothed [Fin 0; Fin 1; Fin 0; Fin 1] [Fin 0; Fin 0; Fin 1; Fin 1] [Fin 0; Fin 1; Fin 2] (Fin 0) (PList [0; 100]) None None 1 Hnd)
    as (ns & rows & E & L1 & L2 & H); try (simpl; lia).
  { intros q [<-|[<-|[]]]; lra. }
  { exists (Fin 0), 0%nat. split; [left|]; auto. }
  assert (P0 : picks (in_bin [Fin 0; Fin 1; Fin 2] 0) [Fin 0; Fin 0; Fin 1; Fin 1] [Fin 0; Fin 1; Fin 0; Fin 1] [Fin 0; Fin 1]).
  { do 2 (apply pk_yes; auto). do 2 (apply pk_no; auto). constructor. }
  assert (P1 : picks (in_bin [Fin 0; Fin 1; Fin 2] 1) [Fin 0; Fin 0; Fin 1; Fin 1] [Fin 0; Fin 1; Fin 0; Fin 1] [Fin 0; Fin 1]).
  { do 2 (apply pk_no; auto). do 2 (apply pk_yes; auto). constructor. }
  assert (Hrv : row_value (Fin 0) None None 1 [0; 100] [Fin 0; Fin 1] = Ok [Fin 0; Fin 1]).
  { unfold row_value, group_cut. simpl Z.ltb. cbn [rmap].
    assert (Q0 : nanpercentile [Fin 0; Fin 1] 0 = Ok (Fin 0)).
    { unfold nanpercentile. rsolve. simpl. f_equal. unfold np_percentile. cbn. unfold np_le. simpl. rsolve. simpl.
      rsolve. replace (0 / 100 * 1) with 0 by lra.
      replace (Rfloor 0) with 0%Z. { simpl. rewrite nlerp_fin. f_equal. lra. }
      unfold Rfloor. assert (up 0 = 1%Z); [|lia]. symmetry. apply tech_up; simpl; lra. }
    assert (Q1 : nanpercentile [Fin 0; Fin 1] 100 = Ok (Fin 1)).
    { unfold nanpercentile. rsolve. simpl. f_equal. unfold np_percentile. cbn. unfold np_le. simpl. rsolve. simpl. rsolve. reflexivity. }
    rewrite Q0, Q1. reflexivity. }
  destruct (H 0%nat _ ltac:(simpl; lia) P0) as (_ & r0 & Hr0 & Hv0).
  destruct (H 1%nat _ ltac:(simpl; lia) P1) as (_ & r1 & Hr1 & Hv1). cbn [pargs] in Hv0, Hv1.
  rewrite Hrv in Hv0, Hv1. injection Hv0 as <-. injection Hv1 as <-.
  assert (Hrows : rows = [[Fin 0; Fin 1]; [Fin 0; Fin 1]]).
  { destruct rows as [|x [|y [|? ?]]]; simpl in L2; try discriminate. simpl in Hr0, Hr1. congruence. }
  subst rows. destruct (smooth_pair_moves s 0 1 Hs ltac:(lra)) as (a' & b' & Eg & Ha' & Hb').
  do 2 eexists. split; [exact Hnd|]. split; [apply (E None)|]. split; [reflexivity|]. split.
  - pose proof (E (Some s)) as Es. cbn [plaino] in Es. rewrite Es. unfold smooth. cbn [column_of rmap]. rewrite Eg. cbn [rbind]. rewrite rmap_cast. cbn [rbind]. reflexivity.
  - cbn [ct_cut]. intros Hc. injection Hc as H1. lra.
Qed.

(** ** units *)
Lemma quantity_to_convert v ud u' x : 0 < u_scale ud -> 0 < u_scale u' -> 0 < u_scale v -> u_dim ud = u_dim u' ->
  quantity_to (mkScalar (convert_val ud u' x) (Some u')) v = quantity_to (mkScalar x (Some ud)) v.
Proof.
  intros. unfold quantity_to. simpl. rewrite H2. destruct (Nat.eqb _ _); auto. f_equal. apply convert_twice; auto.
Qed.
Lemma c12_units is_int values v xs bins x u1 u2 pc lo hi sm me :
  0 < u_scale v -> 0 < u_scale u1 -> 0 < u_scale u2 -> u_dim u1 = u_dim u2 ->
  calculate_percentile_cut is_int (mkArr values (Some v)) xs bins (mkScalar (convert_val u1 u2 x) (Some u2)) pc lo hi sm me =
  calculate_percentile_cut is_int (mkArr values (Some v)) xs bins (mkScalar x (Some u1)) pc lo hi sm me.
Proof. intros. unfold calculate_percentile_cut. cbn [a_unit]. rewrite quantity_to_convert; auto. Qed.
Lemma c12_units_bounds is_int values v xs bins fill l h u1 u2 pc sm me :
  0 < u_scale v -> 0 < u_scale u1 -> 0 < u_scale u2 -> u_dim u1 = u_dim u2 ->
  calculate_percentile_cut is_int (mkArr values (Some v)) xs bins fill pc
    (Some (mkScalar (convert_val u1 u2 l) (Some u2))) (Some (mkScalar (convert_val u1 u2 h) (Some u2))) sm me =
  calculate_percentile_cut is_int (mkArr values (Some v)) xs bins fill pc
    (Some (mkScalar l (Some u1))) (Some (mkScalar h (Some u1))) sm me.
Proof. intros. unfold calculate_percentile_cut, bound_to. cbn [a_unit]. rewrite !quantity_to_convert; auto. Qed.
Lemma c12_fill_wrong_unit is_int values v xs bins x u1 pc lo hi sm me : u_dim u1 <> u_dim v ->
  calculate_percentile_cut is_int (mkArr values (Some v)) xs bins (mkScalar x (Some u1)) pc lo hi sm me = Err UnitConversionError.
Proof.
  intros H. unfold calculate_percentile_cut, quantity_to. simpl. apply Nat.eqb_neq in H. rewrite H. reflexivity.
Qed.
Lemma c12_fill_no_unit is_int values v xs bins x pc lo hi sm me : u_dim v <> dimless_dim ->
  calculate_percentile_cut is_int (mkArr values (Some v)) xs bins (mkScalar x None) pc lo hi sm me = Err UnitConversionError.
Proof.
  intros H. unfold calculate_percentile_cut, quantity_to. cbn [a_unit s_unit u_dim one_unit].
  replace (Nat.eqb dimless_dim (u_dim v)) with false by (symmetry; apply Nat.eqb_neq; auto). reflexivity.
Qed.
(** the unit of the values is inherited by the cut column and the numbers are the unit-less ones *)
Lemma c12_result_unit values v xs bins fill pc lo hi sm me : 0 < u_scale v -> 
  calculate_percentile_cut false (mkArr values (Some v)) xs bins (mkScalar fill (Some v)) pc
     (match lo with Some l => Some (mkScalar l (Some v)) | None => None end)
     (match hi with Some h => Some (mkScalar h (Some v)) | None => None end) sm me =
  do t <- calculate_percentile_cut false (mkArr values None) xs bins (mkScalar fill None) pc (plaino lo) (plaino hi) sm me;
  Ok (mkCutTable (ct_low t) (ct_high t) (ct_center t) (ct_edge_unit t) (ct_n_events t) (ct_cut t) (Some v)).
Proof.
  intros Hv. unfold calculate_percentile_cut. cbn [a_unit a_val].
  assert (Q : forall x, quantity_to (mkScalar x (Some v)) v = Ok x)
    by (intros x; unfold quantity_to; simpl; rewrite Nat.eqb_refl, convert_same; auto).
  rewrite Q. cbn [rbind].
  assert (Bl : forall b, bound_to (Some v) (match b with Some l => Some (mkScalar l (Some v)) | None => None end) = Ok b)
    by (intros [b|]; cbn [bound_to]; rewrite ?Q; reflexivity).
  assert (Bn : forall b, bound_to None (plaino b) = Ok b) by (intros [b|]; reflexivity).
  rewrite !Bl, !Bn. cbn [rbind s_val s_unit fst snd].
  destruct (calculate_bin_indices xs bins) as [[idx valid]|e]; cbn [rbind fst snd]; auto.
  destruct (Nat.eqb _ _); cbn [negb]; auto. destruct (existsb _ _); cbn [negb]; auto.
  cbn [cast rbind]. destruct (cut_loop _ _ _ _ _ _ _ _ _ _ _) as [[ns rows]|e]; cbn [rbind fst snd]; auto.
  destruct (smooth _ _ _) as [c|e]; cbn [rbind]; auto.
Qed.
Lemma c12_no_events is_int values xs edges fill pc lo hi sm me : nondecreasing edges -> edges <> [] -> length values = length xs ->
  (forall x k, In x xs -> ~ in_bin edges k x) ->
  calculate_percentile_cut is_int (raw values) (raw xs) (raw edges) (plain fill) pc (plaino lo) (plaino hi) sm me = Err IndexError.
Proof.
  intros Hnd Hne Hl Hno. destruct (bin_indices_inc xs edges Hnd Hne) as (idx & valid & E & L1 & L2 & Ho).
  unfold calculate_percentile_cut. cbn [a_unit raw a_val plain s_val s_unit rbind].
  assert (Bn : forall b, bound_to None (plaino b) = Ok b) by (intros [b|]; reflexivity).
  rewrite !Bn. cbn [rbind]. unfold raw. rewrite E. cbn [rbind fst snd]. rewrite Hl, Nat.eqb_refl. cbn [negb].
  assert (Ev : existsb (fun b : bool => b) valid = false).
  { destruct (existsb (fun b : bool => b) valid) eqn:Ev; auto. apply existsb_exists in Ev. destruct Ev as (b & Hb & ->).
    apply In_nth_error in Hb. destruct Hb as [i Hi].
    destruct (nth_error_ex xs i) as [x Hx]; [rewrite <- L2; apply nth_error_Some; congruence|].
    destruct (Ho i x Hx) as (z & v & Hz & Hv & Hout). assert (v = true) by congruence. subst.
    destruct (outcome_range _ _ _ Hout) as (k & _ & Hk & _). exfalso. apply (Hno x k); auto. eapply nth_error_In; eauto. }
  rewrite Ev. reflexivity.
Qed.

Lemma c12_int : exists t, calculate_percentile_cut true (raw [Fin 0; Fin 1]) (raw [Fin 0; Fin 0]) (raw [Fin 0; Fin 1])
    (plain (Fin 0)) (PScalar 50) None None None 1 = Ok t /\
  ct_cut t = Cut1 [Fin 0] /\ linear_percentile [0; 1] 50 (1/2).
Proof.
  assert (Q : nanpercentile [Fin 0; Fin 1] 50 = Ok (Fin (1/2))).
  { unfold nanpercentile. rsolve. simpl. f_equal. unfold np_percentile. cbn. unfold np_le. simpl. rsolve. simpl. rsolve.
    replace (Rfloor (50 / 100 * 1)) with 0%Z.
    - simpl. rewrite nlerp_fin. f_equal. lra.
    - unfold Rfloor. assert (up (50 / 100 * 1) = 1%Z); [|lia]. symmetry. apply tech_up; simpl; lra. }
  assert (C : cast true (Fin (1/2)) = Ok (Fin 0)).
  { unfold cast, truncZ. rsolve. assert (E : Rfloor (1/2) = 0%Z).
    { unfold Rfloor. assert (up (1/2) = 1%Z); [|lia]. symmetry. apply tech_up; simpl; lra. }
    rewrite E. reflexivity. }
  assert (C0 : cast true (Fin 0) = Ok (Fin 0)).
  { unfold cast, truncZ. rsolve. assert (E : Rfloor 0 = 0%Z).
    { unfold Rfloor. assert (up 0 = 1%Z); [|lia]. symmetry. apply tech_up; simpl; lra. }
    rewrite E. reflexivity. }
  assert (I : calculate_bin_indices (raw [Fin 0; Fin 0]) (raw [Fin 0; Fin 1]) = Ok ([0%Z; 0%Z], [true; true])).
  { unfold raw, calculate_bin_indices, calculate_bin_indices_raw. simpl. unfold bin_index1, digitize1, monotonicity.
    simpl. rsolve. simpl. rsolve. simpl. unfold searchsorted_right, count, np_lt. simpl. rsolve. reflexivity. }
  eexists. split; [|split].
  - unfold calculate_percentile_cut. rewrite I. cbn [rbind raw plain bound_to a_unit a_val s_val s_unit fst snd length Nat.eqb negb existsb orb].
    rewrite C0. cbn [rbind]. unfold bin_keys. cbn -[cast nanpercentile Z.of_nat]. unfold bin_group, group_cut.
    cbn -[cast nanpercentile Z.of_nat]. cbn [Z.of_nat Pos.of_succ_nat Pos.succ Z.ltb Z.compare Pos.compare Pos.compare_cont].
    rewrite Q. cbn [rbind clip]. rewrite C. cbn. reflexivity.
  - reflexivity.
  - exists [0; 1], 0%nat, 0. split; [auto|]. split; [|split; [reflexivity|]].
    + intros [|[|i]] a b Ha Hb; simpl in *; try discriminate; try (destruct i; discriminate). injection Ha as <-; injection Hb as <-; lra.
    + right. exists 1. simpl. repeat split; lra.
Qed.
Lemma c17_leak s c : 1/8 <= s -> smooth false (Some s) (Cut1 [Fin c; NaN]) = Ok (Cut1 [NaN; NaN]).
Proof. intros H. unfold smooth. rewrite smooth_fill_leaks by auto. reflexivity. Qed.
