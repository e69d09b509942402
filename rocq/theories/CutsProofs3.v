(** * CutsProofs3: integer columns, tables with gaps, exact comparison, exact smoothing *)
From Coq Require Import String Reals List Bool ZArith Lia Lra Permutation Sorted.
From Verif Require Import Num Numpy Sort Lists Table Binning SpecBinning BinningProofs HistProofs Percentile Cuts SpecCuts PercentileProofs CutsProofs CutsProofs2.
Import ListNotations.
Open Scope R_scope.

(** ** integer values *)
Lemma truncZ_truncated r : truncated r (truncZ r).
Proof.
  unfold truncated, truncZ. destruct (Rleb_spec 0 r) as [H|H].
  - pose proof (Rfloor_spec r). pose proof (Rfloor_nonneg r H) as N. apply IZR_le in N.
    rewrite (Rabs_right r) by lra. rewrite Rabs_right by lra. split; [|lra]. apply Rmult_le_pos; auto.
  - pose proof (Rfloor_spec (- r)). pose proof (Rfloor_nonneg (- r) ltac:(lra)) as N. apply IZR_le in N.
    rewrite opp_IZR. rewrite (Rabs_left r) by lra. rewrite Rabs_Ropp, Rabs_right by lra. split; [|lra].
    replace (- IZR (Rfloor (- r)) * r) with (IZR (Rfloor (- r)) * (- r)) by ring. apply Rmult_le_pos; lra.
Qed.
Lemma clip_fin lo hi r : exists c, clip (optn lo) (optn hi) (Fin r) = Fin c.
Proof.
  unfold clip, nmax, nmin. destruct lo as [l|]; destruct hi as [h|]; simpl; try (eexists; reflexivity);
    repeat (match goal with |- context [Rleb ?a ?b] => destruct (Rleb a b) end; simpl); eexists; reflexivity.
Qed.
Definition tc (r : R) : num := Fin (IZR (truncZ r)).
Lemma group_cut_int f lo hi me ps (g : list R) : g <> [] -> (forall p, In p ps -> 0 <= p <= 100) ->
  exists cs, group_cut false (Fin f) (optn lo) (optn hi) me ps (map Fin g) = Ok (map Fin cs) /\
    group_cut true (Fin f) (optn lo) (optn hi) me ps (map Fin g) = Ok (map tc cs) /\ length cs = length ps.
Proof.
  intros Hg Hp. unfold group_cut. destruct (Z.ltb _ _).
  - exists (repeat f (length ps)). rewrite repeat_length. split; [|split; auto].
    + clear. induction ps as [|p ps IH]; cbn [rmap map repeat length] in *; auto. rewrite IH. reflexivity.
    + clear. induction ps as [|p ps IH]; cbn [rmap map repeat length] in *; auto. rewrite IH. reflexivity.
  - induction ps as [|p ps IH]; [exists []; repeat split; auto|].
    destruct IH as (cs & E1 & E2 & L); [intros; apply Hp; right; auto|].
    destruct (nanpercentile_spec (map Fin g) g p (finite_part_map g) (Hp p (or_introl eq_refl))) as (v & Hv & Hs).
    destruct g as [|g0 g]; [congruence|]. destruct Hs as (r & -> & _).
    destruct (clip_fin lo hi r) as [c Hc]. exists (c :: cs).
    cbn [rmap]. rewrite Hv. cbn [rbind]. rewrite Hc. cbn [cast rbind].
    cbn [cast] in E1, E2. rewrite E1, E2. cbn [rbind map]. repeat split; auto. simpl; auto.
Qed.

Lemma bin_group_map {A B} (f : A -> B) (vs : list A) idx valid k :
  bin_group (map f vs) idx valid k = map f (bin_group vs idx valid k).
Proof.
  unfold bin_group. generalize (combine idx valid) as q. induction vs as [|v vs IH]; intros [|p q]; simpl; auto.
  destruct (snd p && Z.eqb (fst p) k); simpl; f_equal; apply IH.
Qed.
Lemma loops_agree f lo hi me ps (vs : list R) idx valid : (forall p, In p ps -> 0 <= p <= 100) -> forall keys ns (rs : list (list R)),
  (forall k, In k keys -> bin_group vs idx valid k <> []) -> Forall (fun r : list R => length r = length ps) rs ->
  exists ns' rs', Forall (fun r : list R => length r = length ps) rs' /\ cut_loop false (Fin f) (optn lo) (optn hi) me ps (map Fin vs) idx valid keys (ns, map (map Fin) rs) = Ok (ns', map (map Fin) rs') /\
    cut_loop true (Fin f) (optn lo) (optn hi) me ps (map Fin vs) idx valid keys (ns, map (map tc) rs) = Ok (ns', map (map tc) rs').
Proof.
  intros Hp. induction keys as [|k keys IH]; intros ns rs Hk HF; cbn [cut_loop]; [exists ns, rs; auto|].
  rewrite bin_group_map.
  destruct (group_cut_int f lo hi me ps (bin_group vs idx valid k) (Hk k (or_introl eq_refl)) Hp) as (cs & E1 & E2 & Lc).
  rewrite E1, E2. cbn [rbind fst snd].
  assert (S : forall {X Y} (h : X -> Y) l i x, list_set (map h l) i (h x) = map h (list_set l i x)).
  { intros X Y h l. induction l as [|a l IHl]; intros [|i] x; simpl; auto. f_equal; auto. }
  rewrite !S. apply IH; [intros; apply Hk; right; auto|].
  rewrite Forall_forall in *. intros r Hr. clear - HF Hr Lc. revert HF Hr. generalize (Z.to_nat k) as i.
  induction rs as [|a rs IH]; intros [|i] HF Hr; simpl in Hr; try contradiction.
  - destruct Hr as [<-|Hr]; auto. apply HF; right; auto.
  - destruct Hr as [<-|Hr]; [apply HF; left; auto|]. apply (IH i); auto. intros; apply HF; right; auto.
Qed.
Lemma c12_integer (zs : list Z) xs edges f p lo hi me : nondecreasing edges -> (2 <= length edges)%nat ->
  length zs = length xs -> 0 <= p <= 100 -> (exists x k, In x xs /\ in_bin edges k x) ->
  exists t t' cs ct,
    calculate_percentile_cut false (raw (map (fun z => Fin (IZR z)) zs)) (raw xs) (raw edges) (plain (Fin f)) (PScalar p)
      (plaino (optn lo)) (plaino (optn hi)) None me = Ok t /\ ct_cut t = Cut1 (map Fin cs) /\
    calculate_percentile_cut true (raw (map (fun z => Fin (IZR z)) zs)) (raw xs) (raw edges) (plain (Fin f)) (PScalar p)
      (plaino (optn lo)) (plaino (optn hi)) None me = Ok t' /\ ct_cut t' = Cut1 (map (fun z => Fin (IZR z)) ct) /\
    Forall2 truncated cs ct /\ ct_n_events t' = ct_n_events t /\ ct_low t' = ct_low t /\ ct_high t' = ct_high t.
Proof.
  intros Hnd Hlen Hl Hp (x0 & k0 & Hx0 & Hk0).
  destruct (bin_indices_inc xs edges Hnd ltac:(destruct edges; simpl in *; [lia|discriminate]))
    as (idx & valid & E & L1 & L2 & Ho).
  assert (Hb : forall b, bound_to None (plaino (optn b)) = Ok (optn b)) by (intros [?|]; reflexivity).
  assert (Hv : map (fun z => Fin (IZR z)) zs = map Fin (map IZR zs)) by (rewrite map_map; auto).
  destruct (loops_agree f lo hi me [p] (map IZR zs) idx valid (fun q Hq => match Hq with or_introl e => eq_ind p (fun q => 0 <= q <= 100) Hp q e | or_intror F => match F with end end)
     (bin_keys idx valid) (repeat 0%Z (length edges - 1)) (repeat [f] (length edges - 1))) as (ns & rs & Hrow & E1 & E2).
  { intros k Hk. apply bin_keys_in in Hk. rewrite bin_group_in; rewrite ?map_length; auto; lia. }
  { apply Forall_forall. intros r Hr. apply repeat_spec in Hr. subst; auto. }
  assert (Hex : existsb (fun b : bool => b) valid = true).
  { apply existsb_exists. exists true. split; auto. apply In_nth_error in Hx0. destruct Hx0 as [i Hi].
    destruct (Ho i x0 Hi) as (z & v & _ & Hv' & Hout').
    destruct (bin_outcome_functional edges x0 z v (Z.of_nat k0) true Hnd Hout' (inside edges x0 k0 Hk0)) as [_ ->].
    eapply nth_error_In; eauto. }
  assert (R1 : forall {X Y} (h : X -> Y) x n, map h (repeat x n) = repeat (h x) n) by (intros; induction n; simpl; f_equal; auto).
  rewrite R1 in E1, E2.
  unfold calculate_percentile_cut, raw, plain. cbn [a_unit a_val s_val s_unit fst snd rbind].
  rewrite !Hb. cbn [rbind]. rewrite E. cbn [rbind fst snd]. rewrite map_length, Hl, Nat.eqb_refl. cbn [negb]. rewrite Hex. cbn [negb].
  rewrite Hv. cbn [cast rbind length repeat]. unfold tc in E2. cbn [map] in E1, E2. rewrite E1, E2. cbn [rbind fst snd smooth].
  do 2 eexists. exists (map (fun r => hd 0 r) rs), (map (fun r => truncZ (hd 0 r)) rs). split; [reflexivity|].
  split; [|split; [reflexivity|split]]; cbn [ct_cut ct_n_events ct_low ct_high].
  - f_equal. rewrite !map_map. apply map_ext_in. intros r Hr. rewrite Forall_forall in Hrow. specialize (Hrow r Hr).
    destruct r; [discriminate|reflexivity].
  - f_equal. rewrite !map_map. apply map_ext_in. intros r Hr. rewrite Forall_forall in Hrow. specialize (Hrow r Hr).
    destruct r; [discriminate|reflexivity].
  - split; [|repeat split; auto]. clear. induction rs as [|r rs IH]; simpl; constructor; auto. apply truncZ_truncated.
Qed.

(** ** evaluation: tables with gaps, units *)
Lemma c14_any values xs low high cuts op : high <> [] -> nondecreasing (low ++ [last high NaN]) ->
  length cuts = length low -> length values = length xs ->
  exists out, evaluate_binned_cut true values (raw xs) low high None cuts op = Ok out /\
    length out = length values /\
    forall i v x, nth_error values i = Some v -> nth_error xs i = Some x ->
      (forall k c, in_stretched_bin low high k x -> nth_error cuts k = Some c -> nth_error out i = Some (op v c)) /\
      ((forall k, ~ in_stretched_bin low high k x) -> nth_error out i = Some false).
Proof.
  intros Hh Hnd Hc Hl. destruct (rev_last high NaN Hh) as [rest Hr].
  unfold evaluate_binned_cut. cbn [negb]. rewrite Hr.
  destruct (bin_indices_inc xs (low ++ [last high NaN]) Hnd ltac:(destruct low; discriminate)) as (idx & valid & E & L1 & L2 & Ho).
  unfold raw. rewrite E. cbn [rbind fst snd]. unfold evaluate_binned_cut_by_index. cbn [negb].
  rewrite Hl, L1, L2, Nat.eqb_refl. cbn [negb].
  destruct (eval_rows_ok op cuts (low ++ [last high NaN]) Hnd) with (values := values) (xs := xs) (idx := idx) (valid := valid)
    as (out & Eo & Lo & Hout); auto; [rewrite app_length; simpl; lia|].
  exists out. split; auto. split; [lia|]. intros i v x Hv Hx. destruct (Hout i v x Hv Hx) as [H1 H2].
  assert (Hk : forall k, in_stretched_bin low high k x <-> in_bin (low ++ [last high NaN]) k x).
  { intros k. unfold in_stretched_bin, in_bin. split; intros (a & b & Ha & Hb & Hab); exists a, b; (split; [|split; auto]).
    - rewrite nth_error_app1; auto. apply nth_error_Some; congruence.
    - assert (Hlt : (S k < length (low ++ [last high NaN]))%nat) by (apply nth_error_Some; congruence).
      rewrite app_length in Hlt. simpl in Hlt. rewrite nth_error_app1 in Ha; auto. lia. }
  split.
  - intros k c Hs Hc'. apply (H1 k c); auto. apply Hk; auto.
  - intros Hn. apply H2. intros k Hs. apply (Hn k). apply Hk; auto.
Qed.
Lemma c14_units q values xs low high cuts op ud ub ud' ub' :
  0 < u_scale ud -> 0 < u_scale ub -> 0 < u_scale ud' -> 0 < u_scale ub' ->
  u_dim ud = u_dim ub -> u_dim ud' = u_dim ud -> u_dim ub' = u_dim ud ->
  evaluate_binned_cut q values (mkArr (map (convert_val ud ud') xs) (Some ud'))
    (map (convert_val ub ub') low) (map (convert_val ub ub') high) (Some ub') cuts op =
  evaluate_binned_cut q values (mkArr xs (Some ud)) low high (Some ub) cuts op.
Proof.
  intros. unfold evaluate_binned_cut. destruct (negb q); auto. rewrite <- map_rev. destruct (rev high) as [|h r]; cbn [map]; auto.
  change [convert_val ub ub' h] with (map (convert_val ub ub') [h]). rewrite <- map_app, bin_indices_units; auto.
Qed.
Lemma c14_common_unit q values xs low high cuts op u : 0 < u_scale u ->
  evaluate_binned_cut q values (mkArr xs (Some u)) low high (Some u) cuts op =
  evaluate_binned_cut q values (raw xs) low high None cuts op.
Proof.
  intros. unfold evaluate_binned_cut. destruct (negb q); auto. destruct (rev high) as [|h r]; auto.
  rewrite bin_indices_same_unit by auto. reflexivity.
Qed.

(** ** comparison *)
Lemma row_eqb_same a b : row_eqb a b = true <-> same_numbers a b.
Proof.
  unfold row_eqb, same_numbers. revert b. induction a as [|x a IH]; intros [|y b]; simpl; split; intros H; try discriminate; auto; try (inversion H; fail).
  - apply andb_prop in H. destruct H as [H1 H2]. apply andb_prop in H2. destruct H2 as [H2 H3]. constructor.
    + apply neqb_eq in H2. destruct H2 as [-> H2]. split; auto. intros ->. discriminate.
    + apply IH. rewrite H1, H3. reflexivity.
  - inversion H as [|? ? ? ? [-> Hn] Hf]; subst. apply IH in Hf. apply andb_prop in Hf. destruct Hf as [Hf1 Hf2].
    rewrite Hf1, Hf2. simpl. rewrite andb_true_r. apply neqb_eq. split; auto. destruct y; auto; congruence.
Qed.
Lemma existsb_false {A} (f : A -> bool) l : existsb f l = false <-> Forall (fun x => f x = false) l.
Proof.
  induction l as [|a l IH]; simpl; split; intros H; auto.
  - apply orb_false_elim in H. constructor; tauto.
  - inversion H; subst. rewrite H2. simpl. tauto.
Qed.
Lemma rows_differ_agree (a b : list (list num)) : length a = length b ->
  existsb (fun p => negb (row_eqb (fst p) (snd p))) (combine a b) = false <-> Forall2 same_numbers a b.
Proof.
  revert b. induction a as [|x a IH]; intros [|y b] H; try discriminate; simpl; split; intros E; auto.
  - apply orb_false_elim in E. destruct E as [E1 E2]. constructor; [apply row_eqb_same, negb_false_iff; auto|apply IH; auto].
  - inversion E; subst. apply orb_false_intro; [apply negb_false_iff, row_eqb_same; auto|apply IH; auto].
Qed.
Lemma Forall2_single_l {A B} (P : A -> B -> Prop) r l : Forall2 P [r] l -> Forall (P r) l.
Proof. intros H. inversion H as [|? ? ? ? H1 H2]; subst. inversion H2; subst. auto. Qed.
Lemma Forall2_single_r {A B} (P : A -> B -> Prop) l s : Forall2 P l [s] -> Forall (fun a => P a s) l.
Proof. intros H. inversion H as [|? ? ? ? H1 H2]; subst. inversion H2; subst. auto. Qed.
Lemma Forall_single_l {A B} (P : A -> B -> Prop) r l : length l = 1%nat -> Forall (P r) l -> Forall2 P [r] l.
Proof. destruct l as [|x [|y l]]; try discriminate. intros _ H. inversion H; subst. auto. Qed.
Lemma Forall_single_r {A B} (P : A -> B -> Prop) l s : length l = 1%nat -> Forall (fun a => P a s) l -> Forall2 P l [s].
Proof. destruct l as [|x [|y l]]; try discriminate. intros _ H. inversion H; subst. auto. Qed.
Lemma existsb_row_l r l : existsb (fun s => negb (row_eqb r s)) l = false <-> Forall (same_numbers r) l.
Proof.
  rewrite existsb_false, !Forall_forall. split; intros H x Hx; specialize (H x Hx).
  - apply row_eqb_same, negb_false_iff; auto.
  - apply negb_false_iff, row_eqb_same; auto.
Qed.
Lemma existsb_row_r s l : existsb (fun r => negb (row_eqb r s)) l = false <-> Forall (fun a => same_numbers a s) l.
Proof.
  rewrite existsb_false, !Forall_forall. split; intros H x Hx; specialize (H x Hx).
  - apply row_eqb_same, negb_false_iff; auto.
  - apply negb_false_iff, row_eqb_same; auto.
Qed.
Lemma F2_length {A B} (P : A -> B -> Prop) l m : Forall2 P l m -> length l = length m.
Proof. induction 1; simpl; congruence. Qed.
(** every pair of tables *)
Lemma tables_differ_exact s t :
  (comparable_shapes s t /\ exists d, tables_differ s t = Ok d /\ (d = false <-> tables_agree s t)) \/
  (~ comparable_shapes s t /\ tables_differ s t = Err AttributeError).
Proof.
  unfold tables_differ, comparable_shapes. destruct (list_eq_dec string_dec (q_names s) (q_names t)) as [En|En]; cbn [negb].
  2:{ right. split; auto. intros [? _]; congruence. }
  unfold rows_differ. destruct (Nat.eqb_spec (length (q_rows s)) (length (q_rows t))) as [El|El].
  - left. split; auto. eexists; split; [reflexivity|]. rewrite rows_differ_agree by auto. split; intros H.
    + apply ta_rows; auto.
    + destruct H as [_ H|r _ H1 H2|r _ H1 H2]; auto.
      * rewrite H1 in *. apply Forall_single_l; auto.
      * rewrite H1 in *. apply Forall_single_r; auto.
  - destruct (q_rows s) as [|r [|r' rs]] eqn:Es.
    + destruct (q_rows t) as [|u [|u' us]] eqn:Et; simpl in El.
      * congruence.
      * left. split; auto. eexists; split; [reflexivity|]. split; auto. intros _. eapply ta_right; eauto. rewrite Es; auto.
      * right. split; auto. intros [_ [H|[H|H]]]; discriminate.
    + left. split; auto. eexists; split; [reflexivity|]. rewrite existsb_row_l. split; intros H.
      * eapply ta_left; eauto.
      * destruct H as [_ H|r0 _ H1 H2|r0 _ H1 H2].
        -- apply F2_length in H. rewrite Es in H. congruence.
        -- rewrite Es in H1. injection H1 as <-. auto.
        -- rewrite H1 in El. simpl in El. congruence.
    + destruct (q_rows t) as [|u [|u' us]] eqn:Et.
      * right. split; auto. intros [_ [H|[H|H]]]; discriminate.
      * left. split; auto. eexists; split; [reflexivity|].
        rewrite existsb_row_r. split; intros H.
        -- eapply ta_right; eauto. rewrite Es; auto.
        -- destruct H as [_ H|r0 _ H1 H2|r0 _ H1 H2].
           ++ apply F2_length in H. rewrite Es, Et in H. simpl in *. congruence.
           ++ rewrite Es in H1. discriminate.
           ++ rewrite Et in H1. injection H1 as <-. rewrite Es in H2. auto.
      * right. split; auto. intros [_ [H|[H|H]]]; simpl in *; lia.
Qed.
Lemma c16_exact cuts :
  let agree_before := fun n => forall j s t, (j < n)%nat -> nth_error cuts j = Some s -> nth_error cuts (S j) = Some t ->
    comparable_shapes s t /\ tables_agree s t in
  (compare_irf_cuts cuts = Ok true /\ agree_before (length cuts)) \/
  (exists i s t, nth_error cuts i = Some s /\ nth_error cuts (S i) = Some t /\ agree_before i /\
     ((comparable_shapes s t /\ ~ tables_agree s t /\ compare_irf_cuts cuts = Ok false) \/
      (~ comparable_shapes s t /\ compare_irf_cuts cuts = Err AttributeError))).
Proof.
  induction cuts as [|a cuts IH]; intros agree.
  - left. split; auto. intros j s t _ H. destruct j; discriminate.
  - destruct cuts as [|b cuts].
    + left. split; auto. intros [|[|j]] s t _ H1 H2; discriminate.
    + unfold agree. clear agree. change (compare_irf_cuts (a :: b :: cuts)) with (do d <- tables_differ a b; if d then Ok false else compare_irf_cuts (b :: cuts)).
      destruct (tables_differ_exact a b) as [[Hc (d & Ed & Hd)]|[Hc Ed]]; rewrite Ed; cbn [rbind].
      * destruct d.
        -- right. exists 0%nat, a, b. split; [reflexivity|split; [reflexivity|split; [intros; lia|]]]. left. split; auto. split; auto. intros H. apply Hd in H. discriminate.
        -- assert (Hab : tables_agree a b) by (apply Hd; reflexivity).
           cbv zeta in IH; destruct IH as [[E Hag]|(i & s & t & Hs & Ht & Hag & Hcase)].
           { (left; split; auto; intros [|j] s t Hj H1' H2'; [injection H1' as <-; injection H2' as <-; auto|apply (Hag j); auto; simpl in *; lia]). }
           right; exists (S i), s, t; split; [auto|split; [auto|split; [|auto]]]; intros [|j] s' t' Hj H1' H2'; [injection H1' as <-; injection H2' as <-; auto|apply (Hag j); auto; simpl in *; lia].
      * right. exists 0%nat, a, b. split; [reflexivity|split; [reflexivity|split; [intros; lia|]]]. right; auto.
Qed.

(** ** smoothing *)
Lemma offsets_nodup lw : NoDup (offsets lw).
Proof.
  unfold offsets. apply FinFun.Injective_map_NoDup; [|apply seq_NoDup]. intros i j H. lia.
Qed.
Lemma offsets_perm lw offs : (0 <= lw)%Z -> NoDup offs -> (forall j, In j offs <-> (- lw <= j <= lw)%Z) -> Permutation offs (offsets lw).
Proof. intros H Hn Ho. apply NoDup_Permutation; auto using offsets_nodup. intros j. rewrite Ho, in_offsets; tauto. Qed.
Lemma gauss_weights_ok s : 0 < s -> gaussian_weights s (gauss_lw s) (gauss_kernel s (gauss_lw s)).
Proof.
  intros Hs. pose proof (gauss_lw_nonneg s Hs) as Hlw. split; [|split; [|split]].
  - unfold gauss_lw, truncZ. destruct (Rleb_spec 0 (4 * s + 1/2)); [apply Rfloor_spec|lra].
  - intros j. apply kernel_pos; auto.
  - intros i j. unfold gauss_kernel, Rdiv. pose proof (kernel_total_pos s _ Hlw) as Hp.
    assert (He : forall k, exp (- (IZR k * IZR k) * / (2 * (s * s))) = gauss_raw s k).
    { intros k. unfold gauss_raw. f_equal. field. lra. }
    rewrite !He. ring.
  - exists (offsets (gauss_lw s)). split; [apply offsets_nodup|]. split; [intros; apply in_offsets; auto|apply kernel_sum; auto].
Qed.
Lemma gauss_out_along s us : 0 < s -> smoothed_along (gauss_lw s) (gauss_kernel s (gauss_lw s)) us (map (gauss_out s us) (seq 0 (length us))).
Proof.
  intros Hs. pose proof (gauss_lw_nonneg s Hs) as Hlw. split; [rewrite map_length, seq_length; auto|].
  intros i v offs Hv Hn Ho. apply map_nth_inv in Hv. destruct Hv as (k & Hk & ->).
  assert (Hi : (i < length us)%nat) by (rewrite <- (seq_length (length us) 0); apply nth_error_Some; congruence).
  apply nth_error_nth with (d := 0%nat) in Hk. rewrite seq_nth in Hk by auto. simpl in Hk. subst k.
  unfold gauss_out. symmetry. apply (rsum_perm (map _ offs) (map _ _)). apply Permutation_map. apply offsets_perm; auto.
Qed.

Lemma c17_exact s : 0 < s -> exists reach w, gaussian_weights s reach w /\
  (forall values xs edges fill p lo hi me us t, nondecreasing edges -> (2 <= length edges)%nat ->
    length values = length xs -> 0 <= p <= 100 -> (exists x k, In x xs /\ in_bin edges k x) ->
    calculate_percentile_cut false (raw values) (raw xs) (raw edges) (plain fill) (PScalar p)
      (plaino lo) (plaino hi) None me = Ok t -> ct_cut t = Cut1 (map Fin us) ->
    exists t' ss, calculate_percentile_cut false (raw values) (raw xs) (raw edges) (plain fill) (PScalar p)
      (plaino lo) (plaino hi) (Some s) me = Ok t' /\ ct_cut t' = Cut1 (map Fin ss) /\
      ct_n_events t' = ct_n_events t /\ smoothed_along reach w us ss) /\
  (forall values xs edges fill ps lo hi me rows t, nondecreasing edges -> (2 <= length edges)%nat ->
    length values = length xs -> (forall p, In p ps -> 0 <= p <= 100) -> (exists x k, In x xs /\ in_bin edges k x) ->
    calculate_percentile_cut false (raw values) (raw xs) (raw edges) (plain fill) (PList ps)
      (plaino lo) (plaino hi) None me = Ok t -> ct_cut t = Cut2 (map (map Fin) rows) ->
    exists t' rows', calculate_percentile_cut false (raw values) (raw xs) (raw edges) (plain fill) (PList ps)
      (plaino lo) (plaino hi) (Some s) me = Ok t' /\ ct_cut t' = Cut2 (map (map Fin) rows') /\
      ct_n_events t' = ct_n_events t /\ Forall2 (smoothed_along reach w) rows rows').
Proof.
  intros Hs. exists (gauss_lw s), (gauss_kernel s (gauss_lw s)). split; [apply gauss_weights_ok; auto|]. split.
  - intros values xs edges fill p lo hi me us t Hnd Hlen Hl Hp Hex Ht Hc.
    destruct (unsmoothed values xs edges fill (PScalar p) lo hi me Hnd Hlen Hl) as (ns & rows & E & _); auto.
    { intros q [<-|[]]; auto. }
    rewrite E in Ht. cbn [smooth rbind] in Ht. injection Ht as <-. cbn [ct_cut column_of] in Hc. rewrite E. cbn [column_of]. rewrite Hc. cbn [ct_n_events].
    cbn [smooth]. rewrite gaussian_filter1d_fin by auto. cbn [rbind]. rewrite rmap_cast. cbn [rbind].
    do 2 eexists. split; [reflexivity|]. split; [reflexivity|]. split; [reflexivity|]. apply gauss_out_along; auto.
  - intros values xs edges fill ps lo hi me rws t Hnd Hlen Hl Hp Hex Ht Hc.
    destruct (unsmoothed values xs edges fill (PList ps) lo hi me Hnd Hlen Hl) as (ns & rows & E & _); auto.
    rewrite E in Ht. cbn [smooth rbind] in Ht. injection Ht as <-. cbn [ct_cut column_of] in Hc. rewrite E. cbn [column_of]. rewrite Hc.
    cbn [smooth].
    assert (Er : rmap (fun r => do s0 <- gaussian_filter1d s r; rmap (cast false) s0) (map (map Fin) rws) =
                 Ok (map (map Fin) (map (fun r => map (gauss_out s r) (seq 0 (length r))) rws))).
    { clear - Hs. induction rws as [|r rws IH]; cbn [map rmap]; auto.
      rewrite gaussian_filter1d_fin by auto. cbn [rbind]. rewrite rmap_cast. cbn [rbind]. rewrite IH. reflexivity. }
    rewrite Er. cbn [rbind]. do 2 eexists. split; [reflexivity|]. split; [reflexivity|]. split; [reflexivity|].
    clear - Hs. induction rws as [|r rws IH]; constructor; auto. apply gauss_out_along; auto.
Qed.

(** percentiles outside of [0, 100] *)
Lemma rmap_bad {A} (f : R -> res A) ps : (forall p, In p ps -> (exists v, f p = Ok v) \/ f p = Err ValueError) -> (exists p, In p ps /\ f p = Err ValueError) ->
  rmap f ps = Err ValueError.
Proof.
  intros H (p & Hp & E). induction ps as [|q ps IH]; [destruct Hp|]. cbn [rmap].
  destruct (H q (or_introl eq_refl)) as [[v Ev]|Ev]; rewrite Ev; cbn [rbind]; auto.
  destruct Hp as [->|Hp]; [congruence|]. rewrite IH; auto. intros r Hr. apply H. right; auto.
Qed.
Lemma nanpercentile_range l p : ~ (0 <= p <= 100) -> nanpercentile l p = Err ValueError.
Proof.
  intros H. unfold nanpercentile. assert (X : Rltb p 0 || Rltb 100 p = true); [|rewrite X; auto].
  apply orb_true_iff. rewrite !Rltb_true. lra.
Qed.
Lemma group_cut_range fill lo hi me ps g : (exists p, In p ps /\ ~ (0 <= p <= 100)) ->
  if (Z.of_nat (length g) <? me)%Z then exists c, group_cut false fill lo hi me ps g = Ok c else group_cut false fill lo hi me ps g = Err ValueError.
Proof.
  intros (p & Hp & Hb). unfold group_cut. destruct (_ <? _)%Z.
  - clear. induction ps as [|q ps [c IH]]; [exists []; auto|]. cbn [rmap cast rbind] in *. rewrite IH. cbn [rbind]. eauto.
  - apply rmap_bad.
    + intros q _. destruct (Rle_dec 0 q) as [H1|H1].
      * destruct (Rle_dec q 100) as [H2|H2].
        -- left. destruct (nanpercentile_ok g q (conj H1 H2)) as [v Ev]. rewrite Ev. cbn [rbind cast]. eauto.
        -- right. rewrite nanpercentile_range by lra. auto.
      * right. rewrite nanpercentile_range by lra. auto.
    + exists p. split; auto. rewrite nanpercentile_range by auto. auto.
Qed.
Lemma cut_loop_range fill lo hi me ps values idx valid keys : (exists p, In p ps /\ ~ (0 <= p <= 100)) -> forall acc,
  (exists k, In k keys /\ (me <= Z.of_nat (length (bin_group values idx valid k)))%Z) ->
  cut_loop false fill lo hi me ps values idx valid keys acc = Err ValueError.
Proof.
  intros Hp. induction keys as [|q keys IH]; intros acc (k & Hk & Hm); [destruct Hk|]. cbn [cut_loop].
  pose proof (group_cut_range fill lo hi me ps (bin_group values idx valid q) Hp) as G.
  destruct (Z.ltb_spec (Z.of_nat (length (bin_group values idx valid q))) me) as [L|L].
  - destruct G as [c ->]. cbn [rbind]. apply IH. destruct Hk as [->|Hk]; [lia|eauto].
  - rewrite G. reflexivity.
Qed.
Lemma c12_range values xs edges fill pc lo hi sm me k sel : nondecreasing edges -> (2 <= length edges)%nat -> length values = length xs ->
  (exists p, In p (pargs pc) /\ ~ (0 <= p <= 100)) ->
  picks (in_bin edges k) xs values sel -> sel <> [] -> (me <= Z.of_nat (length sel))%Z ->
  calculate_percentile_cut false (raw values) (raw xs) (raw edges) (plain fill) pc (plaino lo) (plaino hi) sm me = Err ValueError.
Proof.
  intros Hnd Hlen Hl Hp Hs Hne Hme.
  assert (Hx : exists i x, nth_error xs i = Some x /\ in_bin edges k x).
  { clear - Hs Hne. induction Hs; try congruence.
    - exists 0%nat. eexists. split; [reflexivity|auto].
    - destruct IHHs as (i & y & H1 & H2); auto. exists (S i), y. auto. }
  destruct Hx as (i & x & Hi & Hin).
  assert (Hk : (k < length edges - 1)%nat).
  { destruct Hin as (a & b & Ha & Hb & _). apply nth_some_lt in Hb. lia. }
  destruct (bin_indices_inc xs edges Hnd ltac:(destruct edges; simpl in *; [lia|discriminate])) as (idx & valid & E & L1 & L2 & Ho).
  unfold calculate_percentile_cut. cbn [a_unit raw a_val plain s_val s_unit rbind].
  assert (Bn : forall b, bound_to None (plaino b) = Ok b) by (intros [b|]; reflexivity).
  rewrite !Bn. cbn [rbind]. unfold raw. rewrite E. cbn [rbind fst snd]. rewrite Hl, Nat.eqb_refl. cbn [negb].
  destruct (Ho i x Hi) as (z & v & Hz & Hv & Hout).
  destruct (bin_outcome_functional edges x z v (Z.of_nat k) true Hnd Hout (inside edges x k Hin)) as [-> ->].
  assert (Ev : existsb (fun b : bool => b) valid = true) by (apply existsb_exists; exists true; split; auto; eapply nth_error_In; eauto).
  rewrite Ev. cbn [negb cast rbind].
  assert (Hg : bin_group values idx valid (Z.of_nat k) = sel) by (apply (bin_group_picks edges values xs); auto).
  change (match pc with PScalar p => [p] | PList l => l end) with (pargs pc).
  rewrite cut_loop_range; auto. exists (Z.of_nat k). rewrite Hg. split; auto.
  rewrite bin_keys_in, <- (bin_group_in values); [|lia|lia]. rewrite Hg. auto.
Qed.
