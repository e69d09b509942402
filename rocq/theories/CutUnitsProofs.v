(** * CutUnitsProofs: C81 *)
From Coq Require Import String Reals List Bool ZArith Lia Lra.
From Verif Require Import Num Numpy Sort Table Binning BinningProofs Percentile Cuts Benchmarks CutUnits SpecCutUnits.
From Verif Require SpectralUnitsProofs IRFUnitsProofs.
Import ListNotations.
Open Scope R_scope.

Definition sc (c : R) : num -> num := nmul (Fin c).
Lemma sc_1 l : map (sc 1) l = l.
Proof. rewrite <- (map_id l) at 2. apply map_ext. intros; apply nmul_1. Qed.

(** ** the relation *)
Definition scaled (c : R) (u u' : option unit_) : Prop :=
  0 < c /\ match u, u' with
           | None, None => c = 1
           | Some v, Some w => 0 < u_scale v /\ 0 < u_scale w /\ u_dim v = u_dim w /\ c = u_scale v / u_scale w
           | _, _ => False
           end.
Lemma scaled_kind c u u' : scaled c u u' -> same_kind u u'.
Proof. intros (H & H0). destruct u, u'; cbn in *; tauto. Qed.
Lemma kind_scaled u u' : same_kind u u' -> exists c, scaled c u u'.
Proof.
  intros H. destruct u as [v|], u' as [w|]; cbn in H; try tauto.
  - exists (u_scale v / u_scale w). destruct H as (H1 & H2 & H3). split; [apply Rdiv_lt_0_compat; auto|cbn; auto].
  - exists 1. split; [lra|reflexivity].
Qed.
Lemma scaled_num c u u' x x' : scaled c u u' -> (in_base u x = in_base u' x' <-> x' = sc c x).
Proof.
  intros (H & H0). destruct u as [v|], u' as [w|]; cbn [in_base] in *; try tauto.
  - destruct H0 as (H1 & H2 & H3 & ->). unfold sc. split.
    + intros E. transitivity (nmul (Fin (/ u_scale w)) (nmul (Fin (u_scale w)) x')).
      * rewrite nmul_assoc_fin by (auto using Rinv_0_lt_compat). rewrite Rinv_l by lra. rewrite nmul_1. reflexivity.
      * rewrite <- E. rewrite nmul_assoc_fin by (auto using Rinv_0_lt_compat). f_equal. f_equal. unfold Rdiv. ring.
    + intros ->. rewrite nmul_assoc_fin by (auto using Rdiv_lt_0_compat). f_equal. f_equal. field. lra.
  - subst c. unfold sc. rewrite nmul_1. split; auto.
Qed.
Lemma scaled_list c u u' l l' : scaled c u u' -> (map (in_base u) l = map (in_base u') l' <-> l' = map (sc c) l).
Proof.
  intros H. split.
  - revert l'. induction l as [|x l IH]; intros [|x' l'] E; try discriminate; auto. cbn [map] in E.
    assert (E1 : in_base u x = in_base u' x') by congruence. assert (E2 : map (in_base u) l = map (in_base u') l') by congruence.
    cbn [map]. f_equal; [apply (scaled_num c u u'); auto|auto].
  - intros ->. rewrite map_map. apply map_ext. intros x. apply (scaled_num c u u'); auto.
Qed.
Lemma same_scaled u u' l l' : same_numbers u u' l l' -> exists c, scaled c u u' /\ l' = map (sc c) l.
Proof.
  intros (H & E). destruct (kind_scaled _ _ H) as (c & Hc). exists c. split; auto. apply (scaled_list c u u'); auto.
Qed.
Lemma scaled_same c u u' l : scaled c u u' -> same_numbers u u' l (map (sc c) l).
Proof. intros H. split; [eapply scaled_kind; eauto|]. apply (scaled_list c u u'); auto. Qed.
Lemma scaled_unique c d u u' : scaled c u u' -> scaled d u u' -> c = d.
Proof. intros (_ & H) (_ & K). destruct u, u'; try tauto; intuition congruence. Qed.

(** ** scaling and arithmetic *)
Ltac cs := intros; repeat match goal with x : num |- _ => destruct x end; simpl; unfold inf_signed; simpl; rsolve; auto; simpl; unfold inf_signed; rsolve; auto; try (f_equal; ring).
Lemma sc_add c x y : 0 < c -> nadd (sc c x) (sc c y) = sc c (nadd x y).
Proof. unfold sc. cs. Qed.
Lemma sc_sub c x y : 0 < c -> nsub (sc c x) (sc c y) = sc c (nsub x y).
Proof. unfold sc. cs. Qed.
Lemma sc_mul c x k : 0 < c -> nmul (sc c x) (Fin k) = sc c (nmul x (Fin k)).
Proof. unfold sc. intros. destruct x; simpl; unfold inf_signed; simpl; rsolve; auto; simpl; unfold inf_signed; rsolve; auto; try (f_equal; ring); destruct (Reqb k 0), (Rltb 0 k); auto. Qed.
Lemma sc_mul_l c x k : 0 < c -> nmul (Fin k) (sc c x) = sc c (nmul (Fin k) x).
Proof. unfold sc. intros. destruct x; simpl; unfold inf_signed; simpl; rsolve; auto; simpl; unfold inf_signed; rsolve; auto; try (f_equal; ring); destruct (Reqb k 0), (Rltb 0 k); auto. Qed.
Lemma is_nan_sc c x : 0 < c -> is_nan (sc c x) = is_nan x.
Proof. apply is_nan_scale. Qed.
Lemma nle_sc c x y : 0 < c -> nle (sc c x) (sc c y) = nle x y.
Proof. apply nle_scale. Qed.
Lemma nlt_sc c x y : 0 < c -> nlt (sc c x) (sc c y) = nlt x y.
Proof. apply nlt_scale. Qed.
Lemma sc_nan c : sc c NaN = NaN.
Proof. reflexivity. Qed.
Lemma sc_fin c r : sc c (Fin r) = Fin (c * r).
Proof. reflexivity. Qed.
Lemma nth_sc c l i : nth i (map (sc c) l) NaN = sc c (nth i l NaN).
Proof. rewrite <- (sc_nan c) at 1. apply map_nth. Qed.
Lemma last_sc c l : last (map (sc c) l) NaN = sc c (last l NaN).
Proof. induction l as [|x [|y l] IH]; auto. Qed.
Lemma insert_sc c x l : 0 < c -> insert np_le (sc c x) (map (sc c) l) = map (sc c) (insert np_le x l).
Proof.
  intros H. induction l as [|y l IH]; auto. cbn [insert map]. unfold np_le at 1 3. rewrite is_nan_sc, nle_sc by auto. destruct (is_nan y || nle x y)%bool; auto.
  cbn [map]. f_equal. exact IH.
Qed.
Lemma nsort_sc c l : 0 < c -> nsort (map (sc c) l) = map (sc c) (nsort l).
Proof. intros H. unfold nsort. induction l as [|x l IH]; auto. cbn [isort fold_right map]. rewrite <- insert_sc by auto. f_equal. exact IH. Qed.
Lemma drop_nan_sc c l : 0 < c -> drop_nan (map (sc c) l) = map (sc c) (drop_nan l).
Proof. intros H. unfold drop_nan. induction l as [|x l IH]; auto. cbn [map filter]. rewrite is_nan_sc by auto. destruct (is_nan x); cbn [negb map]; congruence. Qed.
Lemma nlerp_sc c a b t : 0 < c -> nlerp (sc c a) (sc c b) t = sc c (nlerp a b t).
Proof. intros H. unfold nlerp. rewrite sc_sub by auto. destruct (Rltb t (1/2)); rewrite sc_mul by auto; [apply sc_add|apply sc_sub]; auto. Qed.
Lemma np_percentile_sc c l p : 0 < c -> np_percentile (map (sc c) l) p = sc c (np_percentile l p).
Proof.
  intros H. unfold np_percentile. rewrite nsort_sc by auto. rewrite map_length. destruct (Rleb _ _); [apply last_sc|]. rewrite !nth_sc. apply nlerp_sc. auto.
Qed.
Definition rsc (c : R) (r : res num) : res num := do x <- r; Ok (sc c x).
Lemma nanpercentile_sc c l p : 0 < c -> nanpercentile (map (sc c) l) p = rsc c (nanpercentile l p).
Proof.
  intros H. unfold nanpercentile. destruct (Rltb p 0 || Rltb 100 p)%bool; auto. rewrite drop_nan_sc by auto. destruct (drop_nan l) as [|x l']; auto.
  change (map (sc c) (x :: l')) with (sc c x :: map (sc c) l'). unfold rsc. cbn [rbind]. rewrite <- np_percentile_sc by auto. reflexivity.
Qed.
Lemma nmax_sc c x y : 0 < c -> nmax (sc c x) (sc c y) = sc c (nmax x y).
Proof. intros H. unfold nmax. rewrite !is_nan_sc, nle_sc by auto. destruct (is_nan x || is_nan y)%bool; auto. destruct (nle y x); auto. Qed.
Lemma nmin_sc c x y : 0 < c -> nmin (sc c x) (sc c y) = sc c (nmin x y).
Proof. intros H. unfold nmin. rewrite !is_nan_sc, nle_sc by auto. destruct (is_nan x || is_nan y)%bool; auto. destruct (nle x y); auto. Qed.
Lemma clip_sc c lo hi x : 0 < c -> clip (option_map (sc c) lo) (option_map (sc c) hi) (sc c x) = sc c (clip lo hi x).
Proof. intros H. unfold clip. destruct lo, hi; cbn [option_map]; rewrite ?nmax_sc, ?nmin_sc by auto; reflexivity. Qed.
Lemma nsum_sc c l : 0 < c -> nsum (map (sc c) l) = sc c (nsum l).
Proof.
  intros H. unfold nsum. induction l as [|x l IH]; cbn [map fold_right]; [cbn; f_equal; ring|]. rewrite IH. apply sc_add. auto.
Qed.
(** ** groups *)
Lemma bin_group_map {A B} (f : A -> B) values idx valid k : bin_group (map f values) idx valid k = map f (bin_group values idx valid k).
Proof.
  unfold bin_group. revert idx valid. induction values as [|x values IH]; intros [|i idx] [|v valid]; auto. cbn [combine map filter fst snd].
  destruct (v && Z.eqb i k)%bool; cbn [map fst]; rewrite IH; reflexivity.
Qed.
Lemma list_set_map {A B} (f : A -> B) l i x : list_set (map f l) i (f x) = map f (list_set l i x).
Proof. revert i. induction l as [|a l IH]; intros [|i]; cbn [list_set map]; auto. rewrite IH. reflexivity. Qed.
Lemma rmap_repeat_fill {A B} (f : A -> B) (ps : list R) (x : A) : rmap (fun _ => Ok (f x)) ps = (do l <- rmap (fun _ => Ok x) ps; Ok (map f l)).
Proof. induction ps as [|p ps IH]; auto. cbn [rmap rbind]. rewrite IH. destruct (rmap (fun _ => Ok x) ps); auto. Qed.
Lemma group_cut_sc c fill lo hi n ps g : 0 < c ->
  group_cut false (sc c fill) (option_map (sc c) lo) (option_map (sc c) hi) n ps (map (sc c) g) = (do l <- group_cut false fill lo hi n ps g; Ok (map (sc c) l)).
Proof.
  intros H. unfold group_cut, cast. rewrite map_length. destruct (Z.ltb _ n); [apply (rmap_repeat_fill (sc c))|].
  induction ps as [|p ps IH]; [reflexivity|]. cbn [rmap]. rewrite IH, nanpercentile_sc by auto. unfold rsc. destruct (nanpercentile g p) as [v|e]; cbn [rbind]; auto.
  rewrite clip_sc by auto. clear IH. destruct (rmap _ ps); reflexivity.
Qed.
Lemma cut_loop_sc c fill lo hi n ps values idx valid keys acc : 0 < c ->
  cut_loop false (sc c fill) (option_map (sc c) lo) (option_map (sc c) hi) n ps (map (sc c) values) idx valid keys (fst acc, map (map (sc c)) (snd acc)) =
  (do r <- cut_loop false fill lo hi n ps values idx valid keys acc; Ok (fst r, map (map (sc c)) (snd r))).
Proof.
  intros H. revert acc. induction keys as [|k keys IH]; intros acc; [reflexivity|]. cbn [cut_loop]. rewrite bin_group_map, group_cut_sc by auto.
  destruct (group_cut false fill lo hi n ps (bin_group values idx valid k)) as [l|e]; cbn [rbind]; auto. rewrite map_length. cbn [fst snd]. rewrite list_set_map. apply IH with (acc := (_, _)).
Qed.
(** ** smoothing *)
Lemma filter1d_sc c sigma l : 0 < c -> gaussian_filter1d sigma (map (sc c) l) = (do r <- gaussian_filter1d sigma l; Ok (map (sc c) r)).
Proof.
  intros H. unfold gaussian_filter1d. destruct (Reqb sigma 0); auto. destruct (Z.ltb _ 0); auto. cbn [rbind]. rewrite map_length, map_map. f_equal. apply map_ext. intros i.
  rewrite <- nsum_sc by auto. rewrite map_map. f_equal. apply map_ext. intros j. rewrite nth_sc. apply sc_mul_l. auto.
Qed.
Lemma rmap_cast l : rmap (cast false) l = Ok l.
Proof. induction l as [|x l IH]; auto. cbn [rmap]. unfold cast at 1. cbn [rbind]. rewrite IH. reflexivity. Qed.
Definition col_sc (c : R) (col : cut_column) : cut_column := match col with Cut1 l => Cut1 (map (sc c) l) | Cut2 r => Cut2 (map (map (sc c)) r) end.
Lemma smooth_sc c s col : 0 < c -> smooth false s (col_sc c col) = (do r <- smooth false s col; Ok (col_sc c r)).
Proof.
  intros H. destruct s as [sigma|]; auto. cbn [smooth]. destruct col as [l|rows]; cbn [col_sc].
  - rewrite filter1d_sc by auto. destruct (gaussian_filter1d sigma l) as [r|e]; cbn [rbind]; auto. rewrite !rmap_cast. reflexivity.
  - assert (E : rmap (fun r => do s <- gaussian_filter1d sigma r; rmap (cast false) s) (map (map (sc c)) rows) =
      (do r <- rmap (fun r => do s <- gaussian_filter1d sigma r; rmap (cast false) s) rows; Ok (map (map (sc c)) r))).
    { induction rows as [|r rows IH]; auto. cbn [rmap map]. rewrite IH, filter1d_sc by auto. destruct (gaussian_filter1d sigma r) as [x|e]; cbn [rbind]; auto. rewrite !rmap_cast. cbn [rbind].
      destruct (rmap _ rows); auto. }
    rewrite E. destruct (rmap _ rows); auto.
Qed.
(** ** bin indices *)
Lemma arbitrary_sc c l : 0 < c -> forallb arbitrary_unit_ok l = true -> map (sc c) l = l.
Proof.
  intros H. induction l as [|x l IH]; auto. cbn [forallb map]. intros E. apply andb_true_iff in E. destruct E as (E1 & E2). rewrite IH by auto. f_equal.
  destruct x as [r| | |]; cbn in *; unfold inf_signed; rsolve; auto. apply Reqb_true in E1. subst. f_equal. ring.
Qed.
Lemma map_sc_sc c d l : 0 < c -> 0 < d -> map (sc c) (map (sc d) l) = map (sc (c * d)) l.
Proof. intros. rewrite map_map. apply map_ext. intros. apply nmul_assoc_fin; auto. Qed.
Lemma indices_same data data' bins bins' : same_array data data' -> same_array bins bins' ->
  calculate_bin_indices data bins = calculate_bin_indices data' bins'.
Proof.
  intros H K. destruct data as [d ud], data' as [d' ud'], bins as [b ub], bins' as [b' ub']. unfold same_array in *. cbn [a_val a_unit] in *.
  destruct (same_scaled _ _ _ _ H) as (c & (Hc & Hu) & ->). destruct (same_scaled _ _ _ _ K) as (k & (Hk & Hv) & ->).
  destruct ud as [v|], ud' as [v'|]; try tauto; destruct ub as [w|], ub' as [w'|]; try tauto.
  - destruct Hu as (P1 & P2 & D1 & ->), Hv as (Q1 & Q2 & D2 & ->). destruct (Nat.eq_dec (u_dim v) (u_dim w)) as [E|E].
    + symmetry. apply (bin_indices_units d b v w v' w'); congruence || auto.
    + rewrite !bin_indices_wrong_dim by congruence. reflexivity.
  - unfold calculate_bin_indices. cbn [a_unit a_val]. subst c. rewrite sc_1. destruct Hv as (Q1 & Q2 & D2 & ->). rewrite <- D2.
    destruct (Nat.eqb_spec (u_dim w) dimless_dim) as [E|E].
    + unfold Table.to_value. rewrite <- D2, E. cbn [u_dim one_unit]. rewrite Nat.eqb_refl. cbn [rbind]. rewrite <- (bin_indices_scale (u_scale w / u_scale w')) by auto. f_equal.
      rewrite map_map. apply map_ext. intros x. unfold convert_val. cbn [u_scale one_unit]. rewrite nmul_assoc_fin by (auto; apply Rdiv_lt_0_compat; lra). f_equal. f_equal. field. lra.
    + destruct (forallb arbitrary_unit_ok d) eqn:A; auto. rewrite <- (arbitrary_sc (u_scale w / u_scale w') d) at 2 by auto. symmetry. apply bin_indices_scale. auto.
  - subst c. subst k. rewrite !sc_1. reflexivity.
Qed.
(** ** percentile cuts *)
Lemma but_last_sc c l : but_last (map (sc c) l) = map (sc c) (but_last l).
Proof. unfold but_last. rewrite <- removelast_map || (induction l as [|x [|y l] IH]; auto; cbn [removelast map] in *; rewrite IH; auto). Qed.
Lemma tl_map {A B} (f : A -> B) l : tl (map f l) = map f (tl l).
Proof. destruct l; auto. Qed.
Lemma center_sc c l : 0 < c -> bin_center (map (sc c) l) = map (sc c) (bin_center l).
Proof.
  intros H. unfold bin_center. rewrite but_last_sc, tl_map. generalize (tl l). generalize (but_last l). induction l0 as [|x l0 IH]; intros [|y l1]; auto. cbn [zipwith map].
  rewrite IH, sc_add, sc_mul_l by auto. reflexivity.
Qed.
Lemma quantity_same x x' u u' c : same_scalar x x' -> scaled c (Some u) (Some u') -> quantity_to x' u' = rsc c (quantity_to x u).
Proof.
  intros H (Hc & P1 & P2 & D & ->). destruct (same_scaled _ _ _ _ H) as (k & (Hk & Hv) & E). cbn [map] in E. assert (E1 : s_val x' = sc k (s_val x)) by congruence. unfold quantity_to.
  rewrite E1. destruct (s_unit x) as [v|], (s_unit x') as [v'|]; try tauto.
  - destruct Hv as (Q1 & Q2 & D2 & ->). rewrite <- D2, D. destruct (Nat.eqb _ _); auto. cbn [rsc rbind]. f_equal. unfold convert_val, sc.
    rewrite !nmul_assoc_fin by (apply Rdiv_lt_0_compat; auto). f_equal. f_equal. field. lra.
  - subst k. unfold sc at 1. rewrite nmul_1. rewrite D. destruct (Nat.eqb _ _); auto. cbn [rsc rbind]. f_equal. unfold convert_val, sc. cbn [u_scale one_unit].
    rewrite !nmul_assoc_fin by (apply Rdiv_lt_0_compat; lra). f_equal. f_equal. field. lra.
Qed.
Lemma bound_same x x' u u' c : same_optional x x' -> scaled c (Some u) (Some u') ->
  bound_to (Some u') x' = (do r <- bound_to (Some u) x; Ok (option_map (sc c) r)).
Proof.
  intros H K. destruct x as [s|], x' as [s'|]; try contradiction; auto. cbn [bound_to]. rewrite (quantity_same s s' u u' c) by auto. destruct (quantity_to s u); auto.
Qed.
Lemma same_plain s s' : same_scalar s s' -> s_unit s = None -> s' = s.
Proof. intros (H & E) N. destruct s as [x u], s' as [x' u']. cbn in *. subst u. destruct u'; [tauto|]. cbn in E. congruence. Qed.
Definition plain (s : scalar) : Prop := s_unit s = None.
Definition plain_optional (s : option scalar) : Prop := forall x, s = Some x -> plain x.
Lemma bound_plain x x' : same_optional x x' -> plain_optional x -> bound_to None x' = bound_to None x.
Proof. intros H P. destruct x as [s|], x' as [s'|]; try contradiction; auto. rewrite (same_plain s s') by (auto; apply P; auto). reflexivity. Qed.
Lemma repeat_map {A B} (f : A -> B) x n : repeat (f x) n = map f (repeat x n).
Proof. induction n; cbn; congruence. Qed.
Lemma kind_edges ub ub' k l : scaled k ub ub' -> same_numbers ub ub' l (map (sc k) l).
Proof. apply scaled_same. Qed.
Lemma rows_same c u u' r : scaled c u u' -> Forall2 (same_numbers u u') r (map (map (sc c)) r).
Proof. intros H. induction r as [|x r IH]; constructor; auto. apply scaled_same. auto. Qed.
Lemma col_same c u u' col : scaled c u u' -> same_column u u' col (col_sc c col).
Proof. intros H. destruct col; cbn [col_sc same_column]; [apply scaled_same; auto|split; [eapply scaled_kind; eauto|apply rows_same; auto]]. Qed.
Lemma percentile_cut_same values values' bin_values bin_values' bins bins' fill fill' percentile lo lo' hi hi' smoothing min_events :
  same_array values values' -> same_array bin_values bin_values' -> same_array bins bins' ->
  same_scalar fill fill' -> same_optional lo lo' -> same_optional hi hi' ->
  (a_unit values = None -> plain fill /\ plain_optional lo /\ plain_optional hi) ->
  same_result same_cuts (calculate_percentile_cut false values bin_values bins fill percentile lo hi smoothing min_events)
    (calculate_percentile_cut false values' bin_values' bins' fill' percentile lo' hi' smoothing min_events).
Proof.
  intros Hv Hx Hb Hf Hl Hh Hp. unfold calculate_percentile_cut. rewrite <- (indices_same _ _ _ _ Hx Hb).
  destruct (same_scaled _ _ _ _ Hv) as (c & Sc & Ev). destruct (same_scaled _ _ _ _ Hb) as (k & Sk & Eb). destruct (same_scaled _ _ _ _ Hx) as (k' & Sx & Ex). rewrite Ev, Eb, Ex, !map_length.
  assert (C : 0 < c) by apply Sc. assert (K : 0 < k) by apply Sk. rewrite but_last_sc, tl_map, center_sc by auto.
  assert (G : exists f g h r1 r2, (match a_unit values with Some v => do x <- quantity_to fill v; Ok (x, Some v) | None => Ok (s_val fill, s_unit fill) end) = r1 /\
     (match a_unit values' with Some v => do x <- quantity_to fill' v; Ok (x, Some v) | None => Ok (s_val fill', s_unit fill') end) = r2 /\
     match r1 with Ok p => r2 = Ok (sc c (fst p), a_unit values') /\ snd p = a_unit values | Err e => r2 = Err e end /\
     f = bound_to (a_unit values') lo' /\ f = (do r <- bound_to (a_unit values) lo; Ok (option_map (sc c) r)) /\
     g = bound_to (a_unit values') hi' /\ g = (do r <- bound_to (a_unit values) hi; Ok (option_map (sc c) r)) /\ h = c).
  { pose proof Sc as (_ & Hu). destruct (a_unit values) as [v|] eqn:U, (a_unit values') as [v'|] eqn:U'; try tauto.
    - do 5 eexists. split; [reflexivity|]. split; [reflexivity|]. split; [|split; [reflexivity|]; split; [apply bound_same; auto|]; split; [reflexivity|]; split; [apply bound_same; auto|reflexivity]].
      rewrite (quantity_same fill fill' v v' c) by auto. destruct (quantity_to fill v); cbn; auto.
    - subst c. destruct (Hp eq_refl) as (P1 & P2 & P3). rewrite (same_plain fill fill') by auto. do 5 eexists. split; [reflexivity|]. split; [reflexivity|]. cbn [fst snd].
      split; [unfold sc; rewrite nmul_1, P1; auto|]. assert (I : forall r : res (option num), r = (do x <- r; Ok (option_map (sc 1) x))).
      { intros [[x|]|e]; cbn [rbind option_map]; auto. unfold sc. rewrite nmul_1. reflexivity. }
      split; [reflexivity|]. split; [rewrite (bound_plain lo lo') by auto; apply I|]. split; [reflexivity|]. split; [rewrite (bound_plain hi hi') by auto; apply I|reflexivity]. }
  destruct G as (f & g & h & r1 & r2 & -> & -> & R & E1 & E2 & E3 & E4 & _). rewrite <- E1, <- E3, E2, E4. clear E1 E2 E3 E4.
  destruct r1 as [(fl & fu)|e]; [|subst r2; cbn; auto]. destruct R as (-> & R). cbn [fst snd] in R. subst fu. cbn [rbind fst snd].
  destruct (bound_to (a_unit values) lo) as [l|e]; cbn [rbind same_result]; auto. destruct (bound_to (a_unit values) hi) as [m|e]; cbn [rbind same_result]; auto.
  destruct (calculate_bin_indices bin_values bins) as [(idx & valid)|e]; cbn [rbind same_result]; auto. cbn [fst snd].
  destruct (negb (Nat.eqb _ _)); cbn [same_result]; auto. destruct (negb (existsb _ valid)); cbn [same_result]; auto. unfold cast at 1 2. cbn [rbind].
  set (ps := match percentile with PScalar p => [p] | PList l => l end). rewrite (repeat_map (sc c)), (repeat_map (map (sc c))).
  pose proof (cut_loop_sc c fl l m min_events ps (a_val values) idx valid (bin_keys idx valid) (repeat 0%Z (length (a_val bins) - 1), repeat (repeat fl (length ps)) (length (a_val bins) - 1)) C) as L.
  cbn [fst snd] in L. rewrite L. clear L. destruct (cut_loop false fl l m _ _ _ _ _ _ _) as [(n & rows)|e]; cbn [rbind same_result]; auto. cbn [fst snd].
  assert (E : (match percentile with PScalar _ => Cut1 (map (fun r => hd NaN r) (map (map (sc c)) rows)) | PList _ => Cut2 (map (map (sc c)) rows) end) =
    col_sc c (match percentile with PScalar _ => Cut1 (map (fun r => hd NaN r) rows) | PList _ => Cut2 rows end)).
  { destruct percentile; cbn [col_sc]; auto. rewrite !map_map. f_equal. apply map_ext. intros [|x r]; reflexivity. }
  rewrite E, smooth_sc by auto. clear E. destruct (smooth false smoothing _) as [col|e]; cbn [rbind same_result]; auto. unfold same_cuts.
  cbn [ct_low ct_high ct_center ct_edge_unit ct_n_events ct_cut ct_cut_unit]. split; [apply scaled_same; auto|]. split; [apply scaled_same; auto|]. split; [apply scaled_same; auto|]. split; auto.
  apply col_same. auto.
Qed.
(** ** evaluation of cuts *)
Lemma comparison_sc op c x y : comparison op -> 0 < c -> op (sc c x) (sc c y) = op x y.
Proof.
  intros [<-|[<-|[<-|[<-|[<-|[]]]]]] H; unfold ngt, nge; [apply nlt_scale|apply nle_scale|apply nlt_scale|apply nle_scale|apply neqb_scale]; auto.
Qed.
Lemma np_index_map {A B} (f : A -> B) l z : np_index (map f l) z = (do x <- np_index l z; Ok (f x)).
Proof.
  unfold np_index. rewrite map_length. destruct (_ || _)%bool; auto. rewrite nth_error_map. destruct (nth_error l _); auto.
Qed.
Lemma eval_rows_map op op' f g cuts values idx valid : (forall x y, op' (f x) (g y) = op x y) ->
  eval_rows op' (map g cuts) (map f values) idx valid = eval_rows op cuts values idx valid.
Proof.
  intros H. revert idx valid. induction values as [|x values IH]; intros [|z idx] [|v valid]; cbn [eval_rows map]; auto. rewrite IH, np_index_map. destruct v; auto.
  destruct (np_index cuts z); cbn [rbind]; auto. rewrite H. reflexivity.
Qed.
Lemma evaluate_map op op' f g values values' bin_values bin_values' low high eu low' high' eu' cuts q :
  (forall x y, op' (f x) (g y) = op x y) -> values' = map f values -> same_array bin_values bin_values' ->
  same_numbers eu eu' low low' -> same_numbers eu eu' high high' ->
  evaluate_binned_cut q values' bin_values' low' high' eu' (map g cuts) op' = evaluate_binned_cut q values bin_values low high eu cuts op.
Proof.
  intros H -> Hx Hl Hh. unfold evaluate_binned_cut. destruct q; auto. destruct (same_scaled _ _ _ _ Hl) as (c & S & ->). destruct (same_scaled _ _ _ _ Hh) as (d & S' & ->).
  rewrite (scaled_unique _ _ _ _ S' S). cbn [negb]. rewrite <- map_rev. destruct (rev high) as [|h r]; auto. cbn [map].
  rewrite (indices_same bin_values bin_values' (mkArr (low ++ [h]) eu) (mkArr (map (sc c) low ++ [sc c h]) eu')).
  2: auto.
  2:{ change [sc c h] with (map (sc c) [h]). rewrite <- map_app. apply (scaled_same c); auto. }
  destruct (calculate_bin_indices bin_values' _) as [(idx & valid)|e]; cbn [rbind]; auto. cbn [fst snd]. unfold evaluate_binned_cut_by_index. rewrite map_length. cbn [negb].
  destruct (negb (Nat.eqb (length values) _)); auto. destruct (negb (Nat.eqb (length valid) _)); auto. apply eval_rows_map. auto.
Qed.
Lemma evaluate_same values values' vu vu' bin_values bin_values' low low' high high' eu eu' cuts cuts' cu cu' op q :
  comparison op -> same_numbers (Some vu) (Some vu') values values' -> same_array bin_values bin_values' ->
  same_numbers eu eu' low low' -> same_numbers eu eu' high high' -> same_numbers (Some cu) (Some cu') cuts cuts' ->
  evaluate_binned_cut_q q values' vu' bin_values' low' high' eu' cuts' cu' op = evaluate_binned_cut_q q values vu bin_values low high eu cuts cu op.
Proof.
  intros Ho Hv Hx Hl Hh Hc. destruct (same_scaled _ _ _ _ Hv) as (c & (C & P1 & P2 & D1 & Ec) & Ev). destruct (same_scaled _ _ _ _ Hc) as (d & (D & Q1 & Q2 & D2 & Ed) & ->).
  unfold evaluate_binned_cut_q. rewrite (evaluate_map (fun _ _ => true) (fun _ _ => true) (sc c) (sc d) values values' bin_values bin_values' low high eu low' high' eu' cuts q) by auto.
  rewrite D1, D2. destruct (evaluate_binned_cut q values bin_values low high eu cuts (fun _ _ => true)); cbn [rbind]; auto. destruct (Nat.eqb _ _); auto.
  replace (map (convert_val cu' vu') (map (sc d) cuts)) with (map (sc c) (map (convert_val cu vu) cuts)).
  2:{ rewrite !map_map. apply map_ext. intros x. unfold convert_val, sc. rewrite !nmul_assoc_fin by (auto using Rdiv_lt_0_compat). f_equal. f_equal. subst. field. lra. }
  apply (evaluate_map op op (sc c) (sc c)); auto. intros. apply comparison_sc; auto.
Qed.
(** ** benchmarks *)
Lemma get_same events events' name : same_events events events' ->
  match get_column events name, get_column events' name with Ok a, Ok a' => same_array a a' | Err e, Err e' => e = e' | _, _ => False end.
Proof.
  intros H. unfold get_column. induction H as [|(n & a) (n' & a') l l' (E & S) H IH]; cbn [getitem]; auto. cbn [fst snd] in *. subst n'.
  destruct (String.eqb name n); auto.
Qed.
Lemma rows_same_events events events' : same_events events events' -> n_rows events' = n_rows events.
Proof.
  intros H. destruct H as [|(n & a) (n' & a') l l' (E & S) H]; auto. cbn [n_rows snd] in *. destruct (same_scaled _ _ _ _ S) as (c & _ & ->). apply map_length.
Qed.
Definition cols_sc (c : R) (t : list (string * list num)) : list (string * list num) := map (fun p => (fst p, map (sc c) (snd p))) t.
Definition bsc (k : R) (u : option unit_) (c : R) (t : bench_table) : bench_table :=
  mkBench (map (sc k) (bt_low t)) (map (sc k) (bt_high t)) (map (sc k) (bt_center t)) u (bt_n_events t) (cols_sc c (bt_cols t)).
Lemma setitem_sc c t n l : setitem (cols_sc c t) n (map (sc c) l) = cols_sc c (setitem t n l).
Proof. induction t as [|(m & x) t IH]; auto. cbn [cols_sc setitem map fst snd]. destruct (String.eqb n m); auto. cbn [map fst snd]. f_equal. exact IH. Qed.
Lemma getitem_sc c t n : getitem (cols_sc c t) n = option_map (map (sc c)) (getitem t n).
Proof. induction t as [|(m & x) t IH]; auto. cbn [cols_sc getitem map fst snd]. destruct (String.eqb n m); auto. Qed.
Lemma set_entry_sc c t n b v : set_entry (cols_sc c t) n b (sc c v) = cols_sc c (set_entry t n b v).
Proof. unfold set_entry. rewrite getitem_sc. destruct (getitem t n); cbn [option_map]; auto. rewrite list_set_map, setitem_sc. reflexivity. Qed.
Lemma fold_entry_sc c b names vs t :
  fold_left (fun cs nv => set_entry cs (fst nv) b (snd nv)) (combine names (map (sc c) vs)) (cols_sc c t) =
  cols_sc c (fold_left (fun cs nv => set_entry cs (fst nv) b (snd nv)) (combine names vs) t).
Proof. revert vs t. induction names as [|n names IH]; intros [|v vs] t; auto. cbn [map combine fold_left fst snd]. rewrite set_entry_sc. apply IH. Qed.
Lemma fill_bins_sc k u c names f f' values idx valid keys t :
  (forall g, f' (map (sc c) g) = (do l <- f g; Ok (map (sc c) l))) ->
  fill_bins names f' (map (sc c) values) idx valid keys (bsc k u c t) = (do r <- fill_bins names f values idx valid keys t; Ok (bsc k u c r)).
Proof.
  intros H. revert t. induction keys as [|z keys IH]; intros t; [reflexivity|]. cbn [fill_bins]. rewrite bin_group_map, H. destruct (f _) as [l|e]; cbn [rbind]; auto.
  rewrite map_length. cbn [bsc bt_low bt_high bt_center bt_unit bt_n_events bt_cols]. rewrite fold_entry_sc.
  exact (IH (mkBench (bt_low t) (bt_high t) (bt_center t) (bt_unit t) (list_set (bt_n_events t) (Z.to_nat z) (Z.of_nat (length (bin_group values idx valid z)))) (fold_left (fun cs nv => set_entry cs (fst nv) (Z.to_nat z) (snd nv)) (combine names l) (bt_cols t)))).
Qed.
Lemma group_fill_sc k u c names f f' values iv t :
  (forall g, f' (map (sc c) g) = (do l <- f g; Ok (map (sc c) l))) ->
  group_and_fill names f' (map (sc c) values) iv (bsc k u c t) = (do r <- group_and_fill names f values iv t; Ok (bsc k u c r)).
Proof. intros H. unfold group_and_fill. destruct (existsb _ _); auto. apply fill_bins_sc. auto. Qed.
Lemma empty_sc k c bins bins' names : scaled k (a_unit bins) (a_unit bins') -> a_val bins' = map (sc k) (a_val bins) ->
  empty_table bins' names = bsc k (a_unit bins') c (empty_table bins names).
Proof.
  intros (K & _) E. unfold empty_table, bsc. cbn [bt_low bt_high bt_center bt_n_events bt_cols]. rewrite E, map_length, but_last_sc, tl_map, center_sc by auto. f_equal.
  generalize (length (a_val bins) - 1)%nat. intros n.
  assert (G : forall t, fold_left (fun t m => setitem t m (repeat NaN n)) names (cols_sc c t) = cols_sc c (fold_left (fun t m => setitem t m (repeat NaN n)) names t)).
  { induction names as [|m names IH]; intros t; auto. cbn [fold_left]. rewrite <- IH, <- setitem_sc, <- (repeat_map (sc c)). reflexivity. }
  exact (G []).
Qed.
Lemma bsc_same k u u' c cu cu' t : bt_unit t = u -> scaled k u u' -> scaled c cu cu' -> same_benchmark cu cu' t (bsc k u' c t).
Proof.
  intros E S S'. unfold same_benchmark, bsc. cbn [bt_low bt_high bt_center bt_unit bt_n_events bt_cols]. subst u. split; [apply scaled_same; auto|]. split; [apply scaled_same; auto|].
  split; [apply scaled_same; auto|]. split; auto. generalize (bt_cols t). induction l as [|(n & x) l IH]; constructor; auto. cbn [fst snd]. split; auto. apply scaled_same. auto.
Qed.
Lemma fill_unit names f values idx valid keys t r : fill_bins names f values idx valid keys t = Ok r -> bt_unit r = bt_unit t.
Proof.
  revert t. induction keys as [|k keys IH]; intros t E; cbn [fill_bins] in E; [congruence|]. destruct (f _); cbn [rbind] in E; [|discriminate]. apply IH in E. exact E.
Qed.
Lemma group_unit names f values iv t r : group_and_fill names f values iv t = Ok r -> bt_unit r = bt_unit t.
Proof. unfold group_and_fill. destruct (existsb _ _); [|discriminate]. apply fill_unit. Qed.
Lemma resolution_same events events' bins bins' energy_type q : same_events events events' -> same_array bins bins' ->
  same_result (fun t t' => forall th th', getitem events "theta" = Some th -> getitem events' "theta" = Some th' -> same_benchmark (a_unit th) (a_unit th') t t')
    (angular_resolution events bins energy_type q) (angular_resolution events' bins' energy_type q).
Proof.
  intros H K. unfold angular_resolution. pose proof (get_same _ _ (energy_type ++ "_energy") H) as G. destruct (get_column events _) as [en|e], (get_column events' _) as [en'|e']; try contradiction; cbn [rbind same_result]; auto.
  pose proof (get_same _ _ "theta"%string H) as T. unfold get_column in T |- *. destruct (getitem events "theta") as [th|], (getitem events' "theta") as [th'|]; try contradiction; cbn [rbind same_result]; auto.
  rewrite (indices_same _ _ _ _ G K). destruct (calculate_bin_indices en' bins') as [iv|e]; cbn [rbind same_result]; auto.
  destruct (match q with QScalar q => Ok [q] | QSeq l => Ok l | QArray _ => Err TypeError end) as [qs|e]; cbn [rbind same_result]; auto. rewrite (rows_same_events _ _ H).
  destruct (same_scaled _ _ _ _ K) as (k & Sk & Ek). destruct (same_scaled _ _ _ _ T) as (c & Sc & Ec). rewrite (empty_sc k c bins bins') by auto.
  destruct (Nat.eqb (n_rows events) 0); cbn [same_result].
  - intros a b E1 E2. injection E1 as <-. injection E2 as <-. apply (bsc_same k (a_unit bins)); auto.
  - rewrite Ec. rewrite (group_fill_sc k (a_unit bins') c _ (fun g => rmap (nanquantile g) qs)).
    2:{ intros g. assert (C : 0 < c) by (apply Sc). clear - C. induction qs as [|x qs IH]; auto. cbn [rmap]. rewrite IH. unfold nanquantile at 1 3. rewrite nanpercentile_sc by auto. unfold rsc.
        destruct (nanpercentile g _); cbn [rbind]; auto. clear IH. destruct (rmap _ qs); auto. }
    destruct (group_and_fill _ _ _ _ _) as [r|e] eqn:E; cbn [rbind same_result]; auto. intros a b E1 E2. injection E1 as <-. injection E2 as <-.
    apply (bsc_same k (a_unit bins)); auto. apply group_unit in E. exact E.
Qed.
Lemma div_sc c d x y : 0 < c -> 0 < d -> ndiv (sc c x) (sc d y) = sc (c / d) (ndiv x y).
Proof.
  intros C D. unfold sc. rewrite !(IRFUnitsProofs.nmul_comm_ (Fin _)). symmetry. apply SpectralUnitsProofs.div_convert; auto.
Qed.
Lemma error_same reco reco' true_ true_' : same_array reco reco' -> same_array true_ true_' -> relative_error reco' true_' = relative_error reco true_.
Proof.
  intros H K. destruct (same_scaled _ _ _ _ H) as (c & (C & Hu) & Ec). destruct (same_scaled _ _ _ _ K) as (k & (D & Ku) & Ek). unfold relative_error. rewrite Ec, Ek.
  assert (Z : forall u u' v v' : unit_, 0 < u_scale u -> 0 < u_scale u' -> 0 < u_scale v -> 0 < u_scale v' -> c = u_scale u / u_scale u' -> k = u_scale v / u_scale v' ->
    zipwith (fun r t => nsub (nmul (Fin (u_scale u' / u_scale v')) (ndiv r t)) (Fin 1)) (map (sc c) (a_val reco)) (map (sc k) (a_val true_)) =
    zipwith (fun r t => nsub (nmul (Fin (u_scale u / u_scale v)) (ndiv r t)) (Fin 1)) (a_val reco) (a_val true_)).
  { intros u u' v v' P1 P2 P3 P4 E1 E2. generalize (a_val reco), (a_val true_). induction l as [|x l IH]; intros [|y l']; auto. cbn [zipwith map]. rewrite IH, div_sc by auto. f_equal. f_equal.
    unfold sc. rewrite nmul_assoc_fin by (apply Rdiv_lt_0_compat; auto). f_equal. f_equal. subst. field. lra. }
  assert (O : 0 < u_scale one_unit) by (cbn; lra). assert (O1 : 1 = u_scale one_unit / u_scale one_unit) by (cbn; field).
  destruct (a_unit reco) as [u|], (a_unit reco') as [u'|]; try tauto; destruct (a_unit true_) as [v|], (a_unit true_') as [v'|]; try tauto.
  - destruct Hu as (P1 & P2 & D1 & E1), Ku as (Q1 & Q2 & D2 & E2). rewrite <- D1, <- D2, (Z u u' v v') by auto. reflexivity.
  - destruct Hu as (P1 & P2 & D1 & E1). rewrite <- D1, (Z u u' one_unit one_unit) by congruence || auto. reflexivity.
  - destruct Ku as (Q1 & Q2 & D2 & E2). rewrite <- D2, (Z one_unit one_unit v v') by congruence || auto. reflexivity.
Qed.
Lemma bias_same events events' bins bins' energy_type bias resolution : same_events events events' -> same_array bins bins' ->
  same_result (same_benchmark None None) (energy_bias_resolution events bins energy_type bias resolution) (energy_bias_resolution events' bins' energy_type bias resolution).
Proof.
  intros H K. unfold energy_bias_resolution. pose proof (get_same _ _ "true_energy" H) as T. destruct (get_column events _) as [tr|e], (get_column events' _) as [tr'|e']; try contradiction; cbn [rbind same_result]; auto.
  pose proof (get_same _ _ "reco_energy" H) as G. destruct (get_column events _) as [re|e], (get_column events' _) as [re'|e']; try contradiction; cbn [rbind same_result]; auto.
  rewrite (error_same _ _ _ _ G T). destruct (relative_error re tr) as [rel|e]; cbn [rbind same_result]; auto. rewrite (rows_same_events _ _ H).
  destruct (same_scaled _ _ _ _ K) as (k & Sk & Ek). rewrite (empty_sc k 1 bins bins') by auto. assert (S1 : scaled 1 None None) by (split; [lra|reflexivity]).
  destruct (Nat.eqb (n_rows events) 0); cbn [same_result]; [apply (bsc_same k (a_unit bins)); auto|].
  assert (I : match (if String.eqb energy_type "true" then Ok tr else if String.eqb energy_type "reco" then Ok re else Err KeyError),
                   (if String.eqb energy_type "true" then Ok tr' else if String.eqb energy_type "reco" then Ok re' else Err KeyError) with
              | Ok a, Ok a' => same_array a a' | Err e, Err e' => e = e' | _, _ => False end).
  { destruct (String.eqb energy_type "true"); auto. destruct (String.eqb energy_type "reco"); auto. }
  destruct (if String.eqb energy_type "true" then Ok tr else _) as [en|e], (if String.eqb energy_type "true" then Ok tr' else _) as [en'|e']; try contradiction; cbn [rbind same_result]; auto.
  rewrite (indices_same _ _ _ _ I K). destruct (calculate_bin_indices en' bins') as [iv|e]; cbn [rbind same_result]; auto.
  rewrite <- (sc_1 rel) at 2. rewrite (group_fill_sc k (a_unit bins') 1 _ (fun g => do b <- bias g; do r <- resolution g; Ok [b; r])).
  2:{ intros g. rewrite sc_1. destruct (bias g); cbn [rbind]; auto. destruct (resolution g); cbn [rbind]; auto. rewrite sc_1. reflexivity. }
  destruct (group_and_fill _ _ _ _ _) as [r|e] eqn:E; cbn [rbind same_result]; auto. apply (bsc_same k (a_unit bins)); auto. apply group_unit in E. exact E.
Qed.
Lemma evaluate_common values u bin_values low high eu cuts op q : 0 < u_scale u ->
  evaluate_binned_cut_q q values u bin_values low high eu cuts u op = evaluate_binned_cut q values bin_values low high eu cuts op.
Proof.
  intros H. unfold evaluate_binned_cut_q. rewrite Nat.eqb_refl, map_convert_same by auto.
  assert (R : forall o o' c v i w, match eval_rows o c v i w, eval_rows o' c v i w with Ok _, Ok _ => True | Err a, Err b => a = b | _, _ => False end).
  { intros o o' c v. induction v as [|x v IH]; intros [|z i] [|b w]; cbn [eval_rows]; auto. specialize (IH i w). destruct b.
    - destruct (np_index c z); cbn [rbind]; auto. destruct (eval_rows o c v i w), (eval_rows o' c v i w); cbn [rbind]; auto.
    - cbn [rbind]. destruct (eval_rows o c v i w), (eval_rows o' c v i w); cbn [rbind]; auto. }
  unfold evaluate_binned_cut. destruct q; auto. cbn [negb]. destruct (rev high); auto. destruct (calculate_bin_indices _ _) as [iv|e]; cbn [rbind]; auto.
  unfold evaluate_binned_cut_by_index. cbn [negb]. destruct (negb _); auto. destruct (negb _); auto. specialize (R (fun _ _ => true) op cuts values (fst iv) (snd iv)).
  destruct (eval_rows (fun _ _ => true) _ _ _ _), (eval_rows op _ _ _ _); cbn [rbind]; try contradiction; congruence.
Qed.
Lemma evaluate_wrong values vu bin_values low high eu cuts cu op q selected :
  evaluate_binned_cut q values bin_values low high eu cuts op = Ok selected -> u_dim vu <> u_dim cu ->
  evaluate_binned_cut_q q values vu bin_values low high eu cuts cu op = Err UnitConversionError.
Proof.
  intros E D. unfold evaluate_binned_cut_q. assert (O : 0 < u_scale (mkUnit 1 0)) by (cbn; lra).
  pose proof (evaluate_common values (mkUnit 1 0) bin_values low high eu cuts op q O) as C. rewrite E in C. unfold evaluate_binned_cut_q in C.
  destruct (evaluate_binned_cut q values bin_values low high eu cuts (fun _ _ => true)); cbn [rbind] in C |- *; [|discriminate]. destruct (Nat.eqb_spec (u_dim cu) (u_dim vu)); congruence.
Qed.
Lemma cut_unit values vu bin_values bins fill percentile lower upper smoothing min_events t :
  calculate_percentile_cut false (mkArr values (Some vu)) bin_values bins fill percentile lower upper smoothing min_events = Ok t -> ct_cut_unit t = Some vu.
Proof.
  unfold calculate_percentile_cut. cbn [a_unit a_val]. destruct (quantity_to fill vu); cbn [rbind]; [|discriminate]. destruct (bound_to _ lower); cbn [rbind]; [|discriminate].
  destruct (bound_to _ upper); cbn [rbind]; [|discriminate]. destruct (calculate_bin_indices _ _); cbn [rbind]; [|discriminate]. destruct (negb _); [discriminate|]. destruct (negb _); [discriminate|].
  destruct (cast _ _); cbn [rbind]; [|discriminate]. destruct (cut_loop _ _ _ _ _ _ _ _ _ _ _); cbn [rbind]; [|discriminate]. destruct (smooth _ _ _); cbn [rbind]; [|discriminate]. intros E. injection E as <-. reflexivity.
Qed.
Lemma selection_same values values' vu vu' bin_values bin_values' bins bins' fill fill' percentile lower lower' upper upper' smoothing min_events op t t' cuts :
  comparison op -> same_numbers (Some vu) (Some vu') values values' -> same_array bin_values bin_values' -> same_array bins bins' ->
  same_scalar fill fill' -> same_optional lower lower' -> same_optional upper upper' ->
  calculate_percentile_cut false (mkArr values (Some vu)) bin_values bins fill percentile lower upper smoothing min_events = Ok t -> ct_cut t = Cut1 cuts ->
  calculate_percentile_cut false (mkArr values' (Some vu')) bin_values' bins' fill' percentile lower' upper' smoothing min_events = Ok t' ->
  exists cuts' cu cu', ct_cut t' = Cut1 cuts' /\ ct_cut_unit t = Some cu /\ ct_cut_unit t' = Some cu' /\
    evaluate_binned_cut_q true values' vu' bin_values' (ct_low t') (ct_high t') (ct_edge_unit t') cuts' cu' op =
    evaluate_binned_cut_q true values vu bin_values (ct_low t) (ct_high t) (ct_edge_unit t) cuts cu op.
Proof.
  intros Ho Hv Hx Hb Hf Hl Hh E C E'. pose proof (percentile_cut_same (mkArr values (Some vu)) (mkArr values' (Some vu')) bin_values bin_values' bins bins' fill fill' percentile lower lower' upper upper' smoothing min_events
    Hv Hx Hb Hf Hl Hh) as S. cbn [a_unit] in S. specialize (S ltac:(discriminate)). rewrite E, E' in S. cbn [same_result] in S. destruct S as (S1 & S2 & S3 & S4 & S5).
  pose proof (cut_unit _ _ _ _ _ _ _ _ _ _ _ E) as U. pose proof (cut_unit _ _ _ _ _ _ _ _ _ _ _ E') as U'. rewrite U, U', C in S5. destruct (ct_cut t') as [cuts'|] eqn:C'; [|contradiction]. cbn [same_column] in S5.
  exists cuts', vu, vu'. split; auto. split; auto. split; auto. apply evaluate_same; auto.
Qed.
(** ** values without unit, fill value with a unit *)
Lemma plain_values_differ : exists values bin_values bins fill fill' t t',
  same_scalar fill fill' /\
  calculate_percentile_cut false values bin_values bins fill (PScalar 50) None None None 1 = Ok t /\
  calculate_percentile_cut false values bin_values bins fill' (PScalar 50) None None None 1 = Ok t' /\
  ct_cut t = ct_cut t' /\ ct_cut t = Cut1 [Fin 1] /\ ct_cut_unit t <> ct_cut_unit t' /\ ~ same_cuts t t'.
Proof.
  set (deg := mkUnit 60 2). set (arcmin := mkUnit 1 2).
  assert (I : calculate_bin_indices (mkArr [Fin 1] None) (mkArr [Fin 0; Fin 2] None) = Ok ([0%Z], [true])).
  { unfold calculate_bin_indices. cbn [a_unit a_val]. unfold calculate_bin_indices_raw. cbn. rsolve. cbn. rsolve. cbn. unfold bin_index1, digitize1. cbn. unfold np_lt. cbn. rsolve. cbn. rsolve. cbn. unfold np_lt. cbn. rsolve. cbn. reflexivity. }
  assert (P : nanpercentile [Fin 1] 50 = Ok (Fin 1)).
  { unfold nanpercentile. rsolve. cbn [orb drop_nan filter is_nan negb]. unfold np_percentile. cbn [nsort isort fold_right insert length]. cbn. rsolve. reflexivity. }
  assert (C : forall x u, calculate_percentile_cut false (mkArr [Fin 1] None) (mkArr [Fin 1] None) (mkArr [Fin 0; Fin 2] None) (mkScalar x (Some u)) (PScalar 50) None None None 1 =
    Ok (mkCutTable [Fin 0] [Fin 2] (bin_center [Fin 0; Fin 2]) None [1%Z] (Cut1 [Fin 1]) (Some u))).
  { intros x u. unfold calculate_percentile_cut. rewrite I. cbn [a_unit a_val s_val s_unit bound_to rbind fst snd length Nat.eqb negb existsb orb]. unfold cast at 1. cbn [rbind].
    change (bin_keys [0%Z] [true]) with [0%Z]. cbn [cut_loop]. change (bin_group [Fin 1] [0%Z] [true] 0) with [Fin 1]. unfold group_cut. cbn [length Z.of_nat Z.ltb Z.compare Pos.of_succ_nat Pos.compare Pos.compare_cont rmap].
    rewrite P. cbn. reflexivity. }
  exists (mkArr [Fin 1] None), (mkArr [Fin 1] None), (mkArr [Fin 0; Fin 2] None), (mkScalar (Fin 1) (Some deg)), (mkScalar (Fin 60) (Some arcmin)). do 2 eexists.
  split. { split; cbn; [repeat split; lra|]. do 2 f_equal. lra. }
  split; [apply C|]. split; [apply C|]. cbn [ct_cut ct_cut_unit]. split; auto. split; auto. split.
  - intros E. injection E as E. lra.
  - intros (_ & _ & _ & _ & _ & E). cbn in E. assert (60 * 1 = 1 * 1) by congruence. lra.
Qed.
