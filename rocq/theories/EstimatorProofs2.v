(** * Proofs about the EffectiveAreaEstimator *)
From Coq Require Import String Reals List Bool ZArith Arith Lia Lra Permutation Sorting.Sorted.
From Verif Require Import Num Numpy Sort Table Binning SpecBinning BinningProofs Lists CutsProofs CutsProofs2 Utils SpecSimulations SpecIRF IRFProofs IRFProofs2 Morph SpecInterp MorphProofs MorphProofs2 Geometry GeometryProofs GeometryProofs2 GeometryProofs3 Quantile QuantileProofs2 QuantileProofs3 Estimators SpecEstimators EstimatorProofs.
Import ListNotations.
Open Scope R_scope.

(** scipy's one-dimensional interpolation *)
Lemma choose_1D_ok pts : of_dimension 1 pts -> (2 <= length pts)%nat -> in_order pts -> linear_interpolation 1 pts choose_1D.
Proof.
  intros Hd Hl Hi t Ht Hin. unfold choose_1D. rewrite dim1_concat by auto. unfold in_order in Hi. set (x := map (fun p => nth 0 p 0) pts) in *.
  assert (Lx : length x = length pts) by apply map_length. rewrite hd_nth. set (v := nth 0 t 0) in *.
  assert (Rg : nth 0 x 0 <= v <= nth (length x - 1) x 0).
  { apply hull_1d in Hin; auto. destruct Hin as (p & q & Hp & Hq & H). fold v in H. apply In_nth_error in Hp, Hq. destruct Hp as (i & Hp). destruct Hq as (j & Hq).
    pose proof (nth_some_lt _ _ _ Hp). pose proof (nth_some_lt _ _ _ Hq).
    assert (nth i x 0 = nth 0 p 0) by (apply nthE; unfold x; erewrite map_nth_error; eauto). assert (nth j x 0 = nth 0 q 0) by (apply nthE; unfold x; erewrite map_nth_error; eauto).
    pose proof (inc_nth_le x 0 i Hi ltac:(lia) ltac:(lia)). pose proof (inc_nth_le x j (length x - 1) Hi ltac:(lia) ltac:(lia)). lra. }
  destruct (hi_range x x Hi eq_refl ltac:(lia) v Rg) as ((R1 & R2) & R3). pose proof (hi_bounds x x eq_refl ltac:(lia) v) as Hb.
  set (hi := Nat.min (Nat.max (count (fun a => Rltb a v) x) 1) (length x - 1)) in *.
  pose proof (inc_nth_lt x (hi - 1) hi Hi ltac:(lia) ltac:(lia)) as Lt. set (a := nth (hi - 1) x 0) in *. set (b := nth hi x 0) in *.
  assert (W : 0 <= (v - a) / (b - a) <= 1).
  { split; [apply Rmult_le_pos; [lra|left; apply Rinv_0_lt_compat; lra]|]. apply (Rmult_le_reg_r (b - a)); [lra|]. unfold Rdiv. rewrite Rmult_assoc, Rinv_l by lra. lra. }
  assert (Xn : forall k, (k < length pts)%nat -> nth 0 (nth k pts []) 0 = nth k x 0).
  { intros k Hk. symmetry. apply nthE. unfold x. rewrite (map_nth_error _ _ _ (nth_error_nth' pts [] Hk)). auto. }
  set (w := (v - a) / (b - a)) in *. split; [split|split].
  - intros i c [E|[E|[]]]; inversion E; subst; split; try lia; lra.
  - unfold total. cbn. ring.
  - intros j Hj. replace j with 0%nat by lia. cbn [map fst snd]. unfold total. cbn [fold_right]. rewrite !Xn by lia. fold a b v. unfold w. field. lra.
  - intros Hit i c Hc Hz. apply In_nth_error in Hit. destruct Hit as (k & Hk). pose proof (nth_some_lt _ _ _ Hk) as Lk.
    assert (Vk : nth k x 0 = v). { rewrite <- Xn by auto. rewrite (nth_error_nth _ _ _ Hk). auto. }
    assert (Kk : k = (hi - 1)%nat \/ k = hi).
    { destruct (Nat.lt_ge_cases k (hi - 1)) as [L|L]; [pose proof (inc_nth_lt x k (hi - 1) Hi L ltac:(lia)); fold a in H; lra|].
      destruct (Nat.le_gt_cases k hi) as [L'|L']; [lia|]. pose proof (inc_nth_lt x hi k Hi L' ltac:(lia)). fold b in H. lra. }
    destruct Kk as [K|K].
    + assert (w = 0). { unfold w. rewrite <- Vk, K. fold a. unfold Rdiv. ring. }
      destruct Hc as [E|[E|[]]]; inversion E; subst i c; [rewrite <- K; auto|lra].
    + assert (w = 1). { unfold w. rewrite <- Vk, K. fold b. field. lra. }
      destruct Hc as [E|[E|[]]]; inversion E; subst i c; [lra|rewrite <- K; auto].
Qed.
Lemma served_1D pts : of_dimension 1 pts -> (2 <= length pts)%nat -> served 1 pts choose_1D.
Proof.
  intros Hd Hl. split; [|congruence]. intros _ pts' Hp Ho. apply choose_1D_ok; auto.
  - intros p H. apply Hd. eapply Permutation_in; [symmetry; eauto|auto].
  - rewrite <- (Permutation_length Hp). auto.
Qed.

(** what an accepted estimator consists of *)
Lemma init_inv {T O} g d pts (tm : list T) (interp : method T O) extrap est : float_grid g d pts -> (d + 1 <= length pts)%nat -> length tm = length pts ->
  parametrized_init g (Some tm) interp extrap = Ok est -> exists pts' tm' f, arranged d pts tm pts' tm' /\ is_interpolator interp = true /\
    create interp pts' tm' = Ok f /\ grid_dim est = d /\ grid est = pts' /\ interpolator est = f /\
    match extrap with None => extrapolator est = None | Some e => is_extrapolator e = true /\ exists h, create e pts' tm' = Ok h /\ extrapolator est = Some h end.
Proof.
  intros Hg Hn Hl H. destruct (base_ok g d pts Hg Hn) as (E & _). unfold parametrized_init in H. rewrite E in H. cbn [rbind fst snd] in H.
  replace (Nat.eqb _ (length tm)) with true in H by (symmetry; apply Nat.eqb_eq; symmetry; exact Hl). unfold make_methods in H.
  pose proof (arranged_sort d pts tm Hl) as A. set (pts' := map fst (sort_points d pts tm)) in *. set (tm' := map snd (sort_points d pts tm)) in *.
  destruct (is_interpolator interp); [|discriminate]. destruct (create interp pts' tm') as [f|] eqn:Ef; [|discriminate]. cbn [rbind] in H.
  exists pts', tm', f. split; [auto|]. split; [auto|]. split; [auto|]. destruct extrap as [e|].
  - destruct (is_extrapolator e); [|discriminate]. destruct (create e pts' tm') as [h|] eqn:Eh; [|discriminate]. cbn [rbind] in H. injection H as <-. cbn. repeat split; auto. eauto.
  - injection H as <-. cbn. auto.
Qed.
(** rows of the result *)
Lemma griddata_entries n w templates : forall j v, nth_error (weighted_templates n w templates) j = Some v ->
  v = weighted (map snd w) (map (fun ic => entry templates (fst ic) j) w).
Proof.
  intros j v H. unfold weighted_templates in H. destruct (weighted_rows_spec n (map snd w) (map (fun i => nth i templates []) (map fst w))) as (_ & W); [rewrite !map_length; auto|].
  rewrite (W j v H). f_equal. rewrite !map_map. auto.
Qed.
Lemma weighted_templates_length n w templates : length (weighted_templates n w templates) = n.
Proof. destruct (weighted_rows_spec n (map snd w) (map (fun i => nth i templates []) (map fst w))) as (L & _); [rewrite !map_length; auto|exact L]. Qed.
Lemma mean_nonneg k w : mean_weights k w -> forall x, In x (map snd w) -> 0 <= x.
Proof. intros (H & _) x Hx. apply in_map_iff in Hx. destruct Hx as ((i, c) & <- & Hi). apply H in Hi. apply Hi. Qed.
Lemma weighted_const c v a : length c = length v -> total c = 1 -> (forall k x y, nth_error c k = Some x -> nth_error v k = Some y -> x <> 0 -> y = a) -> weighted c v = a.
Proof.
  intros Hl Ht H. rewrite weighted_rsum. assert (E : rsum c = 1) by (rewrite <- Ht; symmetry; exact (total_rsum c)).
  replace a with (rsum c * a) by (rewrite E; ring). clear E Ht. revert v Hl H. induction c as [|x c IH]; intros [|y v] Hl H; try discriminate; cbn [zipwith]; rewrite ?rsum_nil, ?rsum_cons; [ring|].
  rewrite (IH v); [|cbn in Hl; lia|intros k; apply (H (S k))]. destruct (Req_dec x 0) as [->|Hx]; [ring|]. rewrite (H 0%nat x y eq_refl eq_refl Hx). ring.
Qed.
Lemma floor_max m a : floor_at m a = Rmax m a.
Proof. unfold floor_at. destruct (Rltb a m) eqn:E; rcmp; unfold Rmax; destruct (Rle_dec m a); lra. Qed.
Section C57.
Variables (inside : list coords -> coords -> bool) (choose : list coords -> coords -> list (nat * R)) (g : grid_arg) (d n : nat) (pts : list (list R)) (areas : list (list R)) (mn : R).
Variables (extrap : option (method (list R) (list R))) (est : estimator (list R)).
Hypothesis Hh : hull_test d pts inside.
Hypothesis Hs : served d pts choose.
Hypothesis Hg : float_grid g d pts.
Hypothesis Hd : (1 <= d)%nat.
Hypothesis Hn : (d + 1 <= length pts)%nat.
Hypothesis Hnd : NoDup pts.
Hypothesis Hl : length areas = length pts.
Hypothesis Ht : tables n areas.
Hypothesis Hm : 0 < mn.
Hypothesis He : aeff_init g areas mn (griddata_method choose n) extrap = Ok est.
Lemma c57_inside t : length t = d -> in_hull d pts t -> exists out, aeff_call inside est mn (TFlat t) = Ok (false, out) /\ length out = n /\
  forall j v, nth_error out j = Some v ->
    mn <= v /\
    (forall lo, (forall i, (i < length pts)%nat -> lo <= Rmax mn (entry areas i j)) -> lo <= v) /\
    (forall hi, (forall i, (i < length pts)%nat -> Rmax mn (entry areas i j) <= hi) -> v <= hi) /\
    (forall k, nth_error pts k = Some t -> v = Rmax mn (entry areas k j)).
Proof.
  intros Hlt Hin. set (logs := map (map (fun a => ln (floor_at mn a))) areas) in *.
  assert (Ll : length logs = length pts) by (unfold logs; rewrite map_length; auto).
  destruct (base_ok g d pts Hg Hn) as (_ & Hp).
  destruct (init_inv g d pts logs (griddata_method choose n) extrap est Hg Hn Ll He) as (pts' & tm' & f & A & _ & Ef & E1 & E2 & E3 & _).
  destruct (arranged_hull d pts logs pts' tm' t Ll Hp A) as (H1 & H2 & H3).
  assert (Pp : Permutation pts pts'). { destruct A as (L & P & _). rewrite <- (combine_fst pts logs), <- (combine_fst pts' tm') by auto. apply Permutation_map. auto. }
  assert (Hh' : hull_test d pts' inside). { destruct A as (_ & _ & A & _). intros H2' t' Ht'. destruct (A ltac:(lia)) as (-> & _). apply Hh; auto. }
  assert (Ig : target_in_grid inside d pts' t = true). { apply in_grid_spec; auto; [intros X; rewrite X in H3; cbn in H3; lia|]. apply H1. auto. }
  assert (Lin : linear_interpolation d pts' choose).
  { destruct Hs as (S1 & S2). destruct (Nat.eq_dec d 1) as [D|D].
    - apply S1; auto. assert (Np : NoDup (map (fun p => nth 0 p 0) pts')).
      { apply Permutation_NoDup in Pp; auto. clear -Pp H2 D. rewrite D in H2. induction Pp as [|p l Hni Hnd IH]; cbn; constructor.
        - intros H. apply in_map_iff in H. destruct H as (q & E & Hq). apply Hni. pose proof (H2 p (or_introl eq_refl)). pose proof (H2 q (or_intror Hq)).
          destruct p as [|x [|]]; cbn in *; try lia. destruct q as [|y [|]]; cbn in *; try lia. subst; auto.
        - apply IH. intros q Hq. apply H2. right; auto. }
      destruct A as (_ & _ & _ & A). specialize (A D). intros i a b Ha Hb. unfold in_order. apply map_nth_inv in Ha, Hb. destruct Ha as (p & Hpa & ->). destruct Hb as (q & Hqb & ->).
      destruct (A _ _ _ Hpa Hqb) as [L|L]; [auto|]. exfalso. assert (i = S i); [|lia]. apply (proj1 (NoDup_nth_error _) Np).
      + rewrite map_length. eapply nth_some_lt; eauto.
      + rewrite (map_nth_error _ _ _ Hpa), (map_nth_error _ _ _ Hqb), L. auto.
    - destruct A as (_ & _ & A & _). destruct (A D) as (-> & _). auto. }
  destruct (Lin t Hlt (proj2 H1 Hin)) as (W & _ & Wg). set (w := choose pts' t) in *.
  cbn [griddata_method create] in Ef. injection Ef as <-.
  eexists. unfold aeff_call, estimator_call, check_target. cbn [rbind]. rewrite E1, Hlt, Nat.eqb_refl, E2. cbn [rbind]. rewrite Ig, E3. cbn [rbind fst snd]. fold w. split; [reflexivity|].
  split; [rewrite map_length, weighted_templates_length; auto|]. intros j v Hv. apply map_nth_inv in Hv. destruct Hv as (lv & Hlv & Ev).
  pose proof (nth_some_lt _ _ _ Hlv) as Lj. rewrite weighted_templates_length in Lj. apply griddata_entries in Hlv.
  assert (Src : forall i, (i < length pts')%nat -> exists k, (k < length pts)%nat /\ nth_error pts k = nth_error pts' i /\ entry tm' i j = ln (Rmax mn (entry areas k j))).
  { intros i Hi. destruct A as (L & P & _). destruct (nth_some_ex pts' i Hi) as (p & Hpi). destruct (nth_some_ex tm' i ltac:(lia)) as (r & Hr).
    assert (Ic : In (p, r) (combine pts' tm')). { eapply nth_error_In with (n := i). clear - Hpi Hr. revert tm' i Hpi Hr. induction pts' as [|a l IH]; intros [|b m] [|i] Ha Hb; cbn in *; try discriminate; [congruence|eauto]. }
    apply (Permutation_in _ (Permutation_sym P)) in Ic. apply In_nth_error in Ic. destruct Ic as (k & Hk). apply combine_nth_inv in Hk. destruct Hk as (Hk1 & Hk2). cbn [fst snd] in Hk1, Hk2.
    exists k. split; [eapply nth_some_lt; eauto|]. split; [exact (eq_trans Hk1 (eq_sym Hpi))|]. unfold entry. rewrite (nth_error_nth _ _ _ Hr).
    unfold logs in Hk2. apply map_nth_inv in Hk2. destruct Hk2 as (ra & Hra & ->). rewrite (nth_error_nth _ _ _ Hra).
    assert (Hj : (j < length ra)%nat) by (rewrite (Ht ra (nth_error_In _ _ Hra)); auto). pose proof (nth_error_nth' ra 0 Hj) as Hx.
    apply nthE. rewrite (map_nth_error _ _ _ Hx). rewrite floor_max. auto. }
  assert (Mx : forall k, 0 < Rmax mn (entry areas k j)) by (intros; pose proof (Rmax_l mn (entry areas k j)); lra).
  assert (Lw : length (map snd w) = length (map (fun ic => entry tm' (fst ic) j) w)) by (rewrite !map_length; auto).
  assert (Wt : total (map snd w) = 1) by apply W. assert (Wi : forall ic, In ic w -> (fst ic < length pts')%nat). { intros (i, c) Hic. apply W in Hic. apply Hic. }
  assert (Lo : forall lo, (forall i, (i < length pts)%nat -> lo <= Rmax mn (entry areas i j)) -> lo <= exp lv).
  { intros lo Hlo. destruct (Rle_lt_dec lo 0) as [N|N]; [pose proof (exp_pos lv); lra|]. rewrite <- (exp_ln lo) by auto.
    assert (ln lo <= lv). { rewrite Hlv. apply weighted_le; auto; [eapply mean_nonneg; eauto|]. intros x Hx. apply in_map_iff in Hx. destruct Hx as (ic & <- & Hic).
      destruct (Src (fst ic) (Wi ic Hic)) as (k & Hk & _ & ->). specialize (Hlo k Hk). destruct Hlo as [Hlo|Hlo]; [left; apply ln_increasing; auto|rewrite <- Hlo; lra]. }
    destruct H as [H|H]; [left; apply exp_increasing; auto|rewrite H; lra]. }
  assert (Hi : forall hi, (forall i, (i < length pts)%nat -> Rmax mn (entry areas i j) <= hi) -> exp lv <= hi).
  { intros hi Hhi. assert (Ph : 0 < hi). { pose proof (Mx 0%nat). specialize (Hhi 0%nat ltac:(lia)). lra. } rewrite <- (exp_ln hi) by auto.
    assert (lv <= ln hi). { rewrite Hlv. apply weighted_ge; auto; [eapply mean_nonneg; eauto|]. intros x Hx. apply in_map_iff in Hx. destruct Hx as (ic & <- & Hic).
      destruct (Src (fst ic) (Wi ic Hic)) as (k & Hk & _ & ->). specialize (Hhi k Hk). destruct Hhi as [Hhi|Hhi]; [left; apply ln_increasing; auto|rewrite Hhi; lra]. }
    destruct H as [H|H]; [left; apply exp_increasing; auto|rewrite H; lra]. }
  assert (Vm : mn <= exp lv) by (apply Lo; intros; apply Rmax_l).
  assert (v = exp lv). { rewrite Ev. destruct (Rltb (exp lv) mn) eqn:Eq; auto. rcmp. lra. } rewrite H. clear Ev H.
  split; [auto|]. split; [auto|]. split; [auto|].
  intros k Hk. rewrite Hlv. rewrite (weighted_const _ _ (ln (Rmax mn (entry areas k j)))); auto; [apply exp_ln; auto|].
  intros q x y Hx Hy Hx0. apply map_nth_inv in Hx, Hy. destruct Hx as (ic & Hic & ->). destruct Hy as (ic' & Hic' & ->). assert (ic' = ic) by congruence. subst ic'.
  assert (Itp : In t pts') by (eapply Permutation_in; [exact Pp|eapply nth_error_In; eauto]).
  pose proof (Wg Itp (fst ic) (snd ic)) as Q. destruct ic as (i, c). cbn [fst snd] in *. specialize (Q (nth_error_In _ _ Hic) Hx0).
  destruct (Src i) as (k' & Hk' & Ek & ->); [eapply nth_some_lt; eauto|]. assert (k' = k); [|subst; auto]. apply (proj1 (NoDup_nth_error pts) Hnd); auto. congruence.
Qed.
Lemma c57_small t : length t = d -> in_hull d pts t -> exists out, aeff_call inside est mn (TFlat t) = Ok (false, out) /\
  forall j v, nth_error out j = Some v -> (forall i, (i < length pts)%nat -> entry areas i j <= mn) -> v = mn.
Proof.
  intros Hlt Hin. destruct (c57_inside t Hlt Hin) as (out & E & _ & H). exists out. split; [auto|]. intros j v Hv Hsm. destruct (H j v Hv) as (H1 & _ & H3 & _).
  apply Rle_antisym; auto. apply H3. intros i Hi. rewrite Rmax_left by auto. lra.
Qed.
End C57.
Lemma c57_any inside est mn t b out : 0 < mn -> aeff_call inside est mn t = Ok (b, out) -> forall v, In v out -> v = 0 \/ mn <= v.
Proof.
  intros Hm H v Hv. unfold aeff_call in H. destruct (estimator_call inside est t) as [wo|]; [|discriminate]. cbn [rbind] in H. injection H as <- <-.
  apply in_map_iff in Hv. destruct Hv as (l & <- & _). destruct (Rltb (exp l) mn) eqn:E; rcmp; auto.
Qed.
Lemma c57_caller mn areas : caller_areas false mn areas = areas /\
  ((exists r a, In r areas /\ In a r /\ a < mn) -> caller_areas true mn areas <> areas) /\
  ((forall r a, In r areas -> In a r -> mn <= a) -> caller_areas true mn areas = areas).
Proof.
  split; [auto|]. unfold caller_areas. split.
  - intros (r & a & Hr & Ha & Hlt) E. apply In_nth_error in Hr, Ha. destruct Hr as (i & Hi). destruct Ha as (j & Hj).
    pose proof (map_nth_error (map (floor_at mn)) _ _ Hi) as X. rewrite E in X. assert (Y : map (floor_at mn) r = r) by congruence.
    pose proof (map_nth_error (floor_at mn) _ _ Hj) as Z. rewrite Y in Z. assert (Q : floor_at mn a = a) by congruence. rewrite floor_max in Q. pose proof (Rmax_l mn a). lra.
  - intros H. rewrite <- (map_id areas) at 2. apply map_ext_in. intros r Hr. rewrite <- (map_id r) at 2. apply map_ext_in. intros a Ha. rewrite floor_max. apply Rmax_right. eauto.
Qed.
