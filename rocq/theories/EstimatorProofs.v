(** * Proofs about the estimators *)
From Coq Require Import String Reals List Bool ZArith Arith Lia Lra Permutation Sorting.Sorted.
From Verif Require Import Num Numpy Sort Table Binning SpecBinning BinningProofs Lists CutsProofs CutsProofs2 Utils SpecSimulations SpecIRF IRFProofs IRFProofs2 Morph SpecInterp MorphProofs MorphProofs2 Geometry GeometryProofs GeometryProofs2 GeometryProofs3 Quantile QuantileProofs2 QuantileProofs3 Estimators SpecEstimators.
Import ListNotations.
Open Scope R_scope.

Lemma weighted_rsum c v : weighted c v = rsum (zipwith Rmult c v).
Proof.
  unfold weighted. refine (eq_trans (total_rsum _) _). f_equal. revert v. induction c as [|a c IH]; intros [|b v]; cbn; auto. rewrite IH. auto.
Qed.
Lemma weighted_le c v t : length c = length v -> (forall x, In x c -> 0 <= x) -> total c = 1 -> (forall x, In x v -> t <= x) -> t <= weighted c v.
Proof.
  intros Hl Hc Ht Hv. rewrite weighted_rsum. assert (E : rsum c = 1) by (rewrite <- Ht; symmetry; exact (total_rsum c)).
  replace t with (rsum c * t) by (rewrite E; ring). clear E Ht. revert v Hl Hv. induction c as [|a c IH]; intros [|b v] Hl Hv; try discriminate; cbn [zipwith]; rewrite ?rsum_nil, ?rsum_cons; [lra|].
  specialize (IH (fun x H => Hc x (or_intror H)) v ltac:(cbn in Hl; lia) (fun x H => Hv x (or_intror H))).
  pose proof (Hc a (or_introl eq_refl)). pose proof (Hv b (or_introl eq_refl)). nra.
Qed.
Lemma weighted_ge c v t : length c = length v -> (forall x, In x c -> 0 <= x) -> total c = 1 -> (forall x, In x v -> x <= t) -> weighted c v <= t.
Proof.
  intros Hl Hc Ht Hv. rewrite weighted_rsum. assert (E : rsum c = 1) by (rewrite <- Ht; symmetry; exact (total_rsum c)).
  replace t with (rsum c * t) by (rewrite E; ring). clear E Ht. revert v Hl Hv. induction c as [|a c IH]; intros [|b v] Hl Hv; try discriminate; cbn [zipwith]; rewrite ?rsum_nil, ?rsum_cons; [lra|].
  specialize (IH (fun x H => Hc x (or_intror H)) v ltac:(cbn in Hl; lia) (fun x H => Hv x (or_intror H))).
  pose proof (Hc a (or_introl eq_refl)). pose proof (Hv b (or_introl eq_refl)). nra.
Qed.
Lemma rsum_at (f : nat -> R) i n : forall s, (s <= i < s + n)%nat -> rsum (map (fun k => if Nat.eqb k i then f k else 0) (seq s n)) = f i.
Proof.
  induction n as [|n IH]; intros s Hs; [lia|]. cbn [seq map]. rewrite rsum_cons. destruct (Nat.eqb s i) eqn:E.
  - apply Nat.eqb_eq in E. subst. rewrite rsum_zero_list; [ring|]. intros x Hx. apply in_map_iff in Hx. destruct Hx as (k & <- & Hk). apply in_seq in Hk.
    replace (Nat.eqb k i) with false by (symmetry; apply Nat.eqb_neq; lia). auto.
  - apply Nat.eqb_neq in E. rewrite IH by lia. ring.
Qed.
Lemma weighted_seq (f : nat -> R) v : forall s, zipwith Rmult (map f (seq s (length v))) v = map (fun k => f k * nth (k - s) v 0) (seq s (length v)).
Proof.
  induction v as [|a v IH]; intros s; cbn [length seq map zipwith]; auto. rewrite Nat.sub_diag. cbn [nth]. f_equal. rewrite IH. apply map_ext_in.
  intros k Hk. apply in_seq in Hk. replace (k - s)%nat with (S (k - S s)) by lia. auto.
Qed.
Lemma two_point_mean v i j w : (i < length v)%nat -> (j < length v)%nat -> 0 <= w <= 1 -> exists c, length c = length v /\ (forall x, In x c -> 0 <= x) /\ total c = 1 /\
  weighted c v = (1 - w) * nth i v 0 + w * nth j v 0.
Proof.
  intros Hi Hj Hw. exists (map (fun k => (if Nat.eqb k i then 1 - w else 0) + (if Nat.eqb k j then w else 0)) (seq 0 (length v))).
  split; [rewrite map_length, seq_length; auto|]. split; [|split].
  - intros x Hx. apply in_map_iff in Hx. destruct Hx as (k & <- & _). destruct (Nat.eqb k i); destruct (Nat.eqb k j); lra.
  - refine (eq_trans (total_rsum _) _). rewrite rsum_map_plus. rewrite (rsum_at (fun _ => 1 - w)), (rsum_at (fun _ => w)) by lia. ring.
  - rewrite weighted_rsum, weighted_seq.
    rewrite (rsum_map_ext _ (fun k => (if Nat.eqb k i then (1 - w) * nth k v 0 else 0) + (if Nat.eqb k j then w * nth k v 0 else 0))).
    + rewrite rsum_map_plus. rewrite (rsum_at (fun k => (1 - w) * nth k v 0)), (rsum_at (fun k => w * nth k v 0)) by lia. ring.
    + intros k _. rewrite Nat.sub_0_r. destruct (Nat.eqb k i); destruct (Nat.eqb k j); ring.
Qed.
Lemma dim1_concat pts : of_dimension 1 pts -> concat pts = map (fun p => nth 0 p 0) pts.
Proof.
  intros H. induction pts as [|p pts IH]; auto. cbn [concat map]. rewrite IH by (intros q Hq; apply H; right; auto). specialize (H p (or_introl eq_refl)).
  destruct p as [|x [|y p]]; cbn in H; try lia. auto.
Qed.
Lemma hd_nth (t : list R) : hd 0 t = nth 0 t 0.
Proof. destruct t; auto. Qed.
Lemma hull_1d pts t : of_dimension 1 pts -> (in_hull 1 pts t <-> exists p q, In p pts /\ In q pts /\ nth 0 p 0 <= nth 0 t 0 <= nth 0 q 0).
Proof.
  intros Hd. set (v := map (fun p => nth 0 p 0) pts). assert (Lv : length v = length pts) by apply map_length. split.
  - intros (c & Lc & Hc & Ht & Hw). specialize (Hw 0%nat ltac:(lia)). fold v in Hw.
    assert (Ne : v <> []). { intros E. rewrite E in Lv. cbn in Lv. rewrite <- Lv in Lc. destruct c; [|discriminate]. unfold total in Ht. cbn in Ht. lra. }
    destruct (list_min_spec v Ne) as (M1 & M2). destruct (list_max_spec v Ne) as (X1 & X2).
    pose proof (weighted_le c v (list_min v) ltac:(lia) Hc Ht M2). pose proof (weighted_ge c v (list_max v) ltac:(lia) Hc Ht X2).
    unfold v in M1, X1. apply in_map_iff in M1, X1. destruct M1 as (p & Ep & Hp). destruct X1 as (q & Eq & Hq). exists p, q. fold v in Ep, Eq. rewrite Ep, Eq. repeat split; auto; lra.
  - intros (p & q & Hp & Hq & Hpq). apply In_nth_error in Hp, Hq. destruct Hp as (i & Hi). destruct Hq as (j & Hj).
    assert (Vi : nth i v 0 = nth 0 p 0) by (apply nthE; unfold v; erewrite map_nth_error; eauto).
    assert (Vj : nth j v 0 = nth 0 q 0) by (apply nthE; unfold v; erewrite map_nth_error; eauto).
    pose proof (nth_some_lt _ _ _ Hi). pose proof (nth_some_lt _ _ _ Hj).
    assert (W : exists w, 0 <= w <= 1 /\ (1 - w) * nth 0 p 0 + w * nth 0 q 0 = nth 0 t 0).
    { set (a := nth 0 p 0) in *. set (b := nth 0 q 0) in *. set (x := nth 0 t 0) in *. destruct (Req_dec a b) as [E|E]; [exists 0; split; [lra|]; lra|].
      exists ((x - a) / (b - a)). split; [split|].
      - apply Rmult_le_pos; [lra|left; apply Rinv_0_lt_compat; lra].
      - apply (Rmult_le_reg_r (b - a)); [lra|]. unfold Rdiv. rewrite Rmult_assoc, Rinv_l by lra. lra.
      - field. lra. }
    destruct W as (w & Hw & Ew). destruct (two_point_mean v i j w) as (c & C1 & C2 & C3 & C4); try lia; auto.
    exists c. split; [lia|]. split; [auto|]. split; [auto|]. intros k Hk. replace k with 0%nat by lia. fold v. rewrite C4, Vi, Vj. auto.
Qed.
Lemma in_grid_spec inside d pts t : hull_test d pts inside -> (1 <= d)%nat -> of_dimension d pts -> length t = d -> pts <> [] ->
  (target_in_grid inside d pts t = true <-> in_hull d pts t).
Proof.
  intros Hh Hd Hp Ht Hne. unfold target_in_grid. destruct d as [|[|d]]; [lia| |apply Hh; auto; lia]. cbn [Nat.eqb].
  rewrite hull_1d by auto. rewrite dim1_concat by auto. set (v := map (fun p => nth 0 p 0) pts). rewrite hd_nth.
  assert (Ne : v <> []). { unfold v. destruct pts; [congruence|discriminate]. }
  destruct (list_min_spec v Ne) as (M1 & M2). destruct (list_max_spec v Ne) as (X1 & X2). rewrite andb_true_iff, !Rleb_true. split.
  - intros (A & B). unfold v in M1, X1. apply in_map_iff in M1, X1. destruct M1 as (p & Ep & Hp'). destruct X1 as (q & Eq & Hq). exists p, q. fold v in Ep, Eq. rewrite Ep, Eq. auto.
  - intros (p & q & H1 & H2 & H3). pose proof (M2 (nth 0 p 0) ltac:(unfold v; apply in_map_iff; eauto)). pose proof (X2 (nth 0 q 0) ltac:(unfold v; apply in_map_iff; eauto)). lra.
Qed.

(** *** sorting *)
Lemma combine_snd {A B} (l : list A) (l' : list B) : length l = length l' -> map snd (combine l l') = l'.
Proof. revert l'. induction l as [|a l IH]; intros [|b l'] H; cbn in *; try lia; auto. rewrite IH; auto. Qed.
Lemma combine_split {A B} (s : list (A * B)) : combine (map fst s) (map snd s) = s.
Proof. induction s as [|(a, b) s IH]; cbn; auto. rewrite IH; auto. Qed.
Lemma sort_points_perm {T} d pts (tm : list T) : Permutation (combine pts tm) (sort_points d pts tm).
Proof. unfold sort_points. destruct (Nat.eqb d 1); auto. apply isort_perm. Qed.
Lemma sort_points_id {T} d pts (tm : list T) : d <> 1%nat -> sort_points d pts tm = combine pts tm.
Proof. intros H. unfold sort_points. replace (Nat.eqb d 1) with false by (symmetry; apply Nat.eqb_neq; auto). auto. Qed.
Lemma sort_points_sorted {T} pts (tm : list T) : StronglySorted (fun p q => Rleb (hd 0 (fst p)) (hd 0 (fst q)) = true) (sort_points 1 pts tm).
Proof. apply (isort_sorted (fun p q : coords * T => Rleb (hd 0 (fst p)) (hd 0 (fst q)))); [intros; apply Rleb_total|intros a b c; apply Rleb_trans]. Qed.
Lemma sort_points_in_order {T} pts (tm : list T) : of_dimension 1 pts -> length pts = length tm -> NoDup pts -> in_order (map fst (sort_points 1 pts tm)).
Proof.
  intros Hd Hl Hn. unfold in_order. rewrite map_map. apply sorted_increasing.
  - pose proof (sort_points_sorted pts tm) as H. induction H as [|a l Hs IH Hf]; cbn; constructor; auto.
    rewrite Forall_forall in *. intros x Hx. apply in_map_iff in Hx. destruct Hx as (y & <- & Hy). rewrite <- !hd_nth. apply Hf; auto.
  - apply (Permutation_NoDup (l := map (fun x => nth 0 (fst x) 0) (combine pts tm))); [apply Permutation_map, sort_points_perm|].
    rewrite <- (map_map fst (fun p => nth 0 p 0)), combine_fst by auto. clear -Hd Hn. induction Hn as [|p pts Hn Hnd IH]; cbn; constructor.
    + intros H. apply in_map_iff in H. destruct H as (q & E & Hq). apply Hn. pose proof (Hd p (or_introl eq_refl)). pose proof (Hd q (or_intror Hq)).
      destruct p as [|x [|]]; cbn in *; try lia. destruct q as [|y [|]]; cbn in *; try lia. subst; auto.
    + apply IH. intros q Hq. apply Hd. right; auto.
Qed.
Lemma increasing_NoDup l : increasing l -> NoDup l.
Proof.
  intros I. apply (proj2 (NoDup_nth_error l)). intros i j Hi E. destruct (Nat.lt_trichotomy i j) as [L|[L|L]]; auto; exfalso.
  - rewrite nth_in in E by auto. symmetry in E. pose proof (nth_some_lt _ _ _ E). pose proof (inc_nth_lt l i j I L H). apply nthE in E. lra.
  - rewrite nth_in in E by auto. symmetry in E. pose proof (nth_some_lt _ _ _ E). pose proof (inc_nth_lt l j i I L Hi). apply nthE in E. lra.
Qed.
Lemma sort_points_order {T} d pts (tm : list T) pts' tm' : d = 1%nat -> of_dimension 1 pts -> length pts = length tm -> NoDup pts -> Permutation (combine pts tm) (combine pts' tm') ->
  sort_points d pts tm = sort_points d pts' tm'.
Proof.
  intros -> Hd Hl Hn Hp.
  assert (G : forall l1 l2 : list (coords * T), StronglySorted (fun p q => Rleb (hd 0 (fst p)) (hd 0 (fst q)) = true) l1 -> StronglySorted (fun p q => Rleb (hd 0 (fst p)) (hd 0 (fst q)) = true) l2 ->
    NoDup (map (fun x => hd 0 (fst x)) l1) -> Permutation l1 l2 -> l1 = l2).
  { induction l1 as [|a l1 IH]; intros l2 H1 H2 Hd' Hp'; [apply Permutation_nil in Hp'; auto|].
    destruct l2 as [|b l2]; [symmetry in Hp'; apply Permutation_nil in Hp'; discriminate|].
    inversion H1 as [|? ? S1 F1]; subst. inversion H2 as [|? ? S2 F2]; subst. rewrite Forall_forall in F1, F2.
    assert (Ha : In a (b :: l2)) by (eapply Permutation_in; eauto; left; auto).
    assert (Hb : In b (a :: l1)) by (eapply Permutation_in; [symmetry; eauto|left; auto]).
    assert (a = b).
    { destruct Ha as [|Ha]; auto. destruct Hb as [|Hb]; auto. exfalso.
      assert (hd 0 (fst a) = hd 0 (fst b)). { apply F2 in Ha. apply F1 in Hb. cbv beta in Ha, Hb. apply Rleb_true in Ha. apply Rleb_true in Hb. apply Rle_antisym; auto. }
      inversion Hd' as [|? ? Hn' _]. apply Hn'. apply (in_map (fun x => hd 0 (fst x))) in Hb. cbv beta in Hb. unfold coords in *. rewrite H. exact Hb. }
    subst b. f_equal. apply IH; auto; [inversion Hd'; auto|]. eapply Permutation_cons_inv; eauto. }
  apply G; try apply sort_points_sorted.
  - pose proof (sort_points_in_order pts tm Hd Hl Hn) as I. unfold in_order in I. rewrite map_map in I.
    rewrite (map_ext _ (fun x : coords * T => nth 0 (fst x) 0)) by (intros; apply hd_nth). apply increasing_NoDup. exact I.
  - rewrite <- !sort_points_perm. auto.
Qed.

(** *** C48 *)
Lemma base_ok g d pts : float_grid g d pts -> (d + 1 <= length pts)%nat -> base_init g = Ok (d, pts) /\ of_dimension d pts.
Proof.
  intros [(l & -> & -> & ->)|(-> & Hd)] Hl; unfold base_init; cbn [rbind fst snd].
  - replace (Nat.ltb _ _) with false by (symmetry; apply Nat.ltb_ge; auto). split; auto. intros p Hp. apply in_map_iff in Hp. destruct Hp as (x & <- & _). auto.
  - replace (Nat.ltb _ _) with false by (symmetry; apply Nat.ltb_ge; auto). auto.
Qed.
Lemma arranged_sort {T} d pts (tm : list T) : length tm = length pts -> arranged d pts tm (map fst (sort_points d pts tm)) (map snd (sort_points d pts tm)).
Proof.
  intros Hl. split; [rewrite !map_length; auto|]. split; [rewrite combine_split; apply sort_points_perm|]. split.
  - intros Hd. rewrite sort_points_id by auto. rewrite combine_fst, combine_snd by auto. auto.
  - intros -> i a b Ha Hb. apply map_nth_inv in Ha, Hb. destruct Ha as (p & Hp & ->). destruct Hb as (q & Hq & ->).
    rewrite <- !hd_nth. pose proof (sort_points_sorted pts tm) as S. revert i Hp Hq. induction S as [|x l Sl IH F]; intros i Hp Hq; [destruct i; discriminate|].
    destruct i as [|i]; [|eauto]. cbn in Hp. assert (p = x) by congruence. subst. rewrite Forall_forall in F. change (nth_error l 0 = Some q) in Hq. apply nth_error_In in Hq. apply F in Hq. apply Rleb_true in Hq. auto.
Qed.
Lemma arranged_hull {T} d pts (tm : list T) pts' tm' t : length tm = length pts -> of_dimension d pts -> arranged d pts tm pts' tm' -> (in_hull d pts' t <-> in_hull d pts t) /\ of_dimension d pts' /\ length pts' = length pts.
Proof.
  intros Hl Hd (L & P & A & B).
  assert (P' : Permutation pts pts'). { rewrite <- (combine_fst pts tm), <- (combine_fst pts' tm') by auto. apply Permutation_map. auto. }
  assert (Hd' : of_dimension d pts') by (intros p Hp; apply Hd; eapply Permutation_in; [symmetry; eauto|auto]).
  split; [|split; [auto|symmetry; apply Permutation_length; auto]].
  destruct (Nat.eq_dec d 1) as [E|E]; [|destruct (A E) as (-> & _); tauto]. clear A B. rewrite E in *. rewrite !hull_1d by auto.
  split; intros (p & q & Hp & Hq & H); exists p, q; (split; [|split]; auto); first [exact (Permutation_in _ P' Hp) | exact (Permutation_in _ P' Hq) | exact (Permutation_in _ (Permutation_sym P') Hp) | exact (Permutation_in _ (Permutation_sym P') Hq)].
Qed.
Section C48.
Context {T O : Type}.
Variables (inside : list coords -> coords -> bool) (g : grid_arg) (d : nat) (pts : list (list R)) (tm : list T) (interp : method T O).
Hypothesis Hh : hull_test d pts inside.
Hypothesis Hg : float_grid g d pts.
Hypothesis Hd : (1 <= d)%nat.
Hypothesis Hn : (d + 1 <= length pts)%nat.
Hypothesis Hl : length tm = length pts.
Hypothesis Hi : is_interpolator interp = true.
Lemma c48_dispatch : exists pts' tm', arranged d pts tm pts' tm' /\
  (forall x extrap, create interp pts' tm' = Err x -> parametrized_init g (Some tm) interp extrap = Err x) /\
  (forall f, create interp pts' tm' = Ok f ->
    (exists est, parametrized_init g (Some tm) interp None = Ok est /\ forall t, length t = d ->
       (in_hull d pts t -> estimator_call inside est (TFlat t) = (do o <- f t; Ok (false, o))) /\
       (~ in_hull d pts t -> estimator_call inside est (TFlat t) = Err ValueError)) /\
    (forall e, is_extrapolator e = false -> parametrized_init g (Some tm) interp (Some e) = Err TypeError) /\
    (forall e h, is_extrapolator e = true -> create e pts' tm' = Ok h ->
       exists est, parametrized_init g (Some tm) interp (Some e) = Ok est /\ forall t, length t = d ->
         (in_hull d pts t -> estimator_call inside est (TFlat t) = (do o <- f t; Ok (false, o))) /\
         (~ in_hull d pts t -> estimator_call inside est (TFlat t) = (do o <- h t; Ok (true, o))))).
Proof.
  destruct (base_ok g d pts Hg Hn) as (Eb & Hp). pose proof (arranged_sort d pts tm Hl) as A.
  set (pts' := map fst (sort_points d pts tm)) in *. set (tm' := map snd (sort_points d pts tm)) in *. exists pts', tm'. split; [auto|].
  assert (Ei : forall extrap, parametrized_init g (Some tm) interp extrap = make_methods d pts tm interp extrap).
  { intros. unfold parametrized_init. rewrite Eb. cbn [rbind fst snd]. replace (Nat.eqb _ (length tm)) with true by (symmetry; apply Nat.eqb_eq; symmetry; exact Hl). auto. }
  assert (Em : forall extrap, make_methods d pts tm interp extrap = do f <- create interp pts' tm';
    match extrap with None => Ok (mkEst d pts' f None) | Some e => if is_extrapolator e then do h <- create e pts' tm'; Ok (mkEst d pts' f (Some h)) else Err TypeError end).
  { intros. unfold make_methods. rewrite Hi. auto. }
  assert (In' : forall (f : coords -> res O) (e : option (coords -> res O)) t, length t = d -> estimator_call inside (mkEst d pts' f e) (TFlat t) =
    if target_in_grid inside d pts' t then do o <- f t; Ok (false, o) else match e with Some h => do o <- h t; Ok (true, o) | None => Err ValueError end).
  { intros f e t Ht. unfold estimator_call, check_target. cbn [rbind grid_dim grid interpolator extrapolator]. rewrite Ht, Nat.eqb_refl. auto. }
  assert (Hin : forall t, length t = d -> (in_hull d pts t -> target_in_grid inside d pts' t = true) /\ (~ in_hull d pts t -> target_in_grid inside d pts' t = false)).
  { intros t Ht. destruct (arranged_hull d pts tm pts' tm' t Hl Hp A) as (H1 & H2 & H3).
    assert (Hh' : hull_test d pts' inside). { destruct A as (_ & _ & A & _). intros H2' t' Ht'. destruct (A ltac:(lia)) as (-> & _). apply Hh; auto. }
    pose proof (in_grid_spec inside d pts' t Hh' Hd H2 Ht) as S. assert (pts' <> []) by (intros E; rewrite E in H3; cbn in H3; lia). specialize (S H). split; intros Q.
    - apply S, H1; auto.
    - apply not_true_iff_false. intros X. apply Q, H1, S. auto. }
  split; [|intros f Ef; split; [|split]].
  - intros x extrap Ex. rewrite Ei, Em, Ex. auto.
  - exists (mkEst d pts' f None). rewrite Ei, Em, Ef. split; [auto|]. intros t Ht. destruct (Hin t Ht) as (I1 & I2). rewrite In' by auto. split; intros Q; [rewrite I1|rewrite I2]; auto.
  - intros e Ee. rewrite Ei, Em, Ef. cbn [rbind]. rewrite Ee. auto.
  - intros e h Ee Eh. exists (mkEst d pts' f (Some h)). rewrite Ei, Em, Ef. cbn [rbind]. rewrite Ee, Eh. split; [auto|]. intros t Ht. destruct (Hin t Ht) as (I1 & I2). rewrite In' by auto. split; intros Q; [rewrite I1|rewrite I2]; auto.
Qed.
End C48.
Lemma c48_discrete {T O} g edges n_bins (tm : list T) (interp : list R -> method T O) extrap : (length edges = n_bins + 1)%nat ->
  discrete_init g (Some edges) (Some (n_bins, tm)) interp extrap = parametrized_init g (Some tm) (interp edges) (match extrap with Some e => Some (e edges) | None => None end).
Proof.
  intros He. unfold discrete_init, parametrized_init. destruct (base_init g) as [dp|]; auto. cbn [rbind]. destruct (Nat.eqb _ _); auto.
  replace (Z.eqb (Z.of_nat n_bins) (Z.of_nat (length edges) - 1)) with true by (symmetry; apply Z.eqb_eq; lia). auto.
Qed.
Lemma c48_bad_grid {T O} g edges pdf (tm : option (list T)) (interp : method T O) extrap interp' extrap' : not_a_float_array g ->
  parametrized_init g tm interp extrap = Err TypeError /\ @discrete_init T O g edges pdf interp' extrap' = Err TypeError.
Proof. intros [->|[->| ->]]; split; auto. Qed.
Lemma c48_few_points {T O} g d pts edges pdf (tm : option (list T)) (interp : method T O) extrap interp' extrap' : float_grid g d pts -> (length pts < d + 1)%nat ->
  parametrized_init g tm interp extrap = Err ValueError /\ @discrete_init T O g edges pdf interp' extrap' = Err ValueError.
Proof.
  intros Hg Hn. assert (E : base_init g = Err ValueError).
  { destruct Hg as [(l & -> & -> & ->)|(-> & _)]; unfold base_init; cbn [rbind fst snd]; replace (Nat.ltb _ _) with true by (symmetry; apply Nat.ltb_lt; auto); auto. }
  unfold parametrized_init, discrete_init. rewrite E. auto.
Qed.
Lemma c48_templates {T O} g d pts (interp : method T O) extrap interp' extrap' : float_grid g d pts -> (d + 1 <= length pts)%nat ->
  parametrized_init g None interp extrap = Err TypeError /\
  (forall edges, @discrete_init T O g edges None interp' extrap' = Err TypeError) /\
  (forall tm, length tm <> length pts -> parametrized_init g (Some tm) interp extrap = Err ValueError /\
     forall edges n_bins, discrete_init g edges (Some (n_bins, tm)) interp' extrap' = Err ValueError) /\
  (forall tm n_bins, length tm = length pts -> discrete_init g None (Some (n_bins, tm)) interp' extrap' = Err TypeError /\
     forall edges, (length edges <> n_bins + 1)%nat -> discrete_init g (Some edges) (Some (n_bins, tm)) interp' extrap' = Err ValueError) /\
  (forall tm, length tm = length pts -> is_interpolator interp = false -> parametrized_init g (Some tm) interp extrap = Err TypeError).
Proof.
  intros Hg Hn. destruct (base_ok g d pts Hg Hn) as (E & _). unfold parametrized_init, discrete_init. rewrite E. cbn [rbind fst snd].
  split; [auto|]. split; [auto|]. split; [|split].
  - intros tm Hl. replace (Nat.eqb _ _) with false by (symmetry; apply Nat.eqb_neq; auto). auto.
  - intros tm n_bins Hl. replace (Nat.eqb _ (length tm)) with true by (symmetry; apply Nat.eqb_eq; auto). split; [auto|]. intros edges He.
    replace (Z.eqb (Z.of_nat n_bins) (Z.of_nat (length edges) - 1)) with false by (symmetry; apply Z.eqb_neq; lia). auto.
  - intros tm Hl Hi. replace (Nat.eqb _ _) with true by (symmetry; apply Nat.eqb_eq; auto). unfold make_methods. rewrite Hi. auto.
Qed.
Lemma c48_target {O} inside (est : estimator O) :
  estimator_call inside est TNotArray = Err TypeError /\
  (forall t, estimator_call inside est (TRows [t]) = estimator_call inside est (TFlat t)) /\
  (forall l, length l <> 1%nat -> estimator_call inside est (TRows l) = Err ValueError) /\
  (forall t, length t <> grid_dim est -> estimator_call inside est (TFlat t) = Err ValueError).
Proof.
  unfold estimator_call, check_target. split; [auto|]. split; [auto|]. split.
  - intros [|t [|t' l]] H; auto. cbn in H. lia.
  - intros t Ht. cbn [rbind]. replace (Nat.eqb _ _) with false by (symmetry; apply Nat.eqb_neq; auto). auto.
Qed.
Lemma c48_order {T O} g g' pts pts' (tm tm' : list T) (interp : method T O) extrap : float_grid g 1 pts -> float_grid g' 1 pts' -> (2 <= length pts)%nat ->
  length tm = length pts -> length tm' = length pts' -> NoDup pts -> Permutation (combine pts tm) (combine pts' tm') ->
  parametrized_init g (Some tm) interp extrap = parametrized_init g' (Some tm') interp extrap.
Proof.
  intros Hg Hg' Hn Hl Hl' Hd Hp. assert (L : length pts = length pts').
  { apply Permutation_length in Hp. rewrite !combine_length in Hp. lia. }
  destruct (base_ok g 1 pts Hg Hn) as (E & D). destruct (base_ok g' 1 pts' Hg' ltac:(lia)) as (E' & _).
  unfold parametrized_init. rewrite E, E'. cbn [rbind fst snd]. replace (Nat.eqb _ (length tm)) with true by (symmetry; apply Nat.eqb_eq; symmetry; exact Hl). replace (Nat.eqb _ (length tm')) with true by (symmetry; apply Nat.eqb_eq; symmetry; exact Hl'). unfold make_methods.
  rewrite (sort_points_order 1 pts tm pts' tm'); auto.
Qed.
