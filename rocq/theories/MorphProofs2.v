(** * Proofs: interpolation weights, one-dimensional interpolation, triangles *)
From Coq Require Import Reals List Bool ZArith Arith Lia Lra Permutation Sorted.
From Verif Require Import Num Numpy Sort Table Binning SpecBinning BinningProofs Lists CutsProofs CutsProofs2 Utils SpecSimulations SpecIRF IRFProofs IRFProofs2 Morph SpecInterp MorphProofs.
Import ListNotations.
Open Scope R_scope.

Lemma count_prefix {A} (p : A -> bool) l : forall c, (c <= length l)%nat ->
  (forall i x, nth_error l i = Some x -> p x = Nat.ltb i c) -> count p l = c.
Proof.
  induction l as [|a l IH]; intros c Hc H. { cbn in Hc. destruct c; [auto|lia]. }
  rewrite count_cons, (H 0%nat a eq_refl). destruct c as [|c]; cbn [Nat.ltb Nat.leb].
  - rewrite (IH 0%nat); [auto|lia|]. intros i x Hx. apply (H (S i) x Hx).
  - rewrite (IH c); [auto|cbn in Hc; lia|]. intros i x Hx. apply (H (S i) x Hx).
Qed.
Lemma digitize_inc grid t c : increasing grid -> grid <> [] -> (c <= length grid)%nat ->
  (forall i x, nth_error grid i = Some x -> (i < c)%nat -> x <= t) -> (forall i x, nth_error grid i = Some x -> (c <= i)%nat -> t < x) ->
  digitize1 (Fin t) (map Fin grid) = Ok c.
Proof.
  intros Hi Hne Hc H1 H2. unfold digitize1. rewrite monotonicity_nondec by (apply inc_nondec; auto).
  cbn. f_equal. unfold searchsorted_right. apply count_prefix; [rewrite map_length; auto|].
  intros i x Hx. apply map_nth_inv in Hx. destruct Hx as (y & Hy & ->). unfold np_lt. cbn [nlt is_nan]. rewrite andb_false_r, orb_false_r.
  destruct (Nat.ltb_spec i c) as [L|L].
  - specialize (H1 i y Hy L). rsolve. auto.
  - specialize (H2 i y Hy L). rsolve. auto.
Qed.
Lemma digitize_inside grid t k a b : increasing grid -> nth_error grid k = Some a -> nth_error grid (S k) = Some b -> a <= t < b ->
  digitize1 (Fin t) (map Fin grid) = Ok (S k).
Proof.
  intros Hi Ha Hb Ht. apply digitize_inc; auto.
  - intros ->. destruct k; discriminate.
  - apply nth_some_lt in Ha. lia.
  - intros i x Hx L. destruct (Nat.eq_dec i k) as [->|]; [assert (x = a) by congruence; lra|].
    pose proof (increasing_le grid i k x a Hi ltac:(lia) Hx Ha). lra.
  - intros i x Hx L. destruct (Nat.eq_dec i (S k)) as [->|]; [assert (x = b) by congruence; lra|].
    pose proof (increasing_le grid (S k) i b x Hi ltac:(lia) Hb Hx). lra.
Qed.
Lemma digitize_after grid t b : increasing grid -> nth_error grid (length grid - 1) = Some b -> b <= t ->
  digitize1 (Fin t) (map Fin grid) = Ok (length grid).
Proof.
  intros Hi Hb Ht. apply digitize_inc; auto.
  - intros ->. discriminate.
  - intros i x Hx L. destruct (Nat.eq_dec i (length grid - 1)) as [->|]; [assert (x = b) by congruence; lra|].
    pose proof (increasing_le grid i (length grid - 1) x b Hi ltac:(lia) Hx Hb). lra.
  - intros i x Hx L. apply nth_some_lt in Hx. lia.
Qed.

Lemma pyget_nat {A} (l : list A) k x : nth_error l k = Some x -> pyget l (Z.of_nat k) = Ok x.
Proof.
  intros H. unfold pyget. destruct (Z.ltb_spec (Z.of_nat k) 0); [lia|]. destruct (Z.ltb_spec (Z.of_nat k) 0); [lia|].
  rewrite Nat2Z.id, H. auto.
Qed.
Lemma pyget_out {A} (l : list A) : pyget l (Z.of_nat (length l)) = Err IndexError.
Proof.
  unfold pyget. destruct (Z.ltb_spec (Z.of_nat (length l)) 0); [lia|]. destruct (Z.ltb_spec (Z.of_nat (length l)) 0); [lia|].
  rewrite Nat2Z.id. destruct (nth_error l (length l)) eqn:E; auto. apply nth_some_lt in E. lia.
Qed.

(** C49: the weights *)
Lemma c49_weights g0 g1 t : g0 <> g1 ->
  linesegment_1D_interpolation_coefficients g0 g1 t = Ok [(g1 - t) / (g1 - g0); (t - g0) / (g1 - g0)].
Proof.
  intros H. unfold linesegment_1D_interpolation_coefficients, inv2. cbn [pow].
  destruct (Reqb_spec (1 * ((g1 - g0) * 1) - (g0 - g0) * 1 * 1) 0); [lra|]. cbn [rbind fst snd].
  replace (g0 - g0) with 0 by lra. f_equal. f_equal; [field; lra|]. f_equal. field. lra.
Qed.
Lemma c49_sum g0 g1 t c : linesegment_1D_interpolation_coefficients g0 g1 t = Ok c ->
  total c = 1 /\ weighted c [g0; g1] = t /\ (t = g0 -> unit_weights 0 c) /\ (t = g1 -> unit_weights 1 c) /\
  ((forall x, In x c -> 0 <= x) <-> Rmin g0 g1 <= t <= Rmax g0 g1).
Proof.
  destruct (Req_dec g0 g1) as [->|Hne].
  { unfold linesegment_1D_interpolation_coefficients, inv2. cbn [pow]. destruct (Reqb_spec (1 * ((g1 - g1) * 1) - (g1 - g1) * 1 * 1) 0); [discriminate|lra]. }
  rewrite c49_weights by auto. intros H. assert (c = [(g1 - t) / (g1 - g0); (t - g0) / (g1 - g0)]) by congruence. subst c. clear H.
  split; [|split; [|split; [|split]]].
  - cbn. field. lra.
  - unfold weighted. cbn. field. lra.
  - intros ->. split; [cbn; lia|]. intros [|[|i]] x Hx; cbn in Hx; [| |destruct i; discriminate].
    + injection Hx as <-. destruct (Nat.eq_dec 0 0); [field; lra|lia].
    + injection Hx as <-. destruct (Nat.eq_dec 1 0); [lia|field; lra].
  - intros ->. split; [cbn; lia|]. intros [|[|i]] x Hx; cbn in Hx; [| |destruct i; discriminate].
    + injection Hx as <-. destruct (Nat.eq_dec 0 1); [lia|field; lra].
    + injection Hx as <-. destruct (Nat.eq_dec 1 1); [field; lra|lia].
  - assert (P : (forall x, In x [(g1 - t) / (g1 - g0); (t - g0) / (g1 - g0)] -> 0 <= x) <-> (0 <= (g1 - t) / (g1 - g0) /\ 0 <= (t - g0) / (g1 - g0))).
    { split; [intros H; split; apply H; cbn; auto|intros (H1 & H2) x [<-|[<-|[]]]; auto]. }
    rewrite P. clear P. destruct (Rlt_dec g0 g1) as [L|L].
    + rewrite Rmin_left, Rmax_right by lra. assert (I : 0 < / (g1 - g0)) by (apply Rinv_0_lt_compat; lra). unfold Rdiv. split.
      * intros (H1 & H2). split.
        -- destruct (Rle_lt_dec g0 t); auto. assert (0 < (g0 - t) * / (g1 - g0)) by (apply Rmult_lt_0_compat; lra). lra.
        -- destruct (Rle_lt_dec t g1); auto. assert (0 < (t - g1) * / (g1 - g0)) by (apply Rmult_lt_0_compat; lra). lra.
      * intros. split; apply Rmult_le_pos; lra.
    + rewrite Rmin_right, Rmax_left by lra. assert (I : 0 < / (g0 - g1)) by (apply Rinv_0_lt_compat; lra).
      replace ((g1 - t) / (g1 - g0)) with ((t - g1) * / (g0 - g1)) by (field; lra). replace ((t - g0) / (g1 - g0)) with ((g0 - t) * / (g0 - g1)) by (field; lra). split.
      * intros (H1 & H2). split.
        -- destruct (Rle_lt_dec g1 t); auto. assert (0 < (g1 - t) * / (g0 - g1)) by (apply Rmult_lt_0_compat; lra). lra.
        -- destruct (Rle_lt_dec t g0); auto. assert (0 < (t - g0) * / (g0 - g1)) by (apply Rmult_lt_0_compat; lra). lra.
      * intros. split; apply Rmult_le_pos; lra.
Qed.
Lemma c49_degenerate g t : linesegment_1D_interpolation_coefficients g g t = Err LinAlgError.
Proof. unfold linesegment_1D_interpolation_coefficients, inv2. cbn [pow]. destruct (Reqb_spec (1 * ((g - g) * 1) - (g - g) * 1 * 1) 0); [auto|lra]. Qed.

(** C49: which templates are combined, and how *)
Lemma c49_segment grid edges templates n t k a b ta tb : increasing grid ->
  nth_error grid k = Some a -> nth_error grid (S k) = Some b -> nth_error templates k = Some ta -> nth_error templates (S k) = Some tb ->
  a <= t < b ->
  interpolate1D grid edges templates n t = moment_morph_slice edges [ta; tb] [(b - t) / (b - a); (t - a) / (b - a)] n.
Proof.
  intros Hi Ha Hb Hta Htb Ht. unfold interpolate1D. rewrite (digitize_inside grid t k a b) by auto. cbn [rbind].
  replace (Z.of_nat (S k) - 1)%Z with (Z.of_nat k) by lia.
  rewrite (pyget_nat grid k a), (pyget_nat grid (S k) b) by auto. cbn [rbind]. rewrite c49_weights by lra. cbn [rbind].
  rewrite (pyget_nat templates k ta), (pyget_nat templates (S k) tb) by auto. auto.
Qed.
Lemma c49_last grid edges templates n t b : increasing grid -> nth_error grid (length grid - 1) = Some b -> b <= t ->
  interpolate1D grid edges templates n t = Err IndexError.
Proof.
  intros Hi Hb Ht. unfold interpolate1D. rewrite (digitize_after grid t b) by auto. cbn [rbind].
  replace (Z.of_nat (length grid) - 1)%Z with (Z.of_nat (length grid - 1)).
  2:{ apply nth_some_lt in Hb. lia. }
  rewrite (pyget_nat grid _ b) by auto. cbn [rbind]. rewrite pyget_out. auto.
Qed.

(** order of the grid points *)
Lemma sorted_keys_eq {A} (l1 : list (R * A)) : forall l2, StronglySorted (fun p q => Rleb (fst p) (fst q) = true) l1 ->
  StronglySorted (fun p q => Rleb (fst p) (fst q) = true) l2 -> NoDup (map fst l1) -> Permutation l1 l2 -> l1 = l2.
Proof.
  induction l1 as [|a l1 IH]; intros l2 H1 H2 Hd Hp; [apply Permutation_nil in Hp; auto|].
  destruct l2 as [|b l2]; [symmetry in Hp; apply Permutation_nil in Hp; discriminate|].
  inversion H1 as [|? ? S1 F1]; subst. inversion H2 as [|? ? S2 F2]; subst. rewrite Forall_forall in F1, F2.
  assert (Ha : In a (b :: l2)) by (eapply Permutation_in; eauto; left; auto).
  assert (Hb : In b (a :: l1)) by (eapply Permutation_in; [symmetry; eauto|left; auto]).
  assert (a = b).
  { destruct Ha as [|Ha]; auto. destruct Hb as [|Hb]; auto. exfalso.
    assert (fst a = fst b). { apply F2 in Ha. apply F1 in Hb. rcmp. lra. }
    inversion Hd as [|? ? Hn _]. apply Hn. rewrite H. apply in_map; auto. }
  subst b. f_equal. apply IH; auto; [inversion Hd; auto|]. eapply Permutation_cons_inv; eauto.
Qed.
Lemma sort_1D_sorted {A} grid (tm : list A) : StronglySorted (fun p q => Rleb (fst p) (fst q) = true) (sort_1D grid tm).
Proof. apply (isort_sorted (fun p q : R * A => Rleb (fst p) (fst q))); [intros; apply Rleb_total|intros a b c; apply Rleb_trans]. Qed.
Lemma combine_fst {A B} (l : list A) (l' : list B) : length l = length l' -> map fst (combine l l') = l.
Proof. revert l'. induction l as [|a l IH]; intros [|b l'] H; cbn in *; try lia; auto. rewrite IH; auto. Qed.
Lemma sort_1D_order {A} grid (tm : list A) grid' tm' : length grid = length tm -> NoDup grid -> Permutation (combine grid tm) (combine grid' tm') ->
  sort_1D grid tm = sort_1D grid' tm'.
Proof.
  intros Hl Hd Hp. apply sorted_keys_eq; try apply sort_1D_sorted.
  - apply (Permutation_NoDup (l := map fst (combine grid tm))); [apply Permutation_map, isort_perm|]. rewrite combine_fst; auto.
  - unfold sort_1D. rewrite <- !isort_perm. auto.
Qed.
Lemma sorted_increasing l : StronglySorted (fun x y => Rleb x y = true) l -> NoDup l -> increasing l.
Proof.
  intros H. induction H as [|a l Hs IH Hf]; intros Hd i x y Hx Hy; [destruct i; discriminate|].
  inversion Hd as [|? ? Hni Hnd]; subst. destruct i as [|i].
  - cbn [nth_error] in Hx, Hy. assert (a = x) by congruence. subst a. rewrite Forall_forall in Hf. change (nth_error l 0 = Some y) in Hy. apply nth_error_In in Hy. specialize (Hf y Hy). rcmp.
    destruct Hf; auto. subst. contradiction.
  - apply (IH Hnd i); auto.
Qed.
Lemma sort_1D_increasing {A} grid (tm : list A) : length grid = length tm -> NoDup grid -> increasing (map fst (sort_1D grid tm)).
Proof.
  intros Hl Hd. apply sorted_increasing.
  - pose proof (sort_1D_sorted grid tm) as H. induction H as [|a l Hs IH Hf]; cbn; constructor; auto.
    rewrite Forall_forall in *. intros x Hx. apply in_map_iff in Hx. destruct Hx as (y & <- & Hy). apply Hf; auto.
  - apply (Permutation_NoDup (l := map fst (combine grid tm))); [apply Permutation_map, isort_perm|]. rewrite combine_fst; auto.
Qed.
Lemma c49_order grid grid' edges tm tm' n t : length grid = length tm -> NoDup grid -> Permutation (combine grid tm) (combine grid' tm') ->
  morph_estimate_1D grid edges tm n t = morph_estimate_1D grid' edges tm' n t.
Proof. intros. unfold morph_estimate_1D. rewrite (sort_1D_order grid tm grid' tm'); auto. Qed.

(** C51 in one dimension *)
Lemma find_segment grid t : increasing grid -> (exists a, nth_error grid 0 = Some a /\ a <= t) -> (exists b, nth_error grid (length grid - 1) = Some b /\ t < b) ->
  exists k a b, nth_error grid k = Some a /\ nth_error grid (S k) = Some b /\ a <= t < b.
Proof.
  induction grid as [|g grid IH]; intros Hi (a & Ha & Hat) (b & Hb & Hbt); [discriminate|].
  cbn in Ha. assert (g = a) by congruence. subst g. destruct grid as [|g2 grid]; [cbn in Hb; assert (a = b) by congruence; lra|].
  destruct (Rlt_le_dec t g2) as [L|L]; [exists 0%nat, a, g2; cbn; auto|].
  destruct IH as (k & x & y & Hx & Hy & Hxy).
  - intros i x y Hx Hy. apply (Hi (S i)); auto.
  - exists g2. cbn; auto.
  - exists b. split; auto. cbn in Hb |- *. rewrite Nat.sub_0_r. auto.
  - exists (S k), x, y. auto.
Qed.

Section OneD.
Variables (m : measured_by) (edges grid : list R) (templates : list (list R)).
Hypothesis He : usable_edges m edges.
Hypothesis Hg : increasing grid.
Hypothesis Hl : length templates = length grid.
Hypothesis Hf : forall h, In h templates -> histogram_of (length edges - 1) h /\ filled h.

Let Hf2 i j h1 h2 : nth_error templates i = Some h1 -> nth_error templates j = Some h2 ->
  forall h, In h [h1; h2] -> histogram_of (length edges - 1) h /\ 1/100000000 < rsum h.
Proof.
  intros H1 H2 h [<-|[<-|[]]]; [pose proof (nth_error_In _ _ H1) as H3|pose proof (nth_error_In _ _ H2) as H3]; destruct (Hf _ H3) as (Hh & Hfl);
    split; auto; unfold filled in Hfl; rewrite total_rsum in Hfl; auto.
Qed.
Lemma c51_inside t : (exists a, nth_error grid 0 = Some a /\ a <= t) -> (exists b, nth_error grid (length grid - 1) = Some b /\ t < b) ->
  exists out, interpolate1D grid edges templates (nz m) t = Ok out /\ nonnegative out /\ (integrates_to_one m edges out \/ all_zero out).
Proof.
  intros H1 H2. destruct (find_segment grid t Hg H1 H2) as (k & a & b & Ha & Hb & Hab).
  destruct (nth_some_ex templates k) as (ta & Hta). { rewrite Hl. eapply nth_some_lt; eauto. }
  destruct (nth_some_ex templates (S k)) as (tb & Htb). { rewrite Hl. eapply nth_some_lt; eauto. }
  rewrite (c49_segment grid edges templates (nz m) t k a b ta tb) by auto.
  assert (I : 0 < / (b - a)) by (apply Rinv_0_lt_compat; lra).
  destruct (slice_normalised m edges He [ta; tb] [(b - t) / (b - a); (t - a) / (b - a)] eq_refl (Hf2 _ _ _ _ Hta Htb)) as (out & E & H & Hn).
  assert (Hnn : nonnegative out).
  { apply Hn.
    - intros c [<-|[<-|[]]]; apply Rmult_le_pos; lra.
    - exists ((b - t) / (b - a)). split; [left; auto|]. apply Rmult_lt_0_compat; lra. }
  exists out. split; auto. split; auto. destruct H as [H|[H|H]]; auto.
  right. intros x Hx. destruct (Hnn x Hx) as (r & Er & _). rewrite (H x Hx) in Er. discriminate.
Qed.
Lemma c51_at_grid_point k h t : nth_error grid k = Some t -> (S k < length grid)%nat -> nth_error templates k = Some h ->
  exists out, interpolate1D grid edges templates (nz m) t = Ok out /\ normalised m edges h out.
Proof.
  intros Ha Hk Hta. destruct (nth_some_ex grid (S k) Hk) as (b & Hb). destruct (nth_some_ex templates (S k)) as (tb & Htb). { rewrite Hl; auto. }
  pose proof (Hg _ _ _ Ha Hb). rewrite (c49_segment grid edges templates (nz m) t k t b h tb) by (auto; lra).
  apply (slice_same m edges He [h; tb] [(b - t) / (b - t); (t - t) / (b - t)] eq_refl (Hf2 _ _ _ _ Hta Htb)).
  - rewrite !rsum_cons, rsum_nil. field. lra.
  - left; auto.
  - intros [|[|i]] c x Hc Hx Hne; cbn in Hc, Hx; [congruence| |destruct i; discriminate].
    exfalso. apply Hne. assert (c = (t - t) / (b - t)) by congruence. subst c. field. lra.
Qed.
End OneD.

(** C50 *)
Lemma c50_weights p1 p2 p3 t c : (fst p1 - fst p3) * (snd p2 - snd p3) <> (fst p2 - fst p3) * (snd p1 - snd p3) ->
  barycentric_2D_interpolation_coefficients p1 p2 p3 t = c ->
  length c = 3%nat /\ total c = 1 /\ weighted c [fst p1; fst p2; fst p3] = fst t /\ weighted c [snd p1; snd p2; snd p3] = snd t.
Proof.
  intros H <-. unfold barycentric_2D_interpolation_coefficients, weighted. destruct p1 as [x1 y1], p2 as [x2 y2], p3 as [x3 y3], t as [x y]. cbn in *.
  repeat split; field; intros E; apply H; lra.
Qed.
(** the weights are determined by this *)
Lemma c50_unique x1 y1 x2 y2 x3 y3 a1 a2 a3 b1 b2 b3 :
  (x1 - x3) * (y2 - y3) <> (x2 - x3) * (y1 - y3) ->
  a1 + a2 + a3 = b1 + b2 + b3 ->
  a1 * x1 + a2 * x2 + a3 * x3 = b1 * x1 + b2 * x2 + b3 * x3 ->
  a1 * y1 + a2 * y2 + a3 * y3 = b1 * y1 + b2 * y2 + b3 * y3 -> a1 = b1 /\ a2 = b2 /\ a3 = b3.
Proof.
  intros Hd H1 H2 H3. set (D := (x1 - x3) * (y2 - y3) - (x2 - x3) * (y1 - y3)). assert (D <> 0) by (unfold D; lra).
  assert (E1 : (a1 - b1) * D = 0).
  { unfold D. assert (E : a3 - b3 = - (a1 - b1) - (a2 - b2)) by lra.
    assert (U : (a1 - b1) * (x1 - x3) + (a2 - b2) * (x2 - x3) = 0).
    { replace ((a1 - b1) * (x1 - x3) + (a2 - b2) * (x2 - x3)) with ((a1 - b1) * x1 + (a2 - b2) * x2 + (- (a1 - b1) - (a2 - b2)) * x3) by ring. rewrite <- E. lra. }
    assert (V : (a1 - b1) * (y1 - y3) + (a2 - b2) * (y2 - y3) = 0).
    { replace ((a1 - b1) * (y1 - y3) + (a2 - b2) * (y2 - y3)) with ((a1 - b1) * y1 + (a2 - b2) * y2 + (- (a1 - b1) - (a2 - b2)) * y3) by ring. rewrite <- E. lra. }
    replace ((a1 - b1) * ((x1 - x3) * (y2 - y3) - (x2 - x3) * (y1 - y3))) with
      (((a1 - b1) * (x1 - x3) + (a2 - b2) * (x2 - x3)) * (y2 - y3) - ((a1 - b1) * (y1 - y3) + (a2 - b2) * (y2 - y3)) * (x2 - x3)) by ring.
    rewrite U, V. ring. }
  assert (E2 : (a2 - b2) * D = 0).
  { unfold D. assert (E : a3 - b3 = - (a1 - b1) - (a2 - b2)) by lra.
    assert (U : (a1 - b1) * (x1 - x3) + (a2 - b2) * (x2 - x3) = 0).
    { replace ((a1 - b1) * (x1 - x3) + (a2 - b2) * (x2 - x3)) with ((a1 - b1) * x1 + (a2 - b2) * x2 + (- (a1 - b1) - (a2 - b2)) * x3) by ring. rewrite <- E. lra. }
    assert (V : (a1 - b1) * (y1 - y3) + (a2 - b2) * (y2 - y3) = 0).
    { replace ((a1 - b1) * (y1 - y3) + (a2 - b2) * (y2 - y3)) with ((a1 - b1) * y1 + (a2 - b2) * y2 + (- (a1 - b1) - (a2 - b2)) * y3) by ring. rewrite <- E. lra. }
    replace ((a2 - b2) * ((x1 - x3) * (y2 - y3) - (x2 - x3) * (y1 - y3))) with
      (((a1 - b1) * (y1 - y3) + (a2 - b2) * (y2 - y3)) * (x1 - x3) - ((a1 - b1) * (x1 - x3) + (a2 - b2) * (x2 - x3)) * (y1 - y3)) by ring.
    rewrite U, V. ring. }
  apply Rmult_integral in E1, E2. destruct E1; [|contradiction]. destruct E2; [|contradiction]. repeat split; lra.
Qed.
Lemma bary_value p1 p2 p3 t w1 w2 w3 : (fst p1 - fst p3) * (snd p2 - snd p3) <> (fst p2 - fst p3) * (snd p1 - snd p3) ->
  w1 + w2 + w3 = 1 -> w1 * fst p1 + w2 * fst p2 + w3 * fst p3 = fst t -> w1 * snd p1 + w2 * snd p2 + w3 * snd p3 = snd t ->
  barycentric_2D_interpolation_coefficients p1 p2 p3 t = [w1; w2; w3].
Proof.
  intros Hd H1 H2 H3. destruct (c50_weights p1 p2 p3 t _ Hd eq_refl) as (_ & S1 & S2 & S3).
  set (c := barycentric_2D_interpolation_coefficients p1 p2 p3 t) in *.
  assert (Ec : exists a b d, c = [a; b; d]) by (unfold c, barycentric_2D_interpolation_coefficients; cbv zeta; eauto).
  destruct Ec as (a & b & d & Ec). rewrite Ec in *. unfold weighted in *. cbn in S1, S2, S3.
  destruct (c50_unique (fst p1) (snd p1) (fst p2) (snd p2) (fst p3) (snd p3) a b d w1 w2 w3) as (-> & -> & ->); auto; lra.
Qed.
(** at a vertex; non-negative exactly in the triangle; shifts and relabelling *)
Lemma c50_vertices p1 p2 p3 : (fst p1 - fst p3) * (snd p2 - snd p3) <> (fst p2 - fst p3) * (snd p1 - snd p3) ->
  barycentric_2D_interpolation_coefficients p1 p2 p3 p1 = [1; 0; 0] /\
  barycentric_2D_interpolation_coefficients p1 p2 p3 p2 = [0; 1; 0] /\
  barycentric_2D_interpolation_coefficients p1 p2 p3 p3 = [0; 0; 1].
Proof. intros. repeat split; apply bary_value; auto; lra. Qed.
Lemma c50_inside p1 p2 p3 t : (fst p1 - fst p3) * (snd p2 - snd p3) <> (fst p2 - fst p3) * (snd p1 - snd p3) ->
  ((forall x, In x (barycentric_2D_interpolation_coefficients p1 p2 p3 t) -> 0 <= x) <-> in_triangle p1 p2 p3 t).
Proof.
  intros Hd. destruct (c50_weights p1 p2 p3 t _ Hd eq_refl) as (_ & S1 & S2 & S3). split.
  - intros Hn. set (c := barycentric_2D_interpolation_coefficients p1 p2 p3 t) in *.
    assert (Ec : exists a b d, c = [a; b; d]) by (unfold c, barycentric_2D_interpolation_coefficients; cbv zeta; eauto).
    destruct Ec as (a & b & d & Ec). rewrite Ec in *. unfold weighted in *. cbn in S1, S2, S3.
    exists a, b, d. repeat split; try (apply Hn; cbn; auto; fail); lra.
  - intros (w1 & w2 & w3 & N1 & N2 & N3 & E1 & E2 & E3). rewrite (bary_value p1 p2 p3 t w1 w2 w3) by auto.
    intros x [<-|[<-|[<-|[]]]]; auto.
Qed.
Lemma c50_affine p1 p2 p3 t (f : R * R -> R * R) : (fst p1 - fst p3) * (snd p2 - snd p3) <> (fst p2 - fst p3) * (snd p1 - snd p3) ->
  (exists a b c d u v, a * d <> b * c /\ forall x y, f (x, y) = (a * x + b * y + u, c * x + d * y + v)) ->
  barycentric_2D_interpolation_coefficients (f p1) (f p2) (f p3) (f t) = barycentric_2D_interpolation_coefficients p1 p2 p3 t.
Proof.
  intros Hd (a & b & c & d & u & v & Had & Hf). destruct (c50_weights p1 p2 p3 t _ Hd eq_refl) as (_ & S1 & S2 & S3).
  set (w := barycentric_2D_interpolation_coefficients p1 p2 p3 t) in *.
  assert (Ec : exists a b d, w = [a; b; d]) by (unfold w, barycentric_2D_interpolation_coefficients; cbv zeta; eauto).
  destruct Ec as (w1 & w2 & w3 & Ec). rewrite Ec in *. unfold weighted in *. cbn in S1, S2, S3.
  destruct p1 as [x1 y1], p2 as [x2 y2], p3 as [x3 y3], t as [x y]. rewrite !Hf. cbn [fst snd] in *.
  apply bary_value; cbn [fst snd].
  - intros E. assert (E' : (a * d - b * c) * ((x1 - x3) * (y2 - y3) - (x2 - x3) * (y1 - y3)) = 0) by (ring_simplify; ring_simplify in E; lra).
    apply Rmult_integral in E'. destruct E'; [apply Had|apply Hd]; lra.
  - lra.
  - rewrite <- S2, <- S3. replace w3 with (1 - w1 - w2) by lra. ring.
  - rewrite <- S2, <- S3. replace w3 with (1 - w1 - w2) by lra. ring.
Qed.
Lemma c50_relabel p1 p2 p3 t a b c : (fst p1 - fst p3) * (snd p2 - snd p3) <> (fst p2 - fst p3) * (snd p1 - snd p3) ->
  barycentric_2D_interpolation_coefficients p1 p2 p3 t = [a; b; c] ->
  barycentric_2D_interpolation_coefficients p2 p1 p3 t = [b; a; c] /\ barycentric_2D_interpolation_coefficients p2 p3 p1 t = [b; c; a].
Proof.
  intros Hd E. destruct (c50_weights p1 p2 p3 t _ Hd eq_refl) as (_ & S1 & S2 & S3). rewrite E in *. unfold weighted in *. cbn in S1, S2, S3.
  split; apply bary_value; auto; try lra; intros X; apply Hd; lra.
Qed.
