(** * HistDoubleProofs: sums of weights and weighted histograms in double precision *)
From Coq Require Import String Reals List Bool ZArith Arith Lia Lra Psatz Permutation.
From Flocq Require Import Core.
From Verif Require Import Num Numpy Lists SpecBinning Table Binning BinningProofs HistProofs Utils SpecUtils SpecSimulations Simulations SimulationsProofs SimulationsProofs2
  Tensor TensorProofs SpecIRF IRF IRFProofs IRFProofs2 IRFProofs4 Double SpecDouble DoubleProofs NearProofs LiMaDoubleProofs LiMaDouble2Proofs IRFDouble IRFDoubleProofs IRFDouble2Proofs PSFDoubleProofs HistDouble.
Import ListNotations.
Open Scope R_scope.

(** ** sums and differences of doubles have a relative error, even below the normal range *)
Lemma double_multiple x : double x -> exists n : Z, x = IZR n * bpow radix2 (-1074).
Proof.
  intros (m & e & Hm & He & ->). exists (m * radix2 ^ (e + 1074))%Z. rewrite mult_IZR, (IZR_Zpower radix2) by lia. rewrite Rmult_assoc, <- bpow_plus.
  replace (e + 1074 + -1074)%Z with e by lia. rewrite bpow_powerRZ. reflexivity.
Qed.
Lemma multiple_near n : near 1 (IZR n * bpow radix2 (-1074)) (round64 (IZR n * bpow radix2 (-1074))).
Proof.
  destruct (Rle_lt_dec (bpow radix2 (-1022)) (Rabs (IZR n * bpow radix2 (-1074)))) as [H|H]; [apply near_round; auto|].
  rewrite round64_id; [apply near_weaken with 0%nat; [lia|apply near_refl]|]. apply generic_format_FLT. exists (Float radix2 n (-1074)); [reflexivity| |cbn; lia].
  cbn. apply lt_IZR. rewrite abs_IZR. apply (Rmult_lt_reg_r (bpow radix2 (-1074))); [apply bpow_gt_0|].
  rewrite Rabs_mult, (Rabs_pos_eq (bpow radix2 (-1074))) in H by apply bpow_ge_0. eapply Rlt_le_trans; [exact H|].
  replace (bpow radix2 (-1022)) with (bpow radix2 52 * bpow radix2 (-1074)) by (rewrite <- bpow_plus; reflexivity). apply Rmult_le_compat_r; [apply bpow_ge_0|]. rewrite <- (IZR_Zpower radix2 52) by lia. apply IZR_le. cbn. lia.
Qed.
Lemma plus_near x y : double x -> double y -> near 1 (x + y) (round64 (x + y)).
Proof.
  intros Hx Hy. destruct (double_multiple x Hx) as (n & ->). destruct (double_multiple y Hy) as (m & ->). rewrite <- Rmult_plus_distr_r, <- plus_IZR. apply multiple_near.
Qed.
Lemma minus_near x y : double x -> double y -> near 1 (x - y) (round64 (x - y)).
Proof.
  intros Hx Hy. destruct (double_multiple x Hx) as (n & ->). destruct (double_multiple y Hy) as (m & ->). rewrite <- Rmult_minus_distr_r, <- minus_IZR. apply multiple_near.
Qed.
Lemma pow_u_lower k : 1 - INR k * u <= (1 - u) ^ k.
Proof.
  induction k as [|k IH]; [simpl; lra|]. rewrite S_INR. simpl. pose proof u_pos. pose proof u_small. pose proof (pos_INR k). pose proof (pow_u k).
  apply Rle_trans with ((1 - u) * (1 - INR k * u)); [|apply Rmult_le_compat_l; lra]. nra.
Qed.
Lemma near_bound k x y : INR k * u <= / 4 -> near k x y -> Rabs (y - x) <= 2 * (INR k * u) * Rabs x.
Proof.
  intros H (t & [T1 T2] & ->). replace (x * t - x) with ((t - 1) * x) by ring. rewrite Rabs_mult. apply Rmult_le_compat_r; [apply Rabs_pos|].
  pose proof (pow_u_lower k). pose proof u_pos. pose proof (pos_INR k). set (q := INR k * u) in *. assert (0 <= q) by (unfold q; apply Rmult_le_pos; lra). apply Rabs_le. split; [lra|].
  assert (/ (1 - u) ^ k <= / (1 - q)) by (apply Rinv_le_contravar; lra). assert (/ (1 - q) <= 1 + 2 * q); [|lra].
  apply (Rmult_le_reg_r (1 - q)); [lra|]. rewrite Rinv_l by lra. nra.
Qed.
Lemma near_twice k x y : INR k * u <= / 4 -> 0 <= x -> near k x y -> y <= 2 * x.
Proof. intros H Hx N. pose proof (near_bound k x y H N) as B. rewrite (Rabs_pos_eq x) in B by auto. apply Rabs_le_inv in B. assert (INR k * u * x <= / 4 * x) by (apply Rmult_le_compat_r; auto). lra. Qed.

(** ** sums *)
Definition racc (a : R) (l : list R) : R := fold_left (fun c v => round64 (c + v)) l a.
Definition huge : R := bpow radix2 1000.
Lemma racc_near m xs vs : Forall2 (fun x v => 0 <= x /\ near m x v /\ double v) xs vs ->
  forall k s a, (m <= k)%nat -> 0 <= s -> near k s a -> double a -> INR (k + length vs) * u <= / 4 -> s + rsum xs <= huge ->
  near (k + length vs) (s + rsum xs) (racc a vs) /\ double (racc a vs) /\ fold_left fadd (map Fin vs) (Fin a) = Fin (racc a vs).
Proof.
  induction 1 as [|x v xs vs (Hx & Nv & Dv) F IH]; intros k s a Hk Hs Na Da HK HM.
  - cbn. rewrite Nat.add_0_r, Rplus_0_r. auto.
  - assert (Hr : 0 <= rsum xs) by (apply rsum_nonneg; intros z Hz; clear - F Hz; induction F as [|? ? ? ? [? _]]; [destruct Hz|destruct Hz as [<-|]; auto]).
    change (rsum (x :: xs)) with (x + rsum xs) in *. cbn [length] in *.
    assert (Nav : near k (s + x) (a + v)) by (apply near_sum; auto; eapply near_weaken; eauto).
    assert (INR k * u <= / 4) by (eapply Rle_trans; [|exact HK]; apply Rmult_le_compat_r; [pose proof u_pos; lra|apply le_INR; lia]).
    assert (B : 0 <= a + v <= fmax). { split; [eapply near_nonneg; [|exact Nav]; lra|]. eapply Rle_trans; [apply (near_twice k (s + x)); auto; lra|].
      eapply Rle_trans; [|apply (bpow_fmax 1001); lia]. change 1001%Z with (1 + 1000)%Z. rewrite bpow_plus. change (bpow radix2 1) with 2. fold huge. lra. }
    assert (E : fadd (Fin a) (Fin v) = Fin (round64 (a + v))) by (rewrite fadd_fin; apply fl_fin; rewrite Rabs_pos_eq; lra).
    destruct (IH (S k) (s + x) (round64 (a + v))) as (N & D & Q); auto; try lra.
    + replace (S k) with (k + 1)%nat by lia. eapply near_trans; [exact Nav|]. apply plus_near; auto.
    + apply double_round. rewrite Rabs_pos_eq; lra.
    + replace (S k + length vs)%nat with (k + S (length vs))%nat by lia. auto.
    + cbn [map fold_left racc]. rewrite E. split; [|split]; auto. replace (k + S (length vs))%nat with (S k + length vs)%nat by lia. replace (s + (x + rsum xs)) with (s + x + rsum xs) by ring. exact N.
Qed.
Lemma double_0 : double 0.
Proof. exists 0%Z, 0%Z. split; [reflexivity|]. split; [lia|]. ring. Qed.
Lemma doubles_near l : Forall (fun v => 0 <= v /\ double v) l -> Forall2 (fun x v => 0 <= x /\ near 0 x v /\ double v) l l.
Proof. induction 1 as [|v l [? ?]]; constructor; auto. split; auto. split; auto. apply near_refl. Qed.
Lemma racc_sum l : Forall (fun v => 0 <= v /\ double v) l -> INR (length l) * u <= / 4 -> rsum l <= huge ->
  near (length l) (rsum l) (racc 0 l) /\ double (racc 0 l) /\ fsum (map Fin l) = Fin (racc 0 l).
Proof.
  intros F HK HM. destruct (racc_near 0 l l (doubles_near l F) 0 0 0) as (N & D & E); try lra; auto.
  - apply near_refl.
  - apply double_0.
  - rewrite Rplus_0_l in N. auto.
Qed.
Lemma racc_le l l' : Forall2 Rle l l' -> forall a b, a <= b -> racc a l <= racc b l'.
Proof. induction 1; intros a b Hab; cbn; auto. apply IHForall2. apply round64_mono. lra. Qed.
Lemma racc_app a l l' : racc a (l ++ l') = racc (racc a l) l'.
Proof. apply fold_left_app. Qed.
Lemma racc_ge l : Forall (fun v => 0 <= v) l -> forall a, round64 a = a -> a <= racc a l.
Proof.
  induction 1 as [|v l Hv F IH]; intros a Ha; cbn; [lra|]. assert (a <= round64 (a + v)) by (rewrite <- Ha at 1; apply round64_mono; lra).
  eapply Rle_trans; [eassumption|]. apply IH. apply round64_id. apply generic_format_round; auto with typeclass_instances.
Qed.
Lemma cumsum_nth l : forall a k, (k <= length l)%nat -> nth k (cumsum_double a l) NaN = fold_left fadd (firstn k l) a.
Proof.
  induction l as [|v l IH]; intros a k H.
  - destruct k; [reflexivity|cbn in H; lia].
  - destruct k; [reflexivity|]. cbn [cumsum_double nth firstn fold_left]. apply IH. cbn in H. lia.
Qed.

(** ** blocks *)
Lemma block_pos : (0 < BLOCK)%nat. Proof. unfold BLOCK. lia. Qed.
Lemma blocks_concat {A} fuel : forall l : list A, (length l <= fuel)%nat -> concat (blocks fuel l) = l.
Proof.
  induction fuel as [|fuel IH]; intros l H; [destruct l; [reflexivity|cbn in H; lia]|]. destruct l as [|a l]; [reflexivity|].
  cbn [blocks concat]. rewrite IH; [apply firstn_skipn|]. rewrite skipn_length. pose proof block_pos. cbn [length] in *. lia.
Qed.
Lemma blocks_length {A} fuel : forall l b, In b (blocks fuel l) -> (length b <= BLOCK /\ length b <= @length A l)%nat.
Proof.
  induction fuel as [|fuel IH]; intros l b H; [destruct l; destruct H|]. destruct l as [|a l]; [destruct H|]. cbn [blocks] in H. destruct H as [<-|H].
  - rewrite firstn_length. lia.
  - apply IH in H. rewrite skipn_length in H. lia.
Qed.
Lemma blocks_number {A} fuel : forall l : list A, (length (blocks fuel l) * BLOCK <= length l + (BLOCK - 1))%nat.
Proof.
  induction fuel as [|fuel IH]; intros l; [destruct l; cbn; lia|]. destruct l as [|a l]; [cbn; lia|]. cbn [blocks]. cbn [length Nat.mul].
  pose proof (IH (skipn BLOCK (a :: l))) as H. rewrite skipn_length in H. pose proof block_pos.
  destruct (Nat.le_gt_cases (length (a :: l)) BLOCK) as [L|L].
  - rewrite (skipn_all2 (a :: l)) by auto. assert (blocks fuel (@nil A) = []) as -> by (destruct fuel; reflexivity). cbn [length]. lia.
  - change (S (length l)) with (length (a :: l)). lia.
Qed.

(** ** one histogram *)
Lemma fold_zip {A B} (bs : list B) (ps : list A) (g : B -> A -> num) : forall f,
  fold_left (fun cum b => zipwith fadd cum (map (g b) ps)) bs (map f ps) = map (fun p => fold_left fadd (map (fun b => g b p) bs) (f p)) ps.
Proof.
  induction bs as [|b bs IH]; intros f; [reflexivity|]. cbn [fold_left map].
  replace (zipwith fadd (map f ps) (map (g b) ps)) with (map (fun p => fadd (f p) (g b p)) ps); [apply IH|].
  clear. induction ps; cbn; f_equal; auto.
Qed.
Lemma firstn_filter {A} (p : A -> bool) l : (forall i j a b, (i < j)%nat -> nth_error l i = Some a -> nth_error l j = Some b -> p b = true -> p a = true) ->
  firstn (count p l) l = filter p l.
Proof.
  induction l as [|a l IH]; intros H; [reflexivity|]. cbn [count filter]. unfold count. cbn [filter]. destruct (p a) eqn:E.
  - cbn [length firstn]. f_equal. apply IH. intros i j x y Hij Hi Hj. apply (H (S i) (S j)); auto; lia.
  - replace (filter p l) with (@nil A); [reflexivity|]. symmetry. destruct (filter p l) as [|b l'] eqn:F; auto.
    assert (Hb : In b (filter p l)) by (rewrite F; left; auto). apply filter_In in Hb as [Hb Pb]. apply In_nth_error in Hb as (j & Hj).
    exfalso. rewrite (H 0%nat (S j) a b) in E; auto; [discriminate|lia].
Qed.
Section H.
Context {A : Type} (argsort : list A -> list A) (x : A -> num) (w : A -> R) (edges : list num).
Hypothesis SORT : sorting x argsort.
Hypothesis ED : nondecreasing edges.
Hypothesis NE : edges <> [].
Lemma downward p : In p (cum_preds edges) -> forall a b, is_nan b = true \/ nle a b = true -> p b = true -> p a = true.
Proof.
  intros Hp a b Hab Pb. apply In_nth_error in Hp as (k & Hk).
  assert (Hlt : (k < length edges)%nat) by (rewrite <- (cum_preds_length edges NE); apply nth_error_Some; congruence).
  destruct (nth_error_ex edges k Hlt) as (e & He). destruct (cum_preds_nth edges k e ED He) as (q & Hq & Q). rewrite Hq in Hk. inversion Hk; subst q.
  rewrite Q in *. destruct Hab as [N|Hab].
  - destruct b; try discriminate N. destruct (S k =? length edges)%nat; destruct e; discriminate.
  - destruct (S k =? length edges)%nat; [eapply nle_trans; eauto|eapply nle_lt_trans; eauto].
Qed.
(** the sorted weights before an edge *)
Definition below (p : num -> bool) (b : list A) : list A := filter (fun e => p (x e)) (argsort b).
Lemma block_sums_eq b : block_sums argsort x w edges b = map (fun p => fold_left fadd (map Fin (map w (below p b))) (Fin 0)) (cum_preds edges).
Proof.
  unfold block_sums. cbv zeta.
  replace (search_sorted_inclusive (map x (argsort b)) edges) with (map (fun p => count p (map x (argsort b))) (cum_preds edges))
    by (unfold cum_preds, search_sorted_inclusive; rewrite map_app, map_map; reflexivity).
  rewrite map_map. apply map_ext_in. intros p Hp. rewrite count_map, cumsum_nth by (rewrite map_length; apply count_bound).
  rewrite firstn_map, firstn_filter; [rewrite map_map; reflexivity|]. intros i j a c Hij Hi Hj Pc.
  apply (downward p Hp (x a) (x c)); auto. destruct (SORT b) as [_ S]. eapply S; eauto.
Qed.
Definition part (p : num -> bool) (b : list A) : R := racc 0 (map w (below p b)).
Definition cum (p : num -> bool) (evs : list A) : R := racc 0 (map (part p) (blocks (length evs) evs)).
Variable evs : list A.
Hypothesis W0 : forall e, In e evs -> 0 <= w e /\ double (w e).
Hypothesis WT : rsum (map w evs) <= huge.
Definition K : nat := (Nat.min (length evs) BLOCK + length (blocks (length evs) evs))%nat.
Hypothesis HK : INR K * u <= / 4.
Lemma in_blocks b e : In b (blocks (length evs) evs) -> In e b -> In e evs.
Proof. intros Hb He. rewrite <- (blocks_concat (length evs) evs) by auto. apply in_concat. eauto. Qed.
Lemma below_in p b e : In b (blocks (length evs) evs) -> In e (below p b) -> In e evs.
Proof. intros Hb He. apply (in_blocks b e Hb). apply filter_In in He as [He _]. destruct (SORT b) as [P _]. eapply Permutation_in; [symmetry; exact P|auto]. Qed.
Lemma below_sum p b : rsum (map w (below p b)) = wsum w (fun e => p (x e)) b.
Proof. unfold below. change (rsum (map w (filter (fun e => p (x e)) (argsort b)))) with (wsum w (fun e => p (x e)) (argsort b)). apply wsum_perm. symmetry. apply SORT. Qed.
Lemma wsum_concat p l : wsum w p (concat l) = rsum (map (wsum w p) l).
Proof. induction l as [|b l IH]; [reflexivity|]. cbn [concat map]. rewrite wsum_app, IH. reflexivity. Qed.
Lemma wsum_le_all (p : A -> bool) l : (forall e, In e l -> 0 <= w e) -> wsum w p l <= rsum (map w l).
Proof.
  induction l as [|a l IH]; intros H; [unfold wsum; cbn; lra|]. rewrite wsum_cons. change (rsum (map w (a :: l))) with (w a + rsum (map w l)).
  pose proof (H a (or_introl eq_refl)). specialize (IH (fun e He => H e (or_intror He))). destruct (p a); lra.
Qed.
Lemma block_total b p : In b (blocks (length evs) evs) -> wsum w p b <= wsum w p evs.
Proof.
  intros Hb. replace (wsum w p evs) with (wsum w p (concat (blocks (length evs) evs))) by (rewrite blocks_concat; auto). rewrite wsum_concat. apply in_split in Hb as (l1 & l2 & E).
  assert (P : forall b, In b (blocks (length evs) evs) -> 0 <= wsum w p b). { intros c Hc. apply wsum_nonneg. intros e He. apply W0. eapply in_blocks; eauto. }
  rewrite E in *. rewrite map_app, rsum_app. cbn [map]. change (rsum (wsum w p b :: map (wsum w p) l2)) with (wsum w p b + rsum (map (wsum w p) l2)).
  assert (0 <= rsum (map (wsum w p) l1)) by (apply rsum_nonneg; intros y Hy; apply in_map_iff in Hy as (c & <- & Hc); apply P; apply in_or_app; auto).
  assert (0 <= rsum (map (wsum w p) l2)) by (apply rsum_nonneg; intros y Hy; apply in_map_iff in Hy as (c & <- & Hc); apply P; apply in_or_app; right; right; auto).
  lra.
Qed.
Lemma part_near p b : In b (blocks (length evs) evs) ->
  near (Nat.min (length evs) BLOCK) (wsum w (fun e => p (x e)) b) (part p b) /\ double (part p b) /\ fold_left fadd (map Fin (map w (below p b))) (Fin 0) = Fin (part p b).
Proof.
  intros Hb. assert (L : (length (map w (below p b)) <= Nat.min (length evs) BLOCK)%nat).
  { rewrite map_length. unfold below. pose proof (count_bound (fun e => p (x e)) (argsort b)) as C. unfold count in C. destruct (SORT b) as [P _]. apply Permutation_length in P.
    pose proof (blocks_length (length evs) evs b Hb). lia. }
  destruct (racc_sum (map w (below p b))) as (N & D & E).
  - apply Forall_forall. intros v Hv. apply in_map_iff in Hv as (e & <- & He). apply W0. eapply below_in; eauto.
  - eapply Rle_trans; [|exact HK]. apply Rmult_le_compat_r; [pose proof u_pos; lra|]. apply le_INR. unfold K. lia.
  - rewrite below_sum. eapply Rle_trans; [apply block_total; auto|]. eapply Rle_trans; [apply wsum_le_all; intros; apply W0; auto|exact WT].
  - rewrite below_sum in N. split; [eapply near_weaken; eauto|]. auto.
Qed.
Lemma cum_near p : near K (wsum w (fun e => p (x e)) evs) (cum p evs) /\ double (cum p evs) /\
  fold_left fadd (map (fun b => fold_left fadd (map Fin (map w (below p b))) (Fin 0)) (blocks (length evs) evs)) (Fin 0) = Fin (cum p evs).
Proof.
  set (m := Nat.min (length evs) BLOCK).
  assert (F : Forall2 (fun x v => 0 <= x /\ near m x v /\ double v) (map (wsum w (fun e => p (x e))) (blocks (length evs) evs)) (map (part p) (blocks (length evs) evs))).
  { assert (S : forall b, In b (blocks (length evs) evs) -> In b (blocks (length evs) evs)) by auto. revert S. generalize (blocks (length evs) evs) at 1 3 4.
    induction l as [|b l IH]; intros S; constructor; [|apply IH; intros; apply S; right; auto].
    destruct (part_near p b (S b (or_introl eq_refl))) as (N & D & _). split; auto. apply wsum_nonneg. intros e He. apply W0. eapply in_blocks; [|exact He]. apply S; left; auto. }
  assert (T : wsum w (fun e => p (x e)) evs = rsum (map (wsum w (fun e => p (x e))) (blocks (length evs) evs))).
  { rewrite <- wsum_concat, blocks_concat; auto. }
  destruct (racc_near m _ _ F m 0 0) as (N & D & E); auto; try lra.
  - apply near_weaken with 0%nat; [lia|apply near_refl].
  - apply double_0.
  - rewrite map_length. exact HK.
  - rewrite Rplus_0_l, <- T. eapply Rle_trans; [apply wsum_le_all; intros; apply W0; auto|exact WT].
  - rewrite Rplus_0_l, <- T, map_length in N. split; [exact N|]. split; [exact D|]. unfold cum. refine (eq_trans _ E). f_equal. rewrite map_map. apply map_ext_in. intros b Hb. apply part_near; auto.
Qed.
Lemma hist_double_eq : np_histogram_w_double argsort x w evs edges = Ok (diff_double (map (fun p => Fin (cum p evs)) (cum_preds edges))).
Proof.
  unfold np_histogram_w_double. rewrite decreases_nondec by auto. cbv zeta. f_equal. f_equal.
  replace (map (fun _ : num => Fin 0) edges) with (map (fun _ : num -> bool => Fin 0) (cum_preds edges)).
  2:{ pose proof (cum_preds_length edges NE) as L. revert L. generalize (cum_preds edges). generalize edges. clear. induction edges as [|a l IH]; intros [|q l0] H; cbn in *; try lia; auto. f_equal. apply IH. lia. }
  transitivity (fold_left (fun c b => zipwith fadd c (map (fun p => fold_left fadd (map Fin (map w (below p b))) (Fin 0)) (cum_preds edges))) (blocks (length evs) evs) (map (fun _ => Fin 0) (cum_preds edges))).
  - f_equal. apply FunctionalExtensionality.functional_extensionality. intro c. apply FunctionalExtensionality.functional_extensionality. intro b. rewrite block_sums_eq. reflexivity.
  - rewrite (fold_zip _ _ (fun b p => fold_left fadd (map Fin (map w (below p b))) (Fin 0))). apply map_ext. intros p. apply cum_near.
Qed.
Lemma below_firstn p b : In p (cum_preds edges) -> below p b = firstn (count (fun e => p (x e)) (argsort b)) (argsort b).
Proof.
  intros Hp. symmetry. apply firstn_filter. intros i j a c Hij Hi Hj Pc. apply (downward p Hp (x a) (x c)); auto. destruct (SORT b) as [_ S]. eapply S; eauto.
Qed.
Lemma cum_mono p q : In p (cum_preds edges) -> In q (cum_preds edges) -> (forall e, In e evs -> p (x e) = true -> q (x e) = true) -> cum p evs <= cum q evs.
Proof.
  intros Hp Hq H. unfold cum. apply racc_le; [|lra].
  assert (S : forall b, In b (blocks (length evs) evs) -> In b (blocks (length evs) evs)) by auto. revert S. generalize (blocks (length evs) evs) at 1 3 4.
  induction l as [|b l IH]; intros S; constructor; [|apply IH; intros; apply S; right; auto]. unfold part.
  assert (Hb := S b (or_introl eq_refl)).
  assert (Ha : forall e, In e (argsort b) -> In e evs) by (intros e He; apply (in_blocks b); auto; destruct (SORT b) as [P _]; eapply Permutation_in; [symmetry; exact P|auto]).
  rewrite !below_firstn by auto.
  set (i := count (fun e => p (x e)) (argsort b)). set (j := count (fun e => q (x e)) (argsort b)).
  assert (Hij : (i <= j)%nat) by (apply Numpy.count_le; intros e He; apply H; auto).
  rewrite <- (firstn_skipn i (firstn j (argsort b))), firstn_firstn, Nat.min_l, map_app, racc_app by auto. apply racc_ge.
  - apply Forall_forall. intros v Hv. apply in_map_iff in Hv as (e & <- & He). refine (proj1 (W0 _ _)). apply Ha.
    rewrite <- (firstn_skipn j (argsort b)). apply in_or_app. left. rewrite <- (firstn_skipn i (firstn j (argsort b))). apply in_or_app. auto.
  - destruct (part_near p b Hb) as (_ & D & _). unfold part in D. rewrite below_firstn in D by auto. apply double_fix. exact D.
Qed.
Lemma cum_ext p q : (forall e, In e evs -> p (x e) = q (x e)) -> cum p evs = cum q evs.
Proof.
  intros H. unfold cum. f_equal. apply map_ext_in. intros b Hb. unfold part, below. f_equal. f_equal. apply filter_ext_in. intros e He. apply H.
  apply (in_blocks b); auto. destruct (SORT b) as [P _]; eapply Permutation_in; [symmetry; exact P|auto].
Qed.
Lemma diff_nth {B} (f : B -> num) l k a b : nth_error l k = Some a -> nth_error l (S k) = Some b -> nth_error (diff_double (map f l)) k = Some (fsub (f b) (f a)).
Proof.
  unfold diff_double. revert k. induction l as [|a0 l IH]; intros k Ha Hb; [destruct k; discriminate|]. destruct l as [|b0 l]; [destruct k; [discriminate|destruct k; discriminate]|].
  destruct k as [|k]; [cbn in *; congruence|]. cbn [nth_error] in *. specialize (IH k Ha Hb). cbn [map but_last tl zipwith nth_error] in *. exact IH.
Qed.
Lemma entry k lo hi : nth_error edges k = Some lo -> nth_error edges (S k) = Some hi ->
  let inb e := hist_binb lo hi (Nat.eqb (S (S k)) (length edges)) (x e) in
  let upto e := (if Nat.eqb (S (S k)) (length edges) then nle (x e) hi else nlt (x e) hi) in
  exists v, nth_error (diff_double (map (fun p => Fin (cum p evs)) (cum_preds edges))) k = Some (Fin v) /\ 0 <= v /\
    ((forall e, In e evs -> inb e = false) -> v = 0) /\
    Rabs (v - wsum w inb evs) <= 4 * u * (INR K + 1) * wsum w upto evs.
Proof.
  intros Hlo Hhi inb upto. destruct (cum_preds_nth edges k lo ED Hlo) as (p & Hp & P). destruct (cum_preds_nth edges (S k) hi ED Hhi) as (q & Hq & Q).
  pose proof (cum_step edges k lo hi p q ED Hlo Hhi P Q) as STEP. pose proof (nth_error_In _ _ Hp) as Ip. pose proof (nth_error_In _ _ Hq) as Iq.
  destruct (cum_near p) as (Np & Dp & _). destruct (cum_near q) as (Nq & Dq & _).
  assert (M : cum p evs <= cum q evs). { apply cum_mono; auto. intros e _ Pe. specialize (STEP (x e)). rewrite Pe in STEP. destruct (q (x e)); [auto|destruct (hist_binb _ _ _ _); lia]. }
  assert (Sp0 : 0 <= wsum w (fun e => p (x e)) evs) by (apply wsum_nonneg; intros; apply W0; auto).
  assert (Cp0 : 0 <= cum p evs) by (eapply near_nonneg; [|exact Np]; auto).
  assert (SPL : wsum w (fun e => q (x e)) evs = wsum w (fun e => p (x e)) evs + wsum w inb evs).
  { apply wsum_split. intros e He. specialize (STEP (x e)). fold (inb e) in STEP. destruct (q (x e)), (p (x e)), (inb e); cbn; auto; lia. }
  assert (B0 : 0 <= wsum w inb evs) by (apply wsum_nonneg; intros; apply W0; auto).
  assert (UP : wsum w upto evs = wsum w (fun e => q (x e)) evs) by (apply wsum_ext; intros e He; rewrite Q; reflexivity).
  rewrite UP. set (Sp := wsum w (fun e => p (x e)) evs) in *. set (Sq := wsum w (fun e => q (x e)) evs) in *.
  assert (C2 : cum q evs <= 2 * Sq) by (apply (near_twice K); auto; lra).
  assert (Fq : cum q evs <= fmax) by (destruct (double_fix _ Dq) as [_ F]; apply Rabs_le_inv in F; lra).
  exists (round64 (cum q evs - cum p evs)). split; [|split; [|split]].
  - rewrite (diff_nth (fun p => Fin (cum p evs)) _ k p q Hp Hq). f_equal. change (fsub (Fin (cum q evs)) (Fin (cum p evs))) with (fl (cum q evs - cum p evs)). apply fl_fin. rewrite Rabs_pos_eq; lra.
  - rewrite <- round64_0. apply round64_mono. lra.
  - intros Z. rewrite (cum_ext q p); [rewrite Rminus_diag_eq by auto; apply round64_0|]. intros e He. specialize (STEP (x e)). fold (inb e) in STEP. rewrite (Z e He) in STEP. destruct (q (x e)), (p (x e)); auto; lia.
  - pose proof (near_bound _ _ _ HK Np) as Bp. pose proof (near_bound _ _ _ HK Nq) as Bq. rewrite (Rabs_pos_eq Sp) in Bp by auto. rewrite (Rabs_pos_eq Sq) in Bq by lra.
    assert (Bd : Rabs (round64 (cum q evs - cum p evs) - (cum q evs - cum p evs)) <= 2 * (1 * u) * (2 * Sq)).
    { eapply Rle_trans; [apply near_bound; [|apply minus_near; auto]|]; [change (INR 1) with 1; pose proof u_small; lra|]. change (INR 1) with 1. apply Rmult_le_compat_l; [pose proof u_pos; lra|]. rewrite Rabs_pos_eq; lra. }
    assert (2 * (INR K * u) * Sp <= 2 * (INR K * u) * Sq) by (apply Rmult_le_compat_l; [|lra]; pose proof u_pos; pose proof (pos_INR K); nra).
    apply Rabs_le_inv in Bp, Bq, Bd. replace (4 * u * (INR K + 1) * Sq) with (4 * (INR K * u) * Sq + 4 * u * Sq) by ring. apply Rabs_le. split; nra.
Qed.
End H.
