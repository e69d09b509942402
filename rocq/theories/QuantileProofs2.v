(** * Proofs about the quantile interpolation *)
From Coq Require Import Reals List Bool ZArith Arith Lia Lra.
From Verif Require Import Num Numpy Sort Table Binning SpecBinning BinningProofs Lists CutsProofs CutsProofs2 Utils SpecSimulations SpecIRF IRFProofs IRFProofs2 Morph SpecInterp MorphProofs MorphProofs2 Geometry GeometryProofs GeometryProofs2 GeometryProofs3 Quantile.
Import ListNotations.
Open Scope R_scope.

Lemma nthE (l : list R) k x : nth_error l k = Some x -> nth k l 0 = x.
Proof. apply nth_error_nth. Qed.
Lemma nth_in (l : list R) k : (k < length l)%nat -> nth_error l k = Some (nth k l 0).
Proof. intros. apply nth_error_nth'; auto. Qed.
Lemma inc_nth_lt l i j : increasing l -> (i < j)%nat -> (j < length l)%nat -> nth i l 0 < nth j l 0.
Proof. intros. apply (increasing_le l i j); auto; apply nth_in; lia. Qed.
Lemma inc_nth_le l i j : increasing l -> (i <= j)%nat -> (j < length l)%nat -> nth i l 0 <= nth j l 0.
Proof. intros H Hij Hj. destruct (Nat.eq_dec i j) as [->|]; [lra|]. left. apply inc_nth_lt; auto; lia. Qed.

(** *** piecewise linear interpolation *)
Lemma count_lt_inc x t : increasing x -> (forall k, (k < count (fun a => Rltb a t) x)%nat -> nth k x 0 < t) /\
  (forall k, (count (fun a => Rltb a t) x <= k)%nat -> (k < length x)%nat -> t <= nth k x 0).
Proof.
  induction x as [|a x IH]; intros Hi; [split; intros k Hk; cbn in *; lia|].
  assert (Hi' : increasing x) by (intros k b c Hb Hc; apply (Hi (S k)); auto). destruct (IH Hi') as (I1 & I2). rewrite count_cons.
  destruct (Rltb a t) eqn:E; rcmp.
  - split; intros [|k] Hk; cbn [nth length]; intros; try lia; [auto|apply I1; lia|apply I2; lia].
  - assert (Z : count (fun a => Rltb a t) x = 0%nat).
    { destruct (count (fun a => Rltb a t) x) as [|c] eqn:Ec; auto. exfalso. specialize (I1 0%nat ltac:(lia)).
      destruct x as [|b x]; [cbn in Ec; lia|]. pose proof (Hi 0%nat a b eq_refl eq_refl). cbn in I1. lra. }
    rewrite Z in *. split; intros [|k] Hk; cbn [nth length]; intros; try lia; [lra|apply I2; lia].
Qed.
Lemma count_le_len {A} (p : A -> bool) l : (count p l <= length l)%nat.
Proof. induction l as [|a l IH]; [auto|]. rewrite count_cons. cbn [length]. destruct (p a); lia. Qed.
Section Interp.
Variables (x y : list R).
Hypothesis Hx : increasing x.
Hypothesis Hl : length y = length x.
Hypothesis H2 : (2 <= length x)%nat.
Let n := (length x - 1)%nat.
Let hi (t : R) := Nat.min (Nat.max (count (fun a => Rltb a t) x) 1) n.
Lemma hi_bounds t : (1 <= hi t <= n)%nat.
Proof. unfold hi, n. lia. Qed.
Lemma hi_range t : nth 0 x 0 <= t <= nth n x 0 -> nth (hi t - 1) x 0 <= t <= nth (hi t) x 0 /\ ((hi t = 1)%nat \/ nth (hi t - 1) x 0 < t).
Proof.
  intros Ht. destruct (count_lt_inc x t Hx) as (C1 & C2). assert (Cl : (count (fun a => Rltb a t) x <= length x)%nat) by apply count_le_len.
  unfold hi. set (c := count (fun a => Rltb a t) x) in *.
  destruct (Nat.eq_dec c 0) as [E|E].
  { replace (Nat.min (Nat.max c 1) n) with 1%nat by (unfold n; lia). split; [|auto]. split; [cbn; lra|]. apply C2; lia. }
  destruct (Nat.le_gt_cases c n) as [L|L].
  - replace (Nat.min (Nat.max c 1) n) with c by lia. pose proof (C1 (c - 1)%nat ltac:(lia)). split; [|auto]. split; [lra|]. apply C2; [lia|unfold n in L; lia].
  - replace (Nat.min (Nat.max c 1) n) with n by lia. pose proof (C1 (n - 1)%nat ltac:(lia)). split; [|auto]. split; lra.
Qed.
Lemma interp_eq t : interp_seg x y t = (nth (hi t) y 0 - nth (hi t - 1) y 0) / (nth (hi t) x 0 - nth (hi t - 1) x 0) * (t - nth (hi t - 1) x 0) + nth (hi t - 1) y 0.
Proof. reflexivity. Qed.
Lemma interp_convex t : nth 0 x 0 <= t <= nth n x 0 -> exists w, 0 <= w <= 1 /\ interp_seg x y t = (1 - w) * nth (hi t - 1) y 0 + w * nth (hi t) y 0 /\
  (nth (hi t - 1) x 0 < t -> 0 < w).
Proof.
  intros Ht. destruct (hi_range t Ht) as ((R1 & R2) & _). pose proof (hi_bounds t).
  assert (L : nth (hi t - 1) x 0 < nth (hi t) x 0) by (apply inc_nth_lt; auto; unfold n in *; lia).
  set (a := nth (hi t - 1) x 0) in *. set (b := nth (hi t) x 0) in *.
  exists ((t - a) / (b - a)). split; [|split].
  - split; [apply Rmult_le_pos; [lra|left; apply Rinv_0_lt_compat; lra]|]. apply (Rmult_le_reg_r (b - a)); [lra|]. unfold Rdiv. rewrite Rmult_assoc, Rinv_l by lra. lra.
  - rewrite interp_eq. fold a b. field. lra.
  - intros. apply Rdiv_lt_0_compat; lra.
Qed.
Lemma interp_nonneg t : (forall v, In v y -> 0 <= v) -> nth 0 x 0 <= t <= nth n x 0 -> 0 <= interp_seg x y t.
Proof.
  intros Hy Ht. destruct (interp_convex t Ht) as (w & Hw & -> & _). pose proof (hi_bounds t).
  assert (0 <= nth (hi t) y 0) by (apply Hy, nth_In; unfold n in *; lia).
  assert (0 <= nth (hi t - 1) y 0) by (apply Hy, nth_In; unfold n in *; lia).
  apply Rplus_le_le_0_compat; apply Rmult_le_pos; lra.
Qed.
Lemma hi_mono t t' : t <= t' -> (hi t <= hi t')%nat.
Proof.
  intros H. assert (count (fun a => Rltb a t) x <= count (fun a => Rltb a t') x)%nat; [|unfold hi; lia].
  clear -H. induction x as [|a l IH]; [auto|]. rewrite !count_cons. destruct (Rltb a t) eqn:E; destruct (Rltb a t') eqn:E'; rcmp; try lia; lra.
Qed.
Lemma interp_mono t t' : increasing y -> nth 0 x 0 <= t -> t < t' -> t' <= nth n x 0 -> interp_seg x y t < interp_seg x y t'.
Proof.
  intros Hy H0 Hlt H1. pose proof (hi_bounds t). pose proof (hi_bounds t'). pose proof (hi_mono t t' (Rlt_le _ _ Hlt)) as Hm.
  destruct (Nat.eq_dec (hi t) (hi t')) as [E|E].
  - rewrite !interp_eq. rewrite <- E. assert (L : nth (hi t - 1) x 0 < nth (hi t) x 0) by (apply inc_nth_lt; auto; unfold n in *; lia).
    assert (L' : nth (hi t - 1) y 0 < nth (hi t) y 0) by (apply inc_nth_lt; auto; unfold n in *; lia).
    apply Rplus_lt_compat_r, Rmult_lt_compat_l; [apply Rdiv_lt_0_compat; lra|lra].
  - destruct (interp_convex t ltac:(lra)) as (w & Hw & -> & _). destruct (interp_convex t' ltac:(lra)) as (w' & Hw' & -> & Hp).
    destruct (hi_range t' ltac:(lra)) as (_ & [F|F]); [lia|]. specialize (Hp F).
    assert (nth (hi t - 1) y 0 < nth (hi t) y 0) by (apply inc_nth_lt; auto; unfold n in *; lia).
    assert (nth (hi t) y 0 <= nth (hi t' - 1) y 0) by (apply inc_nth_le; auto; [lia|unfold n in *; lia]).
    assert (nth (hi t' - 1) y 0 < nth (hi t') y 0) by (apply inc_nth_lt; auto; unfold n in *; lia).
    assert ((1 - w) * nth (hi t - 1) y 0 + w * nth (hi t) y 0 <= nth (hi t) y 0) by nra.
    assert (nth (hi t' - 1) y 0 < (1 - w') * nth (hi t' - 1) y 0 + w' * nth (hi t') y 0) by nra. lra.
Qed.
End Interp.

(** *** cumulative distributions *)
Lemma cumsum_spec l : forall s, (forall v, In v l -> 0 <= v) -> length (cumsum_from s l) = length l /\
  (forall v, In v (cumsum_from s l) -> s <= v <= s + rsum l) /\
  (forall i a b, nth_error (cumsum_from s l) i = Some a -> nth_error (cumsum_from s l) (S i) = Some b -> a <= b) /\
  (l <> [] -> nth (length l - 1) (cumsum_from s l) 0 = s + rsum l).
Proof.
  induction l as [|a l IH]; intros s Hn; cbn [cumsum_from].
  - rewrite rsum_nil. repeat split; try (intros; destruct i; discriminate); try (cbn in *; tauto); congruence.
  - assert (0 <= a) by (apply Hn; left; auto). destruct (IH (s + a)) as (I1 & I2 & I3 & I4). { intros; apply Hn; right; auto. }
    assert (0 <= rsum l) by (apply rsum_nonneg; intros; apply Hn; right; auto). rewrite rsum_cons.
    split; [cbn; lia|]. split; [|split].
    + intros v [<-|Hv]; [lra|]. apply I2 in Hv. lra.
    + intros [|i] u v Hu Hv; [|exact (I3 i u v Hu Hv)]. assert (u = s + a) by (cbn in Hu; congruence). change (nth_error (cumsum_from (s + a) l) 0 = Some v) in Hv. apply nth_error_In in Hv. apply I2 in Hv. lra.
    + intros _. destruct l as [|b l]; [cbn; rewrite rsum_nil; ring|]. cbn [length]. replace (S (S (length l)) - 1)%nat with (S (length l)) by lia. cbn [nth].
      replace (length l) with (length (b :: l) - 1)%nat by (cbn; lia). rewrite I4 by discriminate. ring.
Qed.
Lemma fold_max_ge l : forall a x, x = a \/ In x l -> x <= fold_left Rmax l a.
Proof.
  induction l as [|b l IH]; intros a x Hx; cbn [fold_left].
  - destruct Hx as [->|[]]. lra.
  - destruct Hx as [->|[->|Hx]]; [| |apply IH; auto].
    + apply Rle_trans with (Rmax a b); [apply Rmax_l|apply IH; auto].
    + apply Rle_trans with (Rmax a x); [apply Rmax_r|apply IH; auto].
Qed.
Lemma fold_max_in l : forall a, fold_left Rmax l a = a \/ In (fold_left Rmax l a) l.
Proof.
  induction l as [|b l IH]; intros a; cbn [fold_left]; auto. destruct (IH (Rmax a b)) as [E|E]; [|right; right; auto].
  rewrite E. unfold Rmax. destruct (Rle_dec a b); auto. right; left; auto.
Qed.
Lemma list_max_spec l : l <> [] -> In (list_max l) l /\ forall x, In x l -> x <= list_max l.
Proof.
  destruct l as [|a l]; [congruence|]. intros _. unfold list_max. split.
  - destruct (fold_max_in l a) as [->|H]; [left|right]; auto.
  - intros x [->|Hx]; apply fold_max_ge; auto.
Qed.

Lemma extended_inc edges : increasing edges -> (2 <= length edges)%nat -> increasing (extended_edges edges).
Proof.
  intros Hi Hl. destruct edges as [|a [|b l]]; cbn in Hl; try lia. unfold extended_edges. intros [|k] u v Hu Hv.
  - cbn in Hu, Hv. injection Hu as <-. injection Hv as <-. pose proof (Hi 0%nat a b eq_refl eq_refl). cbn. lra.
  - cbn [nth_error] in Hu, Hv. eauto.
Qed.
Lemma mids_inc edges : increasing edges -> increasing (mids edges).
Proof.
  intros Hi k u v Hu Hv. apply mids_inv in Hu, Hv. destruct Hu as (a & b & Ha & Hb & ->). destruct Hv as (c & d & Hc & Hd & ->).
  assert (c = b) by congruence. subst c. pose proof (Hi _ _ _ Ha Hb). pose proof (Hi _ _ _ Hb Hd). lra.
Qed.

(** *** the points of the cdf that are kept *)
Lemma increasing_cons a l : increasing l -> (forall x, In x l -> a < x) -> increasing (a :: l).
Proof.
  intros Hi Ha [|k] u v Hu Hv.
  - assert (u = a) by (cbn in Hu; congruence). subst u. apply Ha. exact (nth_error_In l 0 Hv).
  - exact (Hi k u v Hu Hv).
Qed.
Lemma inc_filter_seq (f : nat -> R) (p : nat -> bool) n : forall s,
  (forall j k, (s <= j < k)%nat -> (k < s + n)%nat -> p j = true -> p k = true -> f j < f k) -> increasing (map f (filter p (seq s n))).
Proof.
  induction n as [|n IH]; intros s H; cbn [seq filter map]. { intros [|] ? ? Hu; discriminate. }
  assert (I : increasing (map f (filter p (seq (S s) n)))) by (apply IH; intros; apply H; auto; lia).
  destruct (p s) eqn:E; [|exact I]. cbn [map]. apply increasing_cons; [exact I|].
  intros x Hx. apply in_map_iff in Hx. destruct Hx as (k & <- & Hk). apply filter_In in Hk. destruct Hk as (Hk & Hp).
  apply in_seq in Hk. apply H; auto; lia.
Qed.
Lemma last_index_spec p l : forall k found, let r := last_index p k l found in
  (r = found \/ ((k <= r < k + length l)%nat /\ p (nth (r - k) l 0) = true)) /\
  (forall j, (k <= j < k + length l)%nat -> p (nth (j - k) l 0) = true -> (j <= r)%nat \/ (r = found /\ (j <= found)%nat)) /\
  ((exists j, (j < length l)%nat /\ p (nth j l 0) = true) -> (k <= r < k + length l)%nat /\ p (nth (r - k) l 0) = true /\ forall j, (k <= j < k + length l)%nat -> p (nth (j - k) l 0) = true -> (j <= r)%nat).
Proof.
  induction l as [|a l IH]; intros k found; cbn [last_index].
  - split; [auto|]. split; [intros j Hj; cbn in Hj; lia|]. intros (j & Hj & _). cbn in Hj. lia.
  - destruct (IH (S k) (if p a then k else found)) as (I1 & I2 & I3). cbn zeta in *. set (r := last_index p (S k) l (if p a then k else found)) in *.
    assert (N : forall j, (S k <= j)%nat -> nth (j - k) (a :: l) 0 = nth (j - S k) l 0).
    { intros j Hj. replace (j - k)%nat with (S (j - S k)) by lia. reflexivity. }
    assert (Z : p (nth (k - k) (a :: l) 0) = p a) by (rewrite Nat.sub_diag; auto).
    assert (I1' : r = found \/ ((k <= r < k + length (a :: l))%nat /\ p (nth (r - k) (a :: l) 0) = true)).
    { cbn [length]. destruct I1 as [I1|(I1 & I1')].
      - destruct (p a) eqn:E; [right|auto]. rewrite I1. split; [lia|congruence].
      - right. rewrite N by lia. split; [lia|auto]. }
    split; [exact I1'|]. split.
    + intros j Hj Hp. destruct (Nat.eq_dec j k) as [->|].
      * rewrite Z in Hp. rewrite Hp in I1. destruct I1 as [I1|(I1 & _)]; left; lia.
      * rewrite N in Hp by lia. cbn [length] in Hj. destruct (I2 j ltac:(lia) Hp) as [|(E1 & E2)]; [auto|]. destruct (p a); [left; lia|right; auto].
    + intros (j & Hj & Hp). cbn [length] in *.
      assert (D : (exists j, (j < length l)%nat /\ p (nth j l 0) = true) \/ ~ (exists j, (j < length l)%nat /\ p (nth j l 0) = true)).
      { clear. induction l as [|b l IH]; [right; intros (j & Hj & _); cbn in Hj; lia|]. destruct (p b) eqn:E; [left; exists 0%nat; cbn; split; [lia|auto]|].
        destruct IH as [(j & Hj & Hp)|IH]; [left; exists (S j); cbn; split; [lia|auto]|right; intros ([|j] & Hj & Hp); cbn in *; [congruence|apply IH; exists j; split; [lia|auto]]]. }
      destruct D as [D|D].
      * destruct (I3 D) as (K1 & K2 & K3). split; [lia|]. rewrite N by lia. split; [auto|].
        intros i Hi Hpi. destruct (Nat.eq_dec i k) as [->|]; [lia|]. rewrite N in Hpi by lia. apply K3; [lia|auto].
      * destruct j as [|j]; [|exfalso; apply D; exists j; split; [lia|exact Hp]]. cbn [nth] in Hp. rewrite Hp in I1. destruct I1 as [I1|(I1 & I4)]; [|exfalso; apply D; exists (r - S k)%nat; split; [lia|auto]].
        rewrite I1. split; [lia|]. rewrite Z. split; [auto|]. intros i Hi Hpi. destruct (Nat.eq_dec i k) as [->|]; [lia|]. rewrite N in Hpi by lia.
        exfalso; apply D; exists (i - S k)%nat; split; [lia|auto].
Qed.
Lemma first_index_spec p l : forall k, match first_index p k l with
  | Some r => (k <= r < k + length l)%nat /\ p (nth (r - k) l 0) = true /\ forall j, (k <= j < r)%nat -> p (nth (j - k) l 0) = false
  | None => forall x, In x l -> p x = false end.
Proof.
  induction l as [|a l IH]; intros k; cbn [first_index]; [cbn; tauto|].
  destruct (p a) eqn:E. { cbn [length]. rewrite Nat.sub_diag. cbn. repeat split; auto; intros; lia. }
  specialize (IH (S k)). destruct (first_index p (S k) l) as [r|].
  - destruct IH as (I1 & I2 & I3). cbn [length].
    assert (N : forall j, (S k <= j)%nat -> nth (j - k) (a :: l) 0 = nth (j - S k) l 0).
    { intros j Hj. replace (j - k)%nat with (S (j - S k)) by lia. reflexivity. }
    split; [lia|]. rewrite N by lia. split; [auto|]. intros j Hj. destruct (Nat.eq_dec j k) as [->|]; [rewrite Nat.sub_diag; auto|]. rewrite N by lia. apply I3; lia.
  - intros x [<-|Hx]; auto.
Qed.
Lemma Reqb_refl x : Reqb x x = true.
Proof. destruct (Reqb x x) eqn:E; auto. rcmp. congruence. Qed.

Section Cdf.
Variables (cdf y : list R).
Hypothesis Hm : forall i a b, nth_error cdf i = Some a -> nth_error cdf (S i) = Some b -> a <= b.
Hypothesis H0 : nth 0 cdf 0 = 0.
Hypothesis Hn : (length cdf = length y)%nat.
Hypothesis H1 : nth (length cdf - 1) cdf 0 = 1.
Hypothesis Hy : increasing y.
Lemma cdf_mono i j : (i <= j)%nat -> (j < length cdf)%nat -> nth i cdf 0 <= nth j cdf 0.
Proof.
  induction j as [|j IH]; intros Hij Hj. { replace i with 0%nat by lia. lra. }
  destruct (Nat.eq_dec i (S j)) as [->|]; [lra|]. apply Rle_trans with (nth j cdf 0); [apply IH; lia|].
  apply (Hm j); apply nth_in; lia.
Qed.
Lemma cropped_ok q : (forall t, In t q -> 0 <= t <= 1) -> increasing q -> exists p, cropped_interp y cdf q = Ok p /\ length p = length q /\ increasing p.
Proof.
  intros Hq Hi. assert (Hl : (0 < length cdf)%nat) by (destruct cdf; [cbn in H1; lra|cbn; lia]).
  unfold cropped_interp. rewrite H0, Reqb_refl.
  destruct (last_index_spec (fun x => Reqb x 0) cdf 0 0) as (_ & _ & L). cbn zeta in L.
  destruct L as (L1 & L2 & L3). { exists 0%nat. split; [lia|]. rewrite H0. apply Reqb_refl. }
  set (last_0 := last_index _ 0 cdf 0) in *. rewrite Nat.sub_0_r in L2. rcmp.
  pose proof (first_index_spec (fun x => Reqb x 1) cdf 0) as F. destruct (first_index (fun x => Reqb x 1) 0 cdf) as [first_1|] eqn:E.
  2:{ exfalso. assert (In 1 cdf) by (rewrite <- H1; apply nth_In; lia). apply F in H. rewrite Reqb_refl in H. discriminate. }
  destruct F as (F1 & F2 & F3). rewrite Nat.sub_0_r in F2. rcmp.
  assert (Lt : (last_0 < first_1)%nat). { destruct (Nat.lt_ge_cases last_0 first_1) as [|G]; auto. pose proof (cdf_mono first_1 last_0 G ltac:(lia)). lra. }
  assert (Pos : forall k, (last_0 < k < length cdf)%nat -> 0 < nth k cdf 0).
  { intros k Hk. pose proof (cdf_mono last_0 k ltac:(lia) ltac:(lia)). destruct (Req_dec (nth k cdf 0) 0) as [Z|Z]; [|lra].
    specialize (L3 k ltac:(lia)). rewrite Nat.sub_0_r, Z, Reqb_refl in L3. specialize (L3 eq_refl). lia. }
  assert (Less : forall k, (k < first_1)%nat -> nth k cdf 0 < 1).
  { intros k Hk. pose proof (cdf_mono k first_1 ltac:(lia) ltac:(lia)). specialize (F3 k ltac:(lia)). rewrite Nat.sub_0_r in F3. rcmp. lra. }
  set (keep := filter (selected cdf last_0 first_1) (seq 0 (length cdf))).
  set (x := map (fun k => nth k cdf 0) keep). set (yy := map (fun k => nth k y 0) keep).
  assert (Sx : increasing x).
  { apply inc_filter_seq. intros j k Hjk Hk Pj Pk. unfold selected in Pj, Pk.
    apply orb_true_iff in Pj. apply orb_true_iff in Pk. rewrite andb_true_iff, orb_true_iff, andb_true_iff, !Nat.eqb_eq, !Nat.leb_le in Pj, Pk.
    destruct Pk as [->|(K1 & K2)]; [rewrite F2; apply Less; lia|].
    destruct K2 as [->|(K2 & K3)]; [exfalso; destruct Pj as [->|(J1 & [->|(J2 & _)])]; lia|].
    destruct k as [|k]; [lia|]. cbn [changed] in K3. apply negb_true_iff in K3. rcmp.
    pose proof (cdf_mono j k ltac:(lia) ltac:(lia)). pose proof (cdf_mono k (S k) ltac:(lia) ltac:(lia)). lra. }
  assert (Sy : increasing yy). { apply inc_filter_seq. intros j k Hjk Hk _ _. apply inc_nth_lt; auto; lia. }
  assert (I0 : In 0 x). { unfold x. apply in_map_iff. exists last_0. split; [auto|]. apply filter_In. split; [apply in_seq; lia|]. unfold selected. rewrite Nat.eqb_refl. apply orb_true_iff. right. apply andb_true_iff. split; [apply Nat.leb_le; lia|auto]. }
  assert (I1 : In 1 x). { unfold x. apply in_map_iff. exists first_1. split; [auto|]. apply filter_In. split; [apply in_seq; lia|]. unfold selected. rewrite Nat.eqb_refl. auto. }
  assert (Rng : forall v, In v x -> 0 <= v <= 1).
  { intros v Hv. unfold x in Hv. apply in_map_iff in Hv. destruct Hv as (k & <- & Hk). apply filter_In in Hk. destruct Hk as (Hk & _). apply in_seq in Hk.
    pose proof (cdf_mono 0 k ltac:(lia) ltac:(lia)). pose proof (cdf_mono k (length cdf - 1) ltac:(lia) ltac:(lia)). lra. }
  assert (Ll : (2 <= length x)%nat). { destruct x as [|u [|v x']]; cbn; try lia; [destruct I0|]. cbn in I0, I1. destruct I0 as [I0|[]]. destruct I1 as [I1|[]]. lra. }
  assert (X0 : nth 0 x 0 = 0). { apply In_nth with (d := 0) in I0. destruct I0 as (k & Hk & Ek). pose proof (inc_nth_le x 0 k Sx ltac:(lia) Hk). pose proof (Rng (nth 0 x 0) ltac:(apply nth_In; lia)). lra. }
  assert (X1 : nth (length x - 1) x 0 = 1). { apply In_nth with (d := 0) in I1. destruct I1 as (k & Hk & Ek). pose proof (inc_nth_le x k (length x - 1) Sx ltac:(lia) ltac:(lia)). pose proof (Rng (nth (length x - 1) x 0) ltac:(apply nth_In; lia)). lra. }
  assert (Lxy : length yy = length x) by (unfold x, yy; rewrite !map_length; auto).
  eexists. split; [reflexivity|]. split; [apply map_length|].
  intros k u v Hu Hv. apply map_nth_inv in Hu, Hv. destruct Hu as (a & Ha & ->). destruct Hv as (b & Hb & ->).
  pose proof (Hi _ _ _ Ha Hb). pose proof (Hq _ (nth_error_In _ _ Ha)). pose proof (Hq _ (nth_error_In _ _ Hb)).
  apply interp_mono; auto; rewrite ?X0, ?X1; lra.
Qed.
End Cdf.
