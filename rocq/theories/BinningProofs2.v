(** * BinningProofs2: add_overflow_bins, join/split, bins per decade, resampling *)
From Coq Require Import String Reals List Bool ZArith Lia Lra Permutation.
From Verif Require Import Num Numpy Sort Table Binning SpecBinning BinningProofs HistProofs.
Import ListNotations.
Open Scope R_scope.

(** ** C08 *)
Lemma nondecreasing_cons e l : is_nan e = false -> nondecreasing l ->
  (forall b, nth_error l 0 = Some b -> nle e b = true) -> nondecreasing (e :: l).
Proof.
  intros He [H1 H2] Hb. split.
  - intros x [<-|Hx]; auto.
  - intros [|i] a b Ha Hb'; simpl in *; [inversion Ha; subst; auto|eapply H2; eauto].
Qed.
Lemma nondecreasing_snoc e l : is_nan e = false -> nondecreasing l ->
  (forall b, nth_error l (length l - 1) = Some b -> nle b e = true) -> nondecreasing (l ++ [e]).
Proof.
  intros He [H1 H2] Hb. split.
  - intros x Hx. apply in_app_or in Hx as [Hx|[<-|[]]]; auto.
  - intros i a b Ha Hb'.
    assert (Hi : (S i < length (l ++ [e]))%nat) by (apply nth_error_Some; congruence).
    rewrite app_length in Hi; simpl in Hi. rewrite nth_error_app1 in Ha by lia.
    destruct (Nat.eq_dec (S i) (length l)) as [E|E].
    + rewrite nth_error_app2 in Hb' by lia. replace (S i - length l)%nat with 0%nat in Hb' by lia.
      simpl in Hb'. inversion Hb'; subst. apply Hb. replace (length l - 1)%nat with i by lia. auto.
    + rewrite nth_error_app1 in Hb' by lia. eapply H2; eauto.
Qed.
Lemma last_snoc {A} (l : list A) a d : last (l ++ [a]) d = a.
Proof. apply last_of_nth. rewrite app_length; simpl. rewrite nth_error_app2 by lia.
  replace (_ - _)%nat with 0%nat by lia; auto. Qed.

Definition lower_edge (positive : bool) : num := if positive then Fin 0 else NInf.
Lemma nlt_PInf x : is_nan x = false -> nlt x PInf = false -> x = PInf.
Proof. destruct x; simpl; congruence. Qed.

Lemma add_overflow_spec bins positive : bins <> [] -> (forall e, In e bins -> is_nan e = false) ->
  exists out pre post, add_overflow_bins bins positive = Ok out /\ out = pre ++ bins ++ post /\
    (pre = [] \/ pre = [lower_edge positive]) /\ (post = [] \/ post = [PInf]) /\
    (exists e, first_edge out e /\ nle e (lower_edge positive) = true) /\
    last_edge out PInf /\
    (nondecreasing bins -> nondecreasing out) /\
    add_overflow_bins out positive = Ok out.
Proof.
  intros Hne Hn. unfold add_overflow_bins. destruct bins as [|b0 bs]; [congruence|].
  fold (lower_edge positive).
  assert (Hb0 : is_nan b0 = false) by (apply Hn; left; auto).
  assert (Hlo : is_nan (lower_edge positive) = false) by (destruct positive; auto).
  set (bins := b0 :: bs) in *.
  set (pre := if ngt b0 (lower_edge positive) then [lower_edge positive] else []).
  set (bins1 := if ngt b0 (lower_edge positive) then lower_edge positive :: bins else bins).
  assert (E1 : bins1 = pre ++ bins) by (unfold bins1, pre; destruct (ngt _ _); auto).
  assert (Hn1 : forall e, In e bins1 -> is_nan e = false).
  { rewrite E1. intros e He. apply in_app_or in He as [He|He]; auto. unfold pre in He.
    destruct (ngt _ _); [destruct He as [<-|[]]; auto|destruct He]. }
  assert (Hne1 : bins1 <> []) by (rewrite E1; unfold bins; destruct pre; discriminate).
  set (post := if nlt (last bins1 NaN) PInf then [PInf] else []).
  set (bins2 := if nlt (last bins1 NaN) PInf then bins1 ++ [PInf] else bins1).
  assert (E2 : bins2 = bins1 ++ post) by (unfold bins2, post; destruct (nlt _ _); rewrite ?app_nil_r; auto).
  assert (Hlast1 : In (last bins1 NaN) bins1) by (eapply nth_error_In; apply last_nth_error; auto).
  assert (Hl2 : last bins2 NaN = PInf).
  { unfold bins2. destruct (nlt (last bins1 NaN) PInf) eqn:E; [apply last_snoc|].
    apply nlt_PInf; auto. }
  assert (Hne2 : bins2 <> []) by (rewrite E2; destruct bins1; [congruence|discriminate]).
  assert (Hf : exists e, nth_error bins2 0 = Some e /\ nle e (lower_edge positive) = true).
  { rewrite E2, E1. unfold pre. destruct (ngt b0 (lower_edge positive)) eqn:E.
    - exists (lower_edge positive). split; auto. apply nle_refl; auto.
    - exists b0. split; auto. apply not_nlt_le; auto. }
  exists bins2, pre, post. split; [reflexivity|]. split; [rewrite E2, E1, app_assoc; auto|].
  split; [unfold pre; destruct (ngt _ _); auto|]. split; [unfold post; destruct (nlt _ _); auto|].
  split; [auto|]. split; [unfold last_edge; rewrite (last_nth_error bins2 NaN Hne2), Hl2; auto|].
  split.
  - intros Hd. assert (Hd1 : nondecreasing bins1).
    { rewrite E1. unfold pre. destruct (ngt b0 (lower_edge positive)) eqn:E; auto. simpl app.
      apply nondecreasing_cons; auto. intros b Hb. simpl in Hb. inversion Hb; subst. apply nlt_nle; auto. }
    rewrite E2. unfold post. destruct (nlt (last bins1 NaN) PInf) eqn:E; [|rewrite app_nil_r; auto].
    apply nondecreasing_snoc; auto. intros b Hb. rewrite (last_nth_error bins1 NaN Hne1) in Hb.
    inversion Hb. apply nlt_nle. congruence.
  - destruct Hf as (e & He & Hle). destruct bins2 as [|e' l2] eqn:Eb; [congruence|].
    simpl in He. inversion He; subst e'. unfold ngt. rewrite (nle_not_lt _ _ Hle). rewrite Hl2. reflexivity.
Qed.

(** ** C09 *)
Lemma isclose_refl x : is_nan x = false -> isclose x x = true.
Proof.
  destruct x; simpl; intros; try discriminate; auto. apply Rleb_true.
  replace (r - r) with 0 by ring. rewrite Rabs_R0. pose proof (Rabs_pos r). lra.
Qed.
Lemma forallb_combine_self l : (forall x, In x l -> is_nan x = false) ->
  forallb (fun p => isclose (fst p) (snd p)) (combine l l) = true.
Proof.
  induction l as [|a l IH]; intros H; auto. simpl. rewrite isclose_refl, IH; auto.
  - intros; apply H; right; auto.
  - apply H; left; auto.
Qed.
Lemma but_last_tl {A} (l : list A) : tl (but_last l) = but_last (tl l).
Proof. destruct l as [|a [|b [|c l]]]; auto. Qed.
Lemma last1_spec {A} (l : list A) d : l <> [] -> last1 l = [last l d].
Proof.
  intros H. unfold last1. rewrite (app_removelast_last d H) at 1. rewrite rev_app_distr. reflexivity.
Qed.
Lemma last_tl {A} (l : list A) d : (2 <= length l)%nat -> last (tl l) d = last l d.
Proof. destruct l as [|a [|b l]]; simpl; intros; try lia; auto. Qed.
Lemma in_but_last {A} (l : list A) x : In x (but_last l) -> In x l.
Proof.
  induction l as [|a l IH]; intros H; auto. destruct l; [destruct H|].
  destruct H as [<-|H]; [left; auto|right; auto].
Qed.
Lemma in_tl {A} (l : list A) x : In x (tl l) -> In x l.
Proof. destruct l; simpl; auto. Qed.

Lemma join_split edges : (2 <= length edges)%nat -> (forall e, In e edges -> is_nan e = false) ->
  join_bin_lo_hi (fst (split_bin_lo_hi edges)) (snd (split_bin_lo_hi edges)) = Ok edges.
Proof.
  intros Hl Hn. unfold join_bin_lo_hi, split_bin_lo_hi. simpl fst; simpl snd.
  rewrite but_last_tl. unfold allclose. rewrite Nat.eqb_refl. simpl rbind.
  rewrite forallb_combine_self by (intros x Hx; apply Hn, in_tl, in_but_last; auto).
  rewrite (last1_spec _ NaN) by (destruct edges as [|a [|b l]]; simpl in *; [lia|lia|discriminate]).
  rewrite last_tl by auto. rewrite <- but_last_last; auto. destruct edges; simpl in *; [lia|discriminate].
Qed.

(** when lo/hi have equal length, join succeeds exactly if the touching edges match *)
Lemma isclose_spec a b : isclose a b = true <-> within_tolerance a b.
Proof.
  destruct a, b; simpl; try (split; [discriminate|tauto]); try tauto.
  apply Rleb_true.
Qed.
Lemma forallb_combine_nth (f : num * num -> bool) l m :
  forallb f (combine l m) = true <->
  (forall i a b, nth_error l i = Some a -> nth_error m i = Some b -> f (a, b) = true).
Proof.
  revert m; induction l as [|x l IH]; intros [|y m]; simpl.
  - split; auto. intros _ [|i]; discriminate.
  - split; auto. intros _ [|i]; discriminate.
  - split; auto. intros _ [|i] a b; discriminate.
  - rewrite andb_true_iff, IH. split.
    + intros [H1 H2] [|i] a b Ha Hb; simpl in *; [congruence|eauto].
    + intros H; split; [apply (H 0%nat); auto|]. intros i; apply (H (S i)).
Qed.
Lemma join_spec lo hi : length lo = length hi -> lo <> [] ->
  (touching lo hi /\ join_bin_lo_hi lo hi = Ok (lo ++ [last hi NaN])) \/
  (~ touching lo hi /\ join_bin_lo_hi lo hi = Err ValueError).
Proof.
  intros Hl Hne. unfold join_bin_lo_hi, allclose.
  assert (Hlen : length (tl lo) = length (but_last hi)).
  { rewrite but_last_length, <- Hl. destruct lo; simpl; lia. }
  rewrite Hlen, Nat.eqb_refl. simpl rbind.
  assert (Hiff : forallb (fun p => isclose (fst p) (snd p)) (combine (tl lo) (but_last hi)) = true <-> touching lo hi).
  { rewrite forallb_combine_nth. unfold touching. split.
    - intros H i a b Ha Hb Hi. apply isclose_spec, (H i); [rewrite nth_error_tl; auto|rewrite nth_error_but_last; auto].
    - intros H i a b Ha Hb. simpl.
      assert (i < length (but_last hi))%nat by (apply nth_error_Some; congruence).
      rewrite but_last_length in H0. rewrite nth_error_but_last in Hb by lia.
      rewrite nth_error_tl in Ha. apply isclose_spec. eapply H; eauto. lia. }
  destruct (forallb _ _) eqn:E.
  - left. split; [apply Hiff; auto|]. rewrite (last1_spec hi NaN); auto. destruct lo, hi; simpl in *; congruence.
  - right. split; auto. intros H. apply Hiff in H. congruence.
Qed.
Lemma split_join lo hi out : length lo = length hi -> lo <> [] ->
  join_bin_lo_hi lo hi = Ok out ->
  length out = S (length lo) /\
  fst (split_bin_lo_hi out) = lo /\
  length (snd (split_bin_lo_hi out)) = length hi /\
  forall i a b, nth_error (snd (split_bin_lo_hi out)) i = Some a -> nth_error hi i = Some b ->
     (S i < length hi)%nat /\ within_tolerance a b \/ (S i = length hi)%nat /\ a = b.
Proof.
  intros Hl Hne Hj. destruct (join_spec lo hi Hl Hne) as [[Ht E]|[_ E]]; rewrite E in Hj; inversion Hj; subst; clear Hj.
  rewrite app_length; simpl. split; [lia|].
  split; [apply but_last_snoc|].
  assert (Htl : tl (lo ++ [last hi NaN]) = tl lo ++ [last hi NaN]) by (destruct lo; [congruence|auto]).
  rewrite Htl. split; [rewrite app_length; simpl; destruct lo; simpl in *; [congruence|lia]|].
  intros i a b Ha Hb.
  assert (Hi : (i < length hi)%nat) by (apply nth_error_Some; congruence).
  assert (Hlt : length (tl lo) = (length hi - 1)%nat) by (rewrite <- Hl; destruct lo; simpl; lia).
  destruct (Nat.eq_dec (S i) (length hi)) as [Ei|Ei].
  - right; split; auto. rewrite nth_error_app2 in Ha by lia. replace (i - length (tl lo))%nat with 0%nat in Ha by lia.
    simpl in Ha. inversion Ha; subst. symmetry.
    assert (Hhi : hi <> []) by (intros ->; simpl in *; lia).
    pose proof (last_nth_error hi NaN Hhi) as Hln. replace (length hi - 1)%nat with i in Hln by lia. congruence.
  - left; split; [lia|]. rewrite nth_error_app1 in Ha by lia. rewrite nth_error_tl in Ha. eapply Ht; eauto. lia.
Qed.
(** leading dimensions: row-wise round trip *)
Lemma join_split_nd rows :
  (forall r, In r rows -> (2 <= length r)%nat /\ forall e, In e r -> is_nan e = false) ->
  join_bin_lo_hi_nd (map but_last rows) (map (@tl num) rows) = Ok rows.
Proof.
  intros H. unfold join_bin_lo_hi_nd. rewrite !map_length, Nat.eqb_refl. simpl negb.
  assert (E : exists l, rmap (fun p => allclose (tl (fst p)) (but_last (snd p)))
                (combine (map but_last rows) (map (@tl num) rows)) = Ok l /\ forallb (fun b => b) l = true
              /\ zipwith (fun lo hi => lo ++ last1 hi) (map but_last rows) (map (@tl num) rows) = rows).
  { induction rows as [|r rows IH]; [exists []; auto|].
    destruct IH as (l & H1 & H2 & H3); [intros; apply H; right; auto|].
    destruct (H r (or_introl eq_refl)) as [Hr1 Hr2].
    exists (true :: l). simpl combine. cbn [rmap]. simpl fst; simpl snd.
    rewrite but_last_tl. unfold allclose at 1. rewrite Nat.eqb_refl.
    rewrite forallb_combine_self by (intros x Hx; apply Hr2, in_tl, in_but_last; auto).
    cbn [rbind]. rewrite H1. cbn [rbind forallb]. rewrite H2. split; auto. split; auto.
    cbn [map zipwith]. rewrite H3. f_equal.
    rewrite (last1_spec _ NaN) by (destruct r as [|a [|b l']]; simpl in *; [lia|lia|discriminate]).
    rewrite last_tl by auto. rewrite <- but_last_last; auto. destruct r; simpl in *; [lia|discriminate]. }
  destruct E as (l & E1 & E2 & E3). cbv iota. rewrite E1. simpl rbind. rewrite E2, E3. auto.
Qed.

(** ** C10 *)
Lemma Rceil_spec x : x <= IZR (Rceil x) < x + 1.
Proof.
  unfold Rceil. destruct (archimed (- x)) as [H1 H2]. rewrite minus_IZR. lra.
Qed.
Lemma Rceil_unique x z : x <= IZR z < x + 1 -> Rceil x = z.
Proof.
  intros [H1 H2]. destruct (Rceil_spec x) as [H3 H4].
  assert (IZR (Rceil x) < IZR (z + 1)) by (rewrite plus_IZR; lra).
  assert (IZR z < IZR (Rceil x + 1)) by (rewrite plus_IZR; lra).
  apply lt_IZR in H. apply lt_IZR in H0. lia.
Qed.
Lemma ln10_pos : 0 < ln 10.
Proof. rewrite <- ln_1. apply ln_increasing; lra. Qed.
Lemma pow10_log10 x : 0 < x -> Rpower 10 (log10 x) = x.
Proof.
  intros H. unfold Rpower, log10. replace (ln x / ln 10 * ln 10) with (ln x).
  - apply exp_ln; auto.
  - field. pose proof ln10_pos; lra.
Qed.
Lemma Rpower10_lt a b : a < b -> Rpower 10 a < Rpower 10 b.
Proof. intros; apply Rpower_lt; lra. Qed.
Lemma Rpower10_le a b : a <= b -> Rpower 10 a <= Rpower 10 b.
Proof. intros [H|H]; [left; apply Rpower10_lt; auto|subst; right; auto]. Qed.
Lemma log10_mult_pow x y : 0 < x -> log10 (x * Rpower 10 y) = log10 x + y.
Proof.
  intros. unfold log10. rewrite ln_mult; auto; [|apply exp_pos]. unfold Rpower. rewrite ln_exp.
  field. pose proof ln10_pos; lra.
Qed.
Lemma log10_le x y : 0 < x -> x <= y -> log10 x <= log10 y.
Proof.
  intros. unfold log10. apply Rmult_le_compat_r; [left; apply Rinv_0_lt_compat, ln10_pos|].
  destruct H0 as [H0|H0]; [left; apply ln_increasing; auto|subst; right; auto].
Qed.

Lemma arange_nth start stop step i :
  (i < length (arange start stop step))%nat ->
  nth_error (arange start stop step) i = Some (start + INR i * step).
Proof.
  unfold arange. rewrite map_length, seq_length. intros H.
  rewrite nth_error_map, (nth_error_nth' _ 0%nat) by (rewrite seq_length; auto).
  rewrite seq_nth by auto. reflexivity.
Qed.
Lemma arange_length start stop step : 0 < step -> start <= stop ->
  let N := length (arange start stop step) in
  stop <= start + INR N * step /\ (forall i, (i < N)%nat -> start + INR i * step < stop).
Proof.
  intros Hs Hle. unfold arange. rewrite map_length, seq_length.
  set (q := (stop - start) / step). destruct (Rceil_spec q) as [H1 H2].
  assert (Hq : 0 <= q) by (unfold q; apply Rmult_le_pos; [lra|left; apply Rinv_0_lt_compat; auto]).
  assert (Hz : (0 <= Rceil q)%Z).
  { assert (IZR (-1) < IZR (Rceil q)) by lra. apply lt_IZR in H. lia. }
  assert (Hqs : q * step = stop - start) by (unfold q; field; lra).
  split.
  - rewrite INR_IZR_INZ, Z2Nat.id by auto.
    assert (q * step <= IZR (Rceil q) * step) by (apply Rmult_le_compat_r; lra). lra.
  - intros i Hi. rewrite INR_IZR_INZ.
    assert (Hi' : (Z.of_nat i <= Rceil q - 1)%Z) by lia. apply IZR_le in Hi'. rewrite minus_IZR in Hi'.
    assert (IZR (Z.of_nat i) < q) by lra.
    assert (IZR (Z.of_nat i) * step < q * step) by (apply Rmult_lt_compat_r; auto). lra.
Qed.

Lemma bins_per_decade_spec lo u hi uh n :
  u_dim u = energy_dim -> u_dim uh = energy_dim -> 0 < u_scale u -> 0 < u_scale uh ->
  0 < n -> 0 < lo -> lo <= hi * (u_scale uh / u_scale u) ->
  let hi' := hi * (u_scale uh / u_scale u) in
  exists out, create_bins_per_decade (lo, u) (hi, uh) n = Ok (out, u) /\
    nth_error out 0 = Some lo /\
    (forall i a, nth_error out i = Some a -> a = lo * Rpower 10 (INR i / n)) /\
    (forall i a b, nth_error out i = Some a -> nth_error out (S i) = Some b ->
        a < b /\ b / a = Rpower 10 (1 / n)) /\
    (forall a, In a out -> lo <= a < hi' * Rpower 10 (1 / n / 10000)) /\
    hi' * Rpower 10 (1 / n / 10000) <= lo * Rpower 10 (INR (length out) / n).
Proof.
  intros D1 D2 S1 S2 Hn Hlo Hle hi'. unfold create_bins_per_decade. cbn [fst snd].
  rewrite D1, D2, Nat.eqb_refl. cbn [negb]. fold hi'. unfold hi' in *. clear hi'. set (hi' := hi * (u_scale uh / u_scale u)) in *.
  rsolve. cbn [orb].
  assert (Hst : 0 < 1 / n) by (apply Rdiv_lt_0_compat; lra).
  set (st := 1 / n) in *. assert (Heps : 0 < st / 10000) by lra.
  set (A := arange (log10 lo) (log10 hi' + st / 10000) st).
  destruct (arange_length (log10 lo) (log10 hi' + st / 10000) st Hst) as [HN1 HN2].
  { pose proof (log10_le lo hi' Hlo Hle). lra. }
  fold A in HN1, HN2.
  assert (HN : (0 < length A)%nat).
  { destruct (length A) eqn:E; [|lia]. simpl in HN1. pose proof (log10_le lo hi' Hlo Hle). lra. }
  assert (Hval : forall i a, nth_error (map (fun y => Rpower 10 y) A) i = Some a -> a = lo * Rpower 10 (INR i / n)).
  { intros i a Ha. rewrite nth_error_map in Ha.
    assert (Hi : (i < length A)%nat).
    { apply nth_error_Some. destruct (nth_error A i); simpl in Ha; congruence. }
    unfold A in Ha. rewrite arange_nth in Ha by auto. simpl in Ha. inversion Ha.
    rewrite Rpower_plus, pow10_log10 by auto. unfold st. f_equal. f_equal. field; lra. }
  assert (Hhi : 0 < hi') by lra.
  exists (map (fun y => Rpower 10 y) A). split; [reflexivity|]. split.
  { destruct (nth_error_ex (map (fun y => Rpower 10 y) A) 0) as [a Ha]; [rewrite map_length; auto|].
    rewrite Ha. apply Hval in Ha. rewrite Ha. f_equal. simpl INR.
    unfold Rdiv. rewrite Rmult_0_l, Rpower_O by lra. ring. }
  split; [exact Hval|]. split.
  { intros i a b Ha Hb. apply Hval in Ha. apply Hval in Hb. subst.
    assert (Hp : forall z, 0 < Rpower 10 z) by (intros; apply exp_pos).
    rewrite S_INR. replace ((INR i + 1) / n) with (INR i / n + 1 / n) by (field; lra).
    fold st. rewrite Rpower_plus. split.
    - apply Rmult_lt_compat_l; auto. rewrite <- (Rmult_1_r (Rpower 10 (INR i / n))) at 1.
      apply Rmult_lt_compat_l; auto. rewrite <- (Rpower_O 10) by lra. apply Rpower10_lt; auto.
    - field. split; [specialize (Hp (INR i / n)); lra|lra]. }
  split.
  { intros a Ha. apply In_nth_error in Ha as [i Ha].
    assert (Hi : (i < length A)%nat).
    { rewrite nth_error_map in Ha. apply nth_error_Some. destruct (nth_error A i); simpl in Ha; congruence. }
    apply Hval in Ha as Ha'. rewrite Ha'. split.
    - rewrite <- (Rmult_1_r lo) at 1. apply Rmult_le_compat_l; [lra|]. rewrite <- (Rpower_O 10) by lra.
      apply Rpower10_le. apply Rmult_le_pos; [apply pos_INR|left; apply Rinv_0_lt_compat; auto].
    - specialize (HN2 i Hi). replace (lo * Rpower 10 (INR i / n)) with (Rpower 10 (log10 lo + INR i * st)).
      + replace (hi' * Rpower 10 (st / 10000)) with (Rpower 10 (log10 hi' + st / 10000)).
        * apply Rpower10_lt; auto.
        * rewrite Rpower_plus, pow10_log10; auto.
      + rewrite Rpower_plus, pow10_log10 by auto. unfold st. f_equal. f_equal. field; lra. }
  rewrite map_length.
  replace (hi' * Rpower 10 (st / 10000)) with (Rpower 10 (log10 hi' + st / 10000))
    by (rewrite Rpower_plus, pow10_log10; auto).
  replace (lo * Rpower 10 (INR (length A) / n)) with (Rpower 10 (log10 lo + INR (length A) * st)).
  - apply Rpower10_le; auto.
  - rewrite Rpower_plus, pow10_log10 by auto. unfold st. f_equal. f_equal. field; lra.
Qed.

Lemma bins_per_decade_exact lo u hi uh n (k : nat) :
  u_dim u = energy_dim -> u_dim uh = energy_dim -> 0 < u_scale u -> 0 < u_scale uh ->
  0 < n -> 0 < lo -> hi * (u_scale uh / u_scale u) = lo * Rpower 10 (INR k / n) ->
  exists out, create_bins_per_decade (lo, u) (hi, uh) n = Ok (out, u) /\
    length out = S k /\ nth_error out k = Some (hi * (u_scale uh / u_scale u)).
Proof.
  intros D1 D2 S1 S2 Hn Hlo Hhi.
  assert (Hp : forall z, 0 < Rpower 10 z) by (intros; apply exp_pos).
  assert (Hle : lo <= hi * (u_scale uh / u_scale u)).
  { rewrite Hhi. rewrite <- (Rmult_1_r lo) at 1. apply Rmult_le_compat_l; [lra|]. rewrite <- (Rpower_O 10) by lra.
    apply Rpower10_le. apply Rmult_le_pos; [apply pos_INR|left; apply Rinv_0_lt_compat; auto]. }
  destruct (bins_per_decade_spec lo u hi uh n) as (out & E & H0 & Hv & Hs & Hr & Hend); auto.
  exists out. split; auto.
  rewrite Hhi in Hend, Hr.
  assert (Hni : 0 < / n) by (apply Rinv_0_lt_compat; auto).
  assert (Hcmp : forall a b : R, lo * Rpower 10 a < lo * Rpower 10 b -> a < b).
  { intros a b Hab. apply Rmult_lt_reg_l in Hab; auto. destruct (Rlt_or_le a b); auto.
    pose proof (Rpower10_le _ _ H). lra. }
  assert (L1 : (k < length out)%nat).
  { assert (INR k / n + 1 / n / 10000 <= INR (length out) / n).
    { destruct (Rle_or_lt (INR k / n + 1 / n / 10000) (INR (length out) / n)); auto. exfalso.
      rewrite Rmult_assoc, <- Rpower_plus in Hend. pose proof (Rpower10_lt _ _ H).
      assert (lo * Rpower 10 (INR (length out) / n) < lo * Rpower 10 (INR k / n + 1 / n / 10000))
        by (apply Rmult_lt_compat_l; auto). lra. }
    apply INR_lt. apply Rmult_lt_reg_r with (/ n); auto. unfold Rdiv in H. 
    assert (0 < 1 * / n * / 10000) by lra. lra. }
  assert (L2 : (length out <= S k)%nat).
  { destruct (le_lt_dec (length out) (S k)) as [|Hlt]; auto. exfalso.
    destruct (nth_error_ex out (S k) Hlt) as [a Ha]. apply Hv in Ha as Ha'. subst a.
    apply nth_error_In in Ha. destruct (Hr _ Ha) as [_ Hlt2]. rewrite Rmult_assoc, <- Rpower_plus in Hlt2.
    apply Hcmp in Hlt2. rewrite S_INR in Hlt2. unfold Rdiv in Hlt2. nra. }
  assert (L : length out = S k) by lia. split; auto.
  destruct (nth_error_ex out k L1) as [a Ha]. rewrite Ha. f_equal. apply Hv in Ha. rewrite Ha, Hhi. auto.
Qed.

(** ** C11 *)
Lemma all_fin_map l : all_fin (map Fin l) = Some l.
Proof. induction l as [|a l IH]; simpl; auto. rewrite IH; auto. Qed.
Lemma nan_to_num_fin p n l : map (nan_to_num p n) (map Fin l) = map Fin l.
Proof. rewrite map_map. apply map_ext. reflexivity. Qed.
Lemma cumsum0_length acc l : length (cumsum0 acc l) = S (length l).
Proof. revert acc; induction l as [|a l IH]; intros; simpl; auto. Qed.
Lemma cumsum0_nth acc l i : (i <= length l)%nat ->
  nth_error (cumsum0 acc l) i = Some (acc + rsum (firstn i l)).
Proof.
  revert acc i; induction l as [|a l IH]; intros acc i Hi.
  - destruct i; simpl in *; [|lia]. rewrite rsum_nil, Rplus_0_r; auto.
  - destruct i; [simpl; rewrite rsum_nil, Rplus_0_r; auto|]. cbn [cumsum0 nth_error firstn].
    rewrite IH by (simpl in Hi; lia). rewrite rsum_cons. f_equal; ring.
Qed.
Lemma strictly_increasing_spec l : strictly_increasing l = true ->
  forall i a b, nth_error l i = Some a -> nth_error l (S i) = Some b -> a < b.
Proof.
  induction l as [|x l IH]; intros H i a b Ha Hb; [destruct i; discriminate|].
  destruct l as [|y l']; [destruct i as [|[|i]]; discriminate|].
  change (strictly_increasing (x :: y :: l')) with (Rltb x y && strictly_increasing (y :: l')) in H.
  apply andb_true_iff in H as [H1 H2]. rcmp.
  destruct i; simpl in Ha, Hb; [inversion Ha; inversion Hb; subst; auto|]. eapply IH; eauto.
Qed.
Lemma strictly_increasing_iff l : strictly_increasing l = true <-> increasing l.
Proof.
  split; [intros H i a b; apply strictly_increasing_spec; auto|].
  induction l as [|x l IH]; intros H; auto. destruct l as [|y l']; auto.
  change (strictly_increasing (x :: y :: l')) with (Rltb x y && strictly_increasing (y :: l')).
  apply andb_true_iff; split; [apply Rltb_true; apply (H 0%nat); auto|].
  apply IH. intros i; apply (H (S i)).
Qed.
Lemma strictly_increasing_lt l i j a b : strictly_increasing l = true -> (i < j)%nat ->
  nth_error l i = Some a -> nth_error l j = Some b -> a < b.
Proof.
  intros H Hij Ha. revert b. induction Hij as [|j Hij IH]; intros b Hb.
  - eapply strictly_increasing_spec; eauto.
  - destruct (nth_error l j) as [c|] eqn:Ec.
    + apply Rlt_trans with c; [apply IH; auto|]. eapply strictly_increasing_spec; eauto.
    + apply nth_error_None in Ec. assert (S j < length l)%nat by (apply nth_error_Some; congruence). lia.
Qed.

Lemma insert_first (p : R * R) l : (forall q, In q l -> fst p < fst q) -> insert (fun p q => Rleb (fst p) (fst q)) p l = p :: l.
Proof. destruct l as [|q l]; intros H; cbn; auto. assert (E : Rleb (fst p) (fst q) = true) by (apply Rleb_true; left; apply H; left; auto). rewrite E. auto. Qed.
Lemma knots_increasing xs ys : strictly_increasing xs = true -> knots xs ys = combine xs ys.
Proof.
  unfold knots. revert ys. induction xs as [|x xs IH]; intros [|y ys] H; auto. cbn [combine isort].
  assert (Hx : strictly_increasing xs = true).
  { destruct xs; auto. change (Rltb x r && strictly_increasing (r :: xs) = true) in H. apply andb_true_iff in H. tauto. }
  rewrite IH by auto. apply insert_first. intros [a b] Hq. apply in_combine_l in Hq. apply In_nth_error in Hq as (i & Hi).
  apply (strictly_increasing_lt (x :: xs) 0 (S i) x a H); auto. lia.
Qed.
Lemma fst_combine (xs ys : list R) : length xs = length ys -> map fst (combine xs ys) = xs.
Proof. revert ys. induction xs as [|x xs IH]; intros [|y ys] H; cbn in *; try discriminate; auto. rewrite IH; auto. Qed.
Lemma snd_combine (xs ys : list R) : length xs = length ys -> map snd (combine xs ys) = ys.
Proof. revert ys. induction xs as [|x xs IH]; intros [|y ys] H; cbn in *; try discriminate; auto. rewrite IH; auto. Qed.
(** the resampled histogram for finite edges *)
Lemma resample_ok itp data old new :
  length old = S (length data) -> (3 <= length old)%nat -> strictly_increasing old = true ->
  resample_histogram1d itp false data (map Fin old) (map Fin new) =
  let norm := if Reqb (rsum data) 0 then 1 else rsum data in
  Ok (map (fun d => d * norm) (diffR (map (f_integral itp old (map (fun c => c / norm) (cumsum0 0 data))) new))).
Proof.
  intros Hl H3 Hs. unfold resample_histogram1d. rewrite map_length.
  destruct (nth_error_ex (map Fin old) 1) as [e1 He1]; [rewrite map_length; lia|].
  destruct (nth_error_ex (map Fin old) (length old - 2)) as [e2 He2]; [rewrite map_length; lia|].
  rewrite He1, He2. destruct (Nat.ltb_spec (length old) 2); [lia|].
  rewrite !nan_to_num_fin, !all_fin_map. cbv zeta. rewrite map_length, cumsum0_length, Hl, Nat.eqb_refl.
  simpl negb. rewrite <- Hl. destruct (Nat.ltb_spec (length old) 3); [lia|]. rewrite knots_increasing by auto.
  rewrite fst_combine, snd_combine by (rewrite map_length, cumsum0_length; auto). rewrite Hs. reflexivity.
Qed.
Lemma map_scale_sum c l : rsum (map (fun d => d * c) l) = rsum l * c.
Proof. induction l as [|a l IH]; simpl; [rewrite rsum_nil; lra|]. rewrite !rsum_cons, IH; lra. Qed.

Section Resample.
  Variable itp : list R -> list R -> R -> R.
  Hypothesis Hitp : passes_through_knots itp.
  Variables (data old : list R).
  Hypothesis Hl : length old = S (length data).
  Hypothesis H3 : (3 <= length old)%nat.
  Hypothesis Hs : strictly_increasing old = true.
  Let norm := if Reqb (rsum data) 0 then 1 else rsum data.
  Let ys := map (fun c => c / norm) (cumsum0 0 data).
  Let F := f_integral itp old ys.

  Lemma old_ne : old <> []. Proof. intros E. rewrite E in H3. simpl in H3. lia. Qed.
  Lemma norm_ne : norm <> 0.
  Proof. unfold norm. destruct (Reqb_spec (rsum data) 0); auto. Qed.
  Lemma F_knot i x : nth_error old i = Some x -> F x * norm = rsum (firstn i data).
  Proof.
    intros Hx. assert (Hi : (i < length old)%nat) by (apply nth_error_Some; congruence).
    assert (Hy : nth_error ys i = Some (rsum (firstn i data) / norm)).
    { unfold ys. rewrite nth_error_map, cumsum0_nth by lia. simpl. rewrite Rplus_0_l; auto. }
    assert (Hyl : length old = length ys) by (unfold ys; rewrite map_length, cumsum0_length; auto).
    unfold F, f_integral.
    assert (Hhd : nth_error old 0 = Some (hd 0 old)) by (apply hd_nth, old_ne).
    assert (Hla : nth_error old (length old - 1) = Some (last old 0)) by (apply last_nth_error, old_ne).
    destruct (Rltb_spec x (hd 0 old)) as [Hb|_].
    { exfalso. destruct i; [rewrite Hhd in Hx; inversion Hx; subst; lra|].
      pose proof (strictly_increasing_lt old 0 (S i) (hd 0 old) x Hs ltac:(lia) Hhd Hx). lra. }
    destruct (Rltb_spec (last old 0) x) as [Hb|_].
    { exfalso. destruct (Nat.eq_dec i (length old - 1)) as [->|]; [rewrite Hla in Hx; inversion Hx; subst; lra|].
      pose proof (strictly_increasing_lt old i (length old - 1) x (last old 0) Hs ltac:(lia) Hx Hla). lra. }
    rewrite (Hitp old ys i x (rsum (firstn i data) / norm)); auto; [|apply strictly_increasing_iff; auto]. field. apply norm_ne.
  Qed.
  Lemma F_below x : x <= hd 0 old -> F x * norm = 0.
  Proof.
    intros Hx. destruct (Req_dec x (hd 0 old)) as [->|].
    - rewrite (F_knot 0) by (apply hd_nth, old_ne). simpl. apply rsum_nil.
    - unfold F, f_integral. rsolve. lra.
  Qed.
  Lemma hd_last : hd 0 old < last old 0.
  Proof.
    eapply (strictly_increasing_lt old 0 (length old - 1)); auto; [lia|apply hd_nth, old_ne|apply last_nth_error, old_ne].
  Qed.
  Lemma F_above x : last old 0 <= x -> rsum data <> 0 -> F x * norm = rsum data.
  Proof.
    intros Hx Hn. destruct (Req_dec x (last old 0)) as [->|].
    - rewrite (F_knot (length old - 1)) by (apply last_nth_error, old_ne).
      rewrite Hl. replace (S (length data) - 1)%nat with (length data) by lia. rewrite firstn_all; auto.
    - unfold F, f_integral. pose proof hd_last. rsolve. unfold norm. rewrite (proj2 (Reqb_false _ _) Hn). lra.
  Qed.

  Lemma resample_eq new :
    resample_histogram1d itp false data (map Fin old) (map Fin new)
    = Ok (map (fun d => d * norm) (diffR (map F new))).
  Proof. rewrite resample_ok; auto. Qed.

  Lemma resample_length new : exists out,
    resample_histogram1d itp false data (map Fin old) (map Fin new) = Ok out /\
    length out = (length new - 1)%nat.
  Proof. rewrite resample_eq. eexists; split; [reflexivity|]. rewrite map_length, diffR_length, map_length; auto. Qed.

  (** covering new edges conserve the total *)
  (** the whole function: differences of one cumulative content *)
  Lemma resample_cumulative : exists (G : R -> R) (fractions : list R),
    length fractions = length old /\
    (forall i y, nth_error fractions i = Some y ->
       y = rsum (firstn i data) / (if Req_EM_T (rsum data) 0 then 1 else rsum data)) /\
    (forall x, x < hd 0 old -> G x = 0) /\
    (forall x, hd 0 old <= x <= last old 0 -> G x = itp old fractions x * (if Req_EM_T (rsum data) 0 then 1 else rsum data)) /\
    (forall x, last old 0 < x -> G x = if Req_EM_T (rsum data) 0 then 1 else rsum data) /\
    (forall i x, nth_error old i = Some x -> G x = rsum (firstn i data)) /\
    forall new, exists out, resample_histogram1d itp false data (map Fin old) (map Fin new) = Ok out /\
      length out = (length new - 1)%nat /\
      (forall k a b, nth_error new k = Some a -> nth_error new (S k) = Some b -> nth_error out k = Some (G b - G a)) /\
      (new <> [] -> rsum out = G (last new 0) - G (hd 0 new)).
  Proof.
    assert (En : (if Req_EM_T (rsum data) 0 then 1 else rsum data) = norm).
    { unfold norm. destruct (Req_EM_T (rsum data) 0), (Reqb_spec (rsum data) 0); congruence. }
    rewrite En. exists (fun x => F x * norm), ys. pose proof hd_last as HL.
    split; [unfold ys; rewrite map_length, cumsum0_length; lia|].
    split. { intros i y Hy. unfold ys in Hy. assert (Hi : (i < length ys)%nat) by (apply nth_error_Some; unfold ys; congruence).
      unfold ys in Hi. rewrite map_length, cumsum0_length in Hi.
      rewrite nth_error_map, cumsum0_nth in Hy by lia. cbn [option_map] in Hy. injection Hy as <-. rewrite Rplus_0_l; auto. }
    split. { intros x Hx. unfold F, f_integral. rsolve. lra. }
    split. { intros x Hx. unfold F, f_integral. rsolve. reflexivity. }
    split. { intros x Hx. unfold F, f_integral. rsolve. lra. }
    split; [exact F_knot|].
    intros new. rewrite resample_eq. eexists; split; [reflexivity|].
    split; [rewrite map_length, diffR_length, map_length; auto|]. split.
    - intros k a b Ha Hb. rewrite nth_error_map. erewrite diffR_nth;
        [|rewrite nth_error_map, Ha; reflexivity|rewrite nth_error_map, Hb; reflexivity].
      cbn [option_map]. rewrite Rmult_minus_distr_r. reflexivity.
    - intros Hne. rewrite map_scale_sum.
      assert (Hm : map F new <> []) by (destruct new; [congruence|discriminate]).
      rewrite (diffR_sum _ 0 Hm).
      assert (E1 : hd 0 (map F new) = F (hd 0 new)).
      { apply hd_of_nth. rewrite nth_error_map, (hd_nth new 0); auto. }
      assert (E2 : last (map F new) 0 = F (last new 0)).
      { apply last_of_nth. rewrite nth_error_map, map_length, (last_nth_error new 0); auto. }
      rewrite E1, E2. lra.
  Qed.
  Lemma resample_total new : new <> [] -> rsum data <> 0 ->
    hd 0 new <= hd 0 old -> last old 0 <= last new 0 ->
    exists out, resample_histogram1d itp false data (map Fin old) (map Fin new) = Ok out /\ rsum out = rsum data.
  Proof.
    intros Hne Hn Hlo Hhi. rewrite resample_eq. eexists; split; [reflexivity|].
    rewrite map_scale_sum.
    assert (Hm : map F new <> []) by (destruct new; [congruence|discriminate]).
    rewrite (diffR_sum _ 0 Hm).
    assert (E1 : hd 0 (map F new) = F (hd 0 new)).
    { apply hd_of_nth. rewrite nth_error_map, (hd_nth new 0); auto. }
    assert (E2 : last (map F new) 0 = F (last new 0)).
    { apply last_of_nth. rewrite nth_error_map, map_length, (last_nth_error new 0); auto. }
    rewrite E1, E2. rewrite Rmult_minus_distr_r, (F_below (hd 0 new)), (F_above (last new 0)); auto. lra.
  Qed.
  (** aligned edges: the content between two old edges is kept exactly *)
  Lemma resample_aligned new k i j a b : nth_error new k = Some a -> nth_error new (S k) = Some b ->
    nth_error old i = Some a -> nth_error old j = Some b ->
    exists out, resample_histogram1d itp false data (map Fin old) (map Fin new) = Ok out /\
      nth_error out k = Some (rsum (firstn j data) - rsum (firstn i data)).
  Proof.
    intros Ha Hb Hi Hj. rewrite resample_eq. eexists; split; [reflexivity|].
    rewrite nth_error_map. erewrite diffR_nth;
      [|rewrite nth_error_map, Ha; reflexivity|rewrite nth_error_map, Hb; reflexivity].
    simpl. f_equal. rewrite Rmult_minus_distr_r, (F_knot i a), (F_knot j b); auto.
  Qed.
  Lemma resample_same : exists out,
    resample_histogram1d itp false data (map Fin old) (map Fin old) = Ok out /\ out = data.
  Proof.
    rewrite resample_eq. eexists; split; [reflexivity|]. apply list_eq_nth.
    - rewrite map_length, diffR_length, map_length. lia.
    - intros k a b Ha Hb. assert (Hk : (k < length data)%nat) by (apply nth_error_Some; congruence).
      destruct (nth_error_ex old k) as [x Hx]; [lia|]. destruct (nth_error_ex old (S k)) as [y Hy]; [lia|].
      rewrite nth_error_map in Ha.
      erewrite diffR_nth in Ha; [|rewrite nth_error_map, Hx; reflexivity|rewrite nth_error_map, Hy; reflexivity].
      simpl in Ha. inversion Ha. rewrite Rmult_minus_distr_r, (F_knot k x), (F_knot (S k) y); auto.
      clear -Hb. revert k b Hb. induction data as [|d l IH]; intros [|k] b Hb; simpl in Hb; try discriminate.
      + inversion Hb; subst. simpl. rewrite rsum_cons, rsum_nil. lra.
      + rewrite !firstn_cons, !rsum_cons. specialize (IH _ _ Hb). lra.
  Qed.
  (** bins entirely outside the old range are empty *)
  Lemma resample_outside new k a b : nth_error new k = Some a -> nth_error new (S k) = Some b ->
    (a <= hd 0 old /\ b <= hd 0 old) \/ (last old 0 <= a /\ last old 0 <= b /\ rsum data <> 0) ->
    exists out, resample_histogram1d itp false data (map Fin old) (map Fin new) = Ok out /\ nth_error out k = Some 0.
  Proof.
    intros Ha Hb Hout. rewrite resample_eq. eexists; split; [reflexivity|].
    rewrite nth_error_map. erewrite diffR_nth;
      [|rewrite nth_error_map, Ha; reflexivity|rewrite nth_error_map, Hb; reflexivity].
    simpl. f_equal. rewrite Rmult_minus_distr_r.
    destruct Hout as [[]|(? & ? & ?)]; [rewrite !F_below|rewrite !F_above]; auto; lra.
  Qed.
End Resample.

(** empty histogram, new edges reaching beyond the old ones: a phantom count of 1 *)
Lemma resample_empty_phantom itp (old : list R) (hi : R) : passes_through_knots itp ->
  (3 <= length old)%nat -> strictly_increasing old = true -> last old 0 < hi ->
  resample_histogram1d itp false (repeat 0 (length old - 1)) (map Fin old) (map Fin [hd 0 old; hi]) = Ok [1].
Proof.
  intros Hitp H3 Hs Hhi.
  assert (Hr : forall n, rsum (repeat 0 n) = 0).
  { induction n as [|n IH]; simpl; [apply rsum_nil|]. rewrite rsum_cons, IH; lra. }
  assert (Hl : length old = S (length (repeat 0 (length old - 1)))) by (rewrite repeat_length; lia).
  rewrite (resample_eq itp _ _ Hl H3 Hs). simpl map.
  pose proof (F_below itp Hitp _ _ Hl H3 Hs (hd 0 old) (Rle_refl _)) as Hb.
  pose proof (hd_last _ _ Hl H3 Hs) as Hhl. rewrite Hr in *. rewrite (proj2 (Reqb_true 0 0) eq_refl) in *.
  simpl. f_equal. f_equal. rewrite Rmult_1_r in *. rewrite Hb.
  unfold f_integral. rsolve. lra.
Qed.

Lemma resample_negative itp : quadratic_on_three_knots itp ->
  resample_histogram1d itp false [1; 0] (map Fin [0; 1; 2]) (map Fin [1; 3/2; 2]) = Ok [1/8; -1/8].
Proof.
  intros Hq. rewrite resample_ok; [|reflexivity|simpl; lia|simpl; rsolve; reflexivity].
  cbv zeta. replace (rsum [1; 0]) with 1 by (rewrite !rsum_cons, rsum_nil; ring).
  rsolve. cbv iota. simpl. unfold f_integral. simpl. rsolve. cbv iota.
  rewrite !Hq by lra. unfold parabola. f_equal. f_equal; [field|f_equal; field].
Qed.

(** infinite outer edges: replaced by mirrored finite ones (old) and by the largest float (new) *)
Lemma all_fin_length l rs : all_fin l = Some rs -> length rs = length l /\ l = map Fin rs.
Proof.
  revert rs; induction l as [|x l IH]; intros rs H; simpl in H; [inversion H; auto|].
  destruct x; try discriminate. destruct (all_fin l) as [rs'|]; [|discriminate]. inversion H; subst.
  destruct (IH rs' eq_refl) as [H1 H2]. simpl. split; [lia|congruence].
Qed.
Lemma resample_reduce itp b data old new e1 em2 xs nx : (2 <= length old)%nat ->
  nth_error old 1 = Some e1 -> nth_error old (length old - 2) = Some em2 ->
  all_fin (map (nan_to_num (nadd em2 (nsub em2 e1)) (nsub e1 (nsub em2 e1))) old) = Some xs ->
  all_fin (map (nan_to_num (Fin fmax) (Fin (- fmax))) new) = Some nx ->
  resample_histogram1d itp b data old new = resample_histogram1d itp b data (map Fin xs) (map Fin nx).
Proof.
  intros Hl H1 H2 Hx Hn. unfold resample_histogram1d at 1. rewrite H1, H2.
  destruct (Nat.ltb_spec (length old) 2); [lia|]. rewrite Hx, Hn. cbv zeta.
  destruct (all_fin_length _ _ Hx) as [Lx _]. rewrite map_length in Lx.
  unfold resample_histogram1d. rewrite (map_length Fin xs), Lx.
  destruct (nth_error_ex (map Fin xs) 1) as [f1 Hf1]; [rewrite map_length; lia|].
  destruct (nth_error_ex (map Fin xs) (length old - 2)) as [f2 Hf2]; [rewrite map_length; lia|].
  rewrite Hf1, Hf2. destruct (Nat.ltb_spec (length old) 2); [lia|].
  rewrite !nan_to_num_fin, !all_fin_map. rewrite Lx. reflexivity.
Qed.

Lemma resample_infinite itp b data (mid : list R) new nx : (2 <= length mid)%nat ->
  all_fin (map (nan_to_num (Fin fmax) (Fin (- fmax))) new) = Some nx ->
  resample_histogram1d itp b data (NInf :: map Fin mid ++ [PInf]) new =
  resample_histogram1d itp b data
    (map Fin ((hd 0 mid - (last mid 0 - hd 0 mid)) :: mid ++ [last mid 0 + (last mid 0 - hd 0 mid)]))
    (map Fin nx).
Proof.
  intros Hm Hn. assert (Hne : mid <> []) by (intros ->; simpl in *; lia).
  apply (resample_reduce itp b data _ new (Fin (hd 0 mid)) (Fin (last mid 0))); auto.
  - simpl. rewrite app_length. simpl. lia.
  - destruct mid; [congruence|]. reflexivity.
  - simpl length. rewrite app_length, map_length. simpl length.
    replace (S (length mid + 1) - 2)%nat with (S (length mid - 1)) by lia. cbn [nth_error].
    rewrite nth_error_app1 by (rewrite map_length; lia). rewrite nth_error_map, (last_nth_error mid 0 Hne). auto.
  - cbn [map]. rewrite map_app, nan_to_num_fin. cbn [map nan_to_num nsub nadd nneg].
    change [Fin (last mid 0 + (last mid 0 + - hd 0 mid))]
      with (map Fin [last mid 0 + (last mid 0 + - hd 0 mid)]).
    rewrite <- map_app.
    change (Fin (hd 0 mid + - (last mid 0 + - hd 0 mid)) :: ?l) with (map Fin [hd 0 mid + - (last mid 0 + - hd 0 mid)] ++ l).
    rewrite <- map_app, all_fin_map. reflexivity.
Qed.

Lemma resample_int itp data old new : (3 <= length old)%nat ->
  resample_histogram1d itp true data (map Fin old) (map Fin new) = Err TypeError.
Proof.
  intros H. unfold resample_histogram1d. rewrite map_length.
  destruct (nth_error_ex (map Fin old) 1) as [e1 He1]; [rewrite map_length; lia|].
  destruct (nth_error_ex (map Fin old) (length old - 2)) as [e2 He2]; [rewrite map_length; lia|].
  rewrite He1, He2. destruct (Nat.ltb_spec (length old) 2); [lia|].
  rewrite !nan_to_num_fin, !all_fin_map. reflexivity.
Qed.

Lemma overflow_then_valid bins data : bins <> [] -> nondecreasing bins ->
  (forall x, In x data -> x <> PInf /\ x <> NaN) ->
  exists out idx valid, add_overflow_bins bins false = Ok out /\
    calculate_bin_indices (mkArr data None) (mkArr out None) = Ok (idx, valid) /\
    (forall v, In v valid -> v = true).
Proof.
  intros Hne Hd Hx.
  destruct (add_overflow_spec bins false Hne (proj1 Hd)) as (out & pre & post & E & _ & _ & _ & Hf & Hl & Hnd & _).
  destruct Hf as (e & Hf & He). assert (e = NInf) by (destruct e; simpl in He; try discriminate; auto). subst.
  destruct (bin_indices_infinite data out (Hnd Hd) Hf Hl Hx) as (idx & valid & E2 & _ & _ & Hv & _).
  exists out, idx, valid; auto.
Qed.

Lemma label_collision : exists ev bins t,
  nondecreasing bins /\ et_has_ptype ev = true /\ et_has_weight ev = true /\
  create_histogram_table ev bins "e" = Ok t /\
  getitem t "n_weighted" = Some (CZ [1%Z]) /\
  weight_of ev_w (fun e => in_range bins (ev_x e)) (et_rows ev) (1/2 + 0).
Proof.
  assert (Hnd : nondecreasing [Fin 0; Fin 2]).
  { split; [intros e [<-|[<-|[]]]; reflexivity|]. intros [|[|i]] a b Ha Hb; simpl in *; try discriminate;
      try (destruct i; discriminate).
    injection Ha as <-; injection Hb as <-. simpl. rsolve; auto. }
  exists (mkEvents [mkEvent (Fin 1) (1/2) "weighted"] true true), [Fin 0; Fin 2].
  eexists. split; [exact Hnd|]. split; [reflexivity|]. split; [reflexivity|].
  split; [apply create_histogram_table_ok; auto; discriminate|]. split.
  - unfold hist_table. cbn -[diffZ]. unfold weighted_col.
    assert (E : nth_error (diffZ (cum_counts ev_x [mkEvent (Fin 1) (1/2) "weighted"] [Fin 0; Fin 2])) 0 = Some 1%Z).
    { erewrite hist_entry; [|exact Hnd|reflexivity|reflexivity].
      unfold hist_binb. simpl. rewrite count_cons. simpl. rsolve. reflexivity. }
    pose proof (hist_length ev_x [mkEvent (Fin 1) (1/2) "weighted"] [Fin 0; Fin 2] ltac:(discriminate)) as L.
    destruct (diffZ (cum_counts ev_x [mkEvent (Fin 1) (1/2) "weighted"] [Fin 0; Fin 2])) as [|z [|]] eqn:Ez;
      simpl in L; try discriminate. simpl in E. inversion E; subst.
    unfold group. simpl. unfold np_lt. simpl. rsolve. reflexivity.
  - apply (wo_yes ev_w _ (mkEvent (Fin 1) (1/2) "weighted")); [|constructor].
    exists (Fin 0), (Fin 2). simpl. rsolve. repeat split; reflexivity.
Qed.
