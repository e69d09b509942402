(** * PercentileProofs *)
From Coq Require Import String Reals List Bool ZArith Lia Lra Permutation Sorted.
From Verif Require Import Num Numpy Sort Table Percentile SpecBinning SpecCuts BinningProofs HistProofs.
Import ListNotations.
Open Scope R_scope.

Lemma np_le_total a b : np_le a b = true \/ np_le b a = true.
Proof. destruct a, b; unfold np_le; simpl; auto. destruct (Rle_or_lt r r0); [left|right]; rcmp; lra. Qed.
Lemma np_le_trans a b c : np_le a b = true -> np_le b c = true -> np_le a c = true.
Proof. destruct a, b, c; unfold np_le; simpl; auto; intros; try discriminate. rcmp; lra. Qed.
Lemma np_le_antisym a b : np_le a b = true -> np_le b a = true -> a = b.
Proof. destruct a, b; unfold np_le; simpl; auto; intros; try discriminate. f_equal; rcmp; lra. Qed.
Lemma nsort_perm_eq l1 l2 : Permutation l1 l2 -> nsort l1 = nsort l2.
Proof. apply isort_perm_eq; [apply np_le_total|apply np_le_trans|apply np_le_antisym]. Qed.
Lemma nsort_fin rs : nsort (map Fin rs) = map Fin (sortR rs).
Proof.
  induction rs as [|r rs IH]; simpl; auto. unfold nsort, sortR in *. simpl. rewrite IH.
  generalize (isort Rleb rs). intros l. induction l as [|a l IHl]; simpl; auto.
  unfold np_le at 1. simpl. destruct (Rleb r a); simpl; auto. rewrite IHl; auto.
Qed.
Lemma np_percentile_perm l1 l2 p : Permutation l1 l2 -> np_percentile l1 p = np_percentile l2 p.
Proof. intros H. unfold np_percentile. rewrite (nsort_perm_eq _ _ H). reflexivity. Qed.
Lemma drop_nan_perm l1 l2 : Permutation l1 l2 -> Permutation (drop_nan l1) (drop_nan l2).
Proof. apply perm_filter. Qed.
Lemma nanpercentile_perm l1 l2 p : Permutation l1 l2 -> nanpercentile l1 p = nanpercentile l2 p.
Proof.
  intros H. unfold nanpercentile. pose proof (drop_nan_perm _ _ H) as Hd.
  destruct (_ || _); auto.
  destruct (drop_nan l1) as [|a l] eqn:E1; destruct (drop_nan l2) as [|b m] eqn:E2; auto.
  - apply Permutation_nil in Hd. discriminate.
  - symmetry in Hd. apply Permutation_nil in Hd. discriminate.
  - rewrite (np_percentile_perm _ _ p Hd); auto.
Qed.

Lemma Rfloor_spec x : IZR (Rfloor x) <= x < IZR (Rfloor x) + 1.
Proof. unfold Rfloor. pose proof (archimed x). rewrite minus_IZR. lra. Qed.
Lemma Rfloor_nonneg x : 0 <= x -> (0 <= Rfloor x)%Z.
Proof. intros H. pose proof (Rfloor_spec x). assert (IZR (-1) < IZR (Rfloor x)) by (simpl; lra). apply lt_IZR in H1. lia. Qed.
Lemma Rfloor_nat x : 0 <= x -> INR (Z.to_nat (Rfloor x)) <= x < INR (Z.to_nat (Rfloor x)) + 1.
Proof.
  intros H. rewrite INR_IZR_INZ, Z2Nat.id by (apply Rfloor_nonneg; auto). apply Rfloor_spec.
Qed.

Lemma sorted_nth s i j a b : StronglySorted Rle s -> (i <= j)%nat ->
  nth_error s i = Some a -> nth_error s j = Some b -> a <= b.
Proof.
  intros H; revert i j. induction H as [|x s Hs IH Hf]; intros i j Hij Ha Hb; [destruct i; discriminate|].
  destruct i as [|i], j as [|j]; simpl in Ha, Hb; try lia.
  - assert (a = b) by congruence. lra.
  - injection Ha as <-. rewrite Forall_forall in Hf. apply Hf. eapply nth_error_In; eauto.
  - apply (IH i j); auto; lia.
Qed.
Lemma ascending_sorted s : ascending s -> StronglySorted Rle s.
Proof.
  intros H. apply Sorted_StronglySorted; [intros x y z; apply Rle_trans|].
  induction s as [|x s IH]; constructor.
  - apply IH. intros i a b Ha Hb. apply (H (S i)); auto.
  - destruct s as [|y s]; constructor. apply (H 0%nat); auto.
Qed.
Lemma sorted_ascending s : StronglySorted Rle s -> ascending s.
Proof. intros H i a b Ha Hb. apply (sorted_nth s i (S i)); auto. Qed.

Lemma last_map_fin s d d' : s <> [] -> last (map Fin s) d = Fin (last s d').
Proof.
  induction s as [|x s IH]; [congruence|]. intros _. destruct s as [|y s]; auto.
  change (last (map Fin (y :: s)) d = Fin (last (y :: s) d')). apply IH. discriminate.
Qed.

Lemma nlerp_fin a b t : nlerp (Fin a) (Fin b) t = Fin (a + t * (b - a)).
Proof. unfold nlerp. simpl. destruct (Rltb t (1/2)); simpl; f_equal; lra. Qed.

(** the value computed by the model is the documented percentile *)
Lemma np_percentile_fin rs p : rs <> [] -> 0 <= p <= 100 ->
  exists r, np_percentile (map Fin rs) p = Fin r /\ linear_percentile rs p r.
Proof.
  intros Hne Hp. unfold np_percentile. rewrite nsort_fin, map_length.
  assert (Hl : length (sortR rs) = length rs) by (unfold sortR; apply isort_length).
  assert (Hn : (0 < length rs)%nat) by (destruct rs; [congruence|simpl; lia]).
  assert (En : INR (length rs - 1) = INR (length rs) - 1) by (rewrite minus_INR; simpl; [lra|lia]).
  rewrite Hl. rewrite En. set (h := p / 100 * (INR (length rs) - 1)).
  assert (Hge : 0 <= INR (length rs) - 1) by (rewrite <- En; apply pos_INR).
  assert (Hh : 0 <= h <= INR (length rs) - 1).
  { unfold h. split; [apply Rmult_le_pos; lra|].
    rewrite <- (Rmult_1_l (INR (length rs) - 1)) at 2. apply Rmult_le_compat_r; lra. }
  destruct (Rleb_spec (INR (length rs) - 1) h) as [Hle|Hgt].
  - assert (sortR rs <> []) by (intros E; rewrite E in Hl; simpl in Hl; lia).
    rewrite (last_map_fin _ _ 0) by auto. eexists; split; [reflexivity|].
    exists (sortR rs), (length rs - 1)%nat, (last (sortR rs) 0).
    split; [apply sortR_perm|]. split; [apply sorted_ascending, sortR_sorted|].
    split; [rewrite <- Hl; apply last_nth_error; auto|]. left. split; [fold h; lra|reflexivity].
  - pose proof (Rfloor_nat h (proj1 Hh)) as Hf. set (i := Z.to_nat (Rfloor h)) in *.
    assert (Hi : (i < length rs - 1)%nat) by (apply INR_lt; lra).
    destruct (nth_error_ex (sortR rs) i) as [a Ha]; [lia|].
    destruct (nth_error_ex (sortR rs) (S i)) as [b Hb]; [lia|].
    rewrite (nth_error_nth (map Fin (sortR rs)) i NaN (map_nth_error Fin i _ Ha)).
    rewrite (nth_error_nth (map Fin (sortR rs)) (S i) NaN (map_nth_error Fin (S i) _ Hb)).
    rewrite nlerp_fin. eexists; split; [reflexivity|].
    exists (sortR rs), i, a. split; [apply sortR_perm|]. split; [apply sorted_ascending, sortR_sorted|].
    split; auto. right. exists b. repeat split; auto; fold h; lra.
Qed.

Lemma finite_part_drop l rs : finite_part l rs -> drop_nan l = map Fin rs.
Proof. induction 1; simpl; auto. f_equal; auto. Qed.
Lemma finite_part_map rs : finite_part (map Fin rs) rs.
Proof. induction rs; simpl; constructor; auto. Qed.

Lemma nanpercentile_spec l rs p : finite_part l rs -> 0 <= p <= 100 ->
  exists raw, nanpercentile l p = Ok raw /\
    match rs with [] => raw = NaN | _ => exists r, raw = Fin r /\ linear_percentile rs p r end.
Proof.
  intros H Hp. unfold nanpercentile. rewrite (finite_part_drop _ _ H).
  destruct (Rltb_spec p 0); [lra|]. destruct (Rltb_spec 100 p); [lra|]. simpl.
  destruct rs as [|r rs]; simpl; [eexists; split; eauto|].
  destruct (np_percentile_fin (r :: rs) p ltac:(discriminate) Hp) as (c & E & L).
  eexists; split; [reflexivity|]. exists c. simpl in E. rewrite E. auto.
Qed.

(** ** consequences of the definition of the percentile *)
Section LP.
  Context (vals : list R) (p c : R) (H : linear_percentile vals p c) (Hp : 0 <= p <= 100).
  Lemma lp_nonempty : vals <> [].
  Proof using H.
    destruct H as (s & i & a & Hperm & _ & Ha & _). intros ->. apply Permutation_nil in Hperm. subst.
    destruct i; discriminate.
  Qed.
  Lemma lp_sorted : exists s i a, Permutation vals s /\ StronglySorted Rle s /\ nth_error s i = Some a /\ a <= c /\
    INR i <= p / 100 * (INR (length vals) - 1) /\
    exists j b, nth_error s j = Some b /\ c <= b /\ INR j < p / 100 * (INR (length vals) - 1) + 1 /\ (i <= j)%nat /\
      p / 100 * (INR (length vals) - 1) < INR i + 1.
  Proof using H.
    destruct H as (s & i & a & Hperm & Has & Ha & Hc). exists s, i, a.
    pose proof (ascending_sorted s Has) as Hs. split; auto. split; auto. split; auto.
    destruct Hc as [[Hh Hc]|(b & Hb & Hh & Hc)].
    - split; [lra|]. split; [lra|]. exists i, a. repeat split; auto; lra.
    - assert (Hab : a <= b) by (apply (Has i); auto).
      assert (0 <= (p / 100 * (INR (length vals) - 1) - INR i) * (b - a)) by (apply Rmult_le_pos; lra).
      split; [lra|]. split; [lra|].
      destruct (Rle_lt_dec (p / 100 * (INR (length vals) - 1)) (INR i)) as [Heq|Hlt].
      + exists i, a. assert (Ez : p / 100 * (INR (length vals) - 1) - INR i = 0) by lra.
        rewrite Ez in Hc. repeat split; auto; try lra. 
      + exists (S i), b. rewrite S_INR. repeat split; auto; try lra; try lia.
        subst c. assert ((p / 100 * (INR (length vals) - 1) - INR i) * (b - a) <= 1 * (b - a))
          by (apply Rmult_le_compat_r; lra). lra.
  Qed.
  Lemma firstn_all_in {A} (l : list A) i x : In x (firstn i l) -> exists j, (j < i)%nat /\ nth_error l j = Some x.
  Proof.
    intros Hx. apply In_nth_error in Hx. destruct Hx as [j Hj].
    assert (Hl : (j < length (firstn i l))%nat) by (apply nth_error_Some; congruence).
    rewrite firstn_length in Hl. exists j. split; [lia|].
    rewrite <- (firstn_skipn i l). rewrite nth_error_app1; [auto|rewrite firstn_length; lia].
  Qed.
  Lemma skipn_all_in {A} (l : list A) i x : In x (skipn i l) -> exists j, (i <= j)%nat /\ nth_error l j = Some x.
  Proof.
    intros Hx. apply In_nth_error in Hx. destruct Hx as [j Hj].
    destruct (le_lt_dec (length l) i) as [Hi|Hi].
    - rewrite skipn_all2 in Hj by lia. destruct j; discriminate.
    - exists (i + j)%nat. split; [lia|]. rewrite <- (firstn_skipn i l).
      rewrite nth_error_app2; rewrite firstn_length; [|lia]. replace (i + j - Nat.min i (length l))%nat with j by lia. auto.
  Qed.
  (** more than p/100 (n-1) entries are <= c *)
  Lemma lp_count_le : p / 100 * (INR (length vals) - 1) < INR (count (fun v => Rleb v c) vals).
  Proof using H.
    destruct lp_sorted as (s & i & a & Hperm & Hs & Ha & Hac & Hi & j & b & Hb & Hcb & Hj & Hij & Hh).
    rewrite (count_perm _ _ _ Hperm). rewrite <- (firstn_skipn (S i) s), count_app.
    rewrite (count_all _ (firstn (S i) s)).
    - assert (Hl : (i < length s)%nat) by (apply nth_error_Some; congruence).
      rewrite firstn_length, Nat.min_l by lia. rewrite plus_INR, S_INR.
      pose proof (pos_INR (count (fun v => Rleb v c) (skipn (S i) s))). lra.
    - intros x Hx. apply firstn_all_in in Hx. destruct Hx as (k & Hk & Ek). rcmp.
      assert (x <= a) by (apply (sorted_nth s k i); auto; lia). lra.
  Qed.
  (** more than (1-p/100) (n-1) entries are >= c *)
  Lemma lp_count_ge : (1 - p / 100) * (INR (length vals) - 1) < INR (count (fun v => Rleb c v) vals).
  Proof using H.
    destruct lp_sorted as (s & i & a & Hperm & Hs & Ha & Hac & Hi & j & b & Hb & Hcb & Hj & Hij & Hh).
    rewrite (count_perm _ _ _ Hperm). rewrite <- (firstn_skipn j s), count_app.
    rewrite (count_all _ (skipn j s)).
    - assert (Hl : (j < length s)%nat) by (apply nth_error_Some; congruence).
      rewrite (Permutation_length Hperm) in *. rewrite skipn_length, plus_INR, minus_INR by lia.
      pose proof (pos_INR (count (fun v => Rleb c v) (firstn j s))). lra.
    - intros x Hx. apply skipn_all_in in Hx. destruct Hx as (k & Hk & Ek). rcmp.
      assert (b <= x) by (apply (sorted_nth s j k); auto; lia). lra.
  Qed.
  Lemma lp_bounds : exists lo hi, In lo vals /\ In hi vals /\ lo <= c <= hi.
  Proof using H.
    destruct lp_sorted as (s & i & a & Hperm & Hs & Ha & Hac & Hi & j & b & Hb & Hcb & Hj & Hij & Hh).
    exists a, b. repeat split; auto; eapply Permutation_in; try (symmetry; eassumption); eapply nth_error_In; eauto.
  Qed.
End LP.

(** larger percentile, larger cut *)
Lemma lp_mono vals p q c d : 0 <= p -> p <= q -> linear_percentile vals p c -> linear_percentile vals q d -> c <= d.
Proof.
  intros Hp Hpq Hc Hd.
  pose proof (lp_nonempty vals p c Hc) as Hne.
  assert (Hn1 : 0 <= INR (length vals) - 1).
  { destruct vals; [congruence|]. simpl length. rewrite S_INR. pose proof (pos_INR (length vals)). lra. }
  destruct Hc as (s & i & a & Hperm & Has & Ha & Hc). destruct Hd as (s' & i' & a' & Hperm' & Has' & Ha' & Hd).
  assert (s = s').
  { apply (sorted_perm_eq Rleb Rleb_antisym).
    - pose proof (ascending_sorted s Has) as Hx. clear - Hx. induction Hx as [|y l Hs IH Hf]; constructor; auto.
      eapply Forall_impl; [|exact Hf]. intros z Hz. rcmp; auto.
    - pose proof (ascending_sorted s' Has') as Hx. clear - Hx. induction Hx as [|y l Hs IH Hf]; constructor; auto.
      eapply Forall_impl; [|exact Hf]. intros z Hz. rcmp; auto.
    - rewrite <- Hperm; auto. }
  subst s'. pose proof (ascending_sorted s Has) as Hs.
  set (h := p / 100 * (INR (length vals) - 1)) in *. set (k := q / 100 * (INR (length vals) - 1)) in *.
  assert (Hhk : h <= k) by (unfold h, k; apply Rmult_le_compat_r; lra).
  assert (Hii : INR i <= k) by (destruct Hc as [[? ?]|(b & ? & ? & ?)]; lra).
  destruct Hd as [[Hk Hd]|(b' & Hb' & Hk & Hd)].
  - (* position of d is i' *)
    destruct Hc as [[Hh Hc]|(b & Hb & Hh & Hc)].
    + assert (Hle : (i <= i')%nat) by (apply INR_le; lra). subst. apply (sorted_nth s i i'); auto.
    + destruct (Req_dec h (INR i)) as [E|E].
      * assert (Hle : (i <= i')%nat) by (apply INR_le; lra).
        assert (a <= a') by (apply (sorted_nth s i i'); auto). rewrite E in Hc.
        replace ((INR i - INR i) * (b - a)) with 0 in Hc by ring. lra.
      * assert (Hle : (i < i')%nat) by (apply INR_lt; lra).
        assert (b <= a') by (apply (sorted_nth s (S i) i'); auto; lia).
        assert (a <= b) by (apply (Has i); auto).
        assert ((h - INR i) * (b - a) <= 1 * (b - a)) by (apply Rmult_le_compat_r; lra). lra.
  - assert (Hab' : a' <= b') by (apply (Has i'); auto).
    assert (Hpos : 0 <= (k - INR i') * (b' - a')) by (apply Rmult_le_pos; lra).
    assert (Hle : (i <= i')%nat).
    { assert (INR i < INR (S i')) by (rewrite S_INR; lra). apply INR_lt in H. lia. }
    destruct Hc as [[Hh Hc]|(b & Hb & Hh & Hc)].
    + assert (a <= a') by (apply (sorted_nth s i i'); auto). lra.
    + assert (Hab : a <= b) by (apply (Has i); auto).
      assert (Hx : (h - INR i) * (b - a) <= 1 * (b - a)) by (apply Rmult_le_compat_r; lra).
      destruct (Nat.eq_dec i i') as [<-|Hne'].
      * assert (a = a') by congruence. assert (b = b') by congruence. subst a' b'.
        assert ((h - INR i) * (b - a) <= (k - INR i) * (b - a)) by (apply Rmult_le_compat_r; lra). lra.
      * assert (b <= a') by (apply (sorted_nth s (S i) i'); auto; lia). lra.
Qed.
