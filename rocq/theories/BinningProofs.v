(** * BinningProofs *)
From Coq Require Import String Reals List Bool ZArith Lia Lra Permutation.
From Verif Require Import Num Numpy Table Binning SpecBinning.
Import ListNotations.
Open Scope R_scope.

(** ** counting a predicate that holds on a prefix *)
Lemma prefix_count {A} (p : A -> bool) (l : list A) :
  (forall i a b, nth_error l i = Some a -> nth_error l (S i) = Some b -> p b = true -> p a = true) ->
  forall i a, nth_error l i = Some a -> (p a = true <-> (i < count p l)%nat).
Proof.
  induction l as [|x l IH]; intros Hp i a Hi; [destruct i; discriminate|].
  assert (Hp' : forall i a b, nth_error l i = Some a -> nth_error l (S i) = Some b ->
                p b = true -> p a = true)
    by (intros j; apply (Hp (S j))).
  specialize (IH Hp'). rewrite count_cons.
  destruct (p x) eqn:Ex.
  - destruct i; simpl in Hi; [inversion Hi; subst; split; intros; auto; lia|].
    rewrite (IH i a Hi). lia.
  - assert (Hc : count p l = 0%nat).
    { destruct l as [|h l']; auto.
      destruct (p h) eqn:Eh.
      - rewrite (Hp 0%nat x h) in Ex; auto; discriminate.
      - destruct (count p (h :: l')) eqn:E; auto.
        assert (p h = true) by (apply (IH 0%nat h); auto; lia). congruence. }
    destruct i; simpl in Hi; [inversion Hi; subst; rewrite Ex, Hc; split; [discriminate|lia]|].
    rewrite (IH i a Hi). lia.
Qed.

Lemma nondecreasing_tail e l : nondecreasing (e :: l) -> nondecreasing l.
Proof.
  intros [H1 H2]; split; intros.
  - apply H1; right; auto.
  - apply (H2 (S i)); auto.
Qed.
Lemma nonincreasing_tail e l : nonincreasing (e :: l) -> nonincreasing l.
Proof.
  intros [H1 H2]; split; intros.
  - apply H1; right; auto.
  - apply (H2 (S i)); auto.
Qed.

Lemma nondecreasing_le l i j a b : nondecreasing l -> (i <= j)%nat ->
  nth_error l i = Some a -> nth_error l j = Some b -> nle a b = true.
Proof.
  intros [H1 H2] Hij Ha. revert b. induction Hij as [|j Hij IH]; intros b Hb.
  - rewrite Ha in Hb; inversion Hb; subst. apply nle_refl, H1. eapply nth_error_In; eauto.
  - destruct (nth_error l j) as [c|] eqn:Ec.
    + eapply nle_trans; [apply IH; reflexivity|]. eapply H2; eauto.
    + apply nth_error_None in Ec.
      assert (S j < length l)%nat by (apply nth_error_Some; congruence). lia.
Qed.
Lemma nonincreasing_ge l i j a b : nonincreasing l -> (i <= j)%nat ->
  nth_error l i = Some a -> nth_error l j = Some b -> nle b a = true.
Proof.
  intros [H1 H2] Hij Ha. revert b. induction Hij as [|j Hij IH]; intros b Hb.
  - rewrite Ha in Hb; inversion Hb; subst. apply nle_refl, H1. eapply nth_error_In; eauto.
  - destruct (nth_error l j) as [c|] eqn:Ec.
    + eapply nle_trans; [|apply IH; reflexivity]. eapply H2; eauto.
    + apply nth_error_None in Ec.
      assert (S j < length l)%nat by (apply nth_error_Some; congruence). lia.
Qed.

Lemma mono_up_nondec e l : nondecreasing (e :: l) -> mono_up e l = true.
Proof.
  revert e; induction l as [|x l IH]; intros e H; auto. simpl.
  assert (nle e x = true) by (destruct H as [_ H]; apply (H 0%nat); auto).
  unfold ngt. rewrite nle_not_lt; auto. apply IH. eapply nondecreasing_tail; eauto.
Qed.
Lemma mono_down_noninc e l : nonincreasing (e :: l) -> mono_down e l = true.
Proof.
  revert e; induction l as [|x l IH]; intros e H; auto. simpl.
  assert (nle x e = true) by (destruct H as [_ H]; apply (H 0%nat); auto).
  rewrite nle_not_lt; auto. apply IH. eapply nonincreasing_tail; eauto.
Qed.
Lemma skip_equal_nondec e l : nondecreasing (e :: l) ->
  match skip_equal e l with
  | [] => True | n :: r => nlt e n = true /\ nondecreasing (n :: r) end.
Proof.
  revert e; induction l as [|x l IH]; intros e H; simpl; auto.
  destruct (neqb x e) eqn:E.
  - apply neqb_eq in E as [-> _]. apply IH. eapply nondecreasing_tail; eauto.
  - split; [|eapply nondecreasing_tail; eauto].
    destruct H as [H1 H2].
    assert (Hle : nle e x = true) by (apply (H2 0%nat); auto).
    destruct (nlt e x) eqn:El; auto.
    assert (x = e).
    { apply nle_antisym; auto. apply not_nlt_le; auto; apply H1; simpl; auto. }
    subst. assert (neqb e e = true) by (apply neqb_eq; split; auto; apply H1; simpl; auto). congruence.
Qed.
Lemma monotonicity_nondec l : nondecreasing l -> monotonicity l = 1%Z.
Proof.
  destruct l as [|e l]; intros H; auto. simpl.
  pose proof (skip_equal_nondec e l H) as Hs. destruct (skip_equal e l) as [|n r]; auto.
  destruct Hs as [-> Hn]. rewrite mono_up_nondec; auto.
Qed.
Lemma skip_equal_noninc e l : nonincreasing (e :: l) ->
  match skip_equal e l with
  | [] => forall x, In x l -> x = e | n :: r => nlt e n = false /\ nonincreasing (n :: r) end.
Proof.
  revert e; induction l as [|x l IH]; intros e H; simpl; [tauto|].
  destruct (neqb x e) eqn:E.
  - apply neqb_eq in E as [-> _]. specialize (IH e (nonincreasing_tail _ _ H)).
    destruct (skip_equal e l); auto. intros y [<-|Hy]; auto.
  - split; [|eapply nonincreasing_tail; eauto].
    apply nle_not_lt. apply (proj2 H 0%nat); auto.
Qed.
Lemma monotonicity_noninc l a b : nonincreasing l ->
  first_edge l a -> last_edge l b -> a <> b -> monotonicity l = (-1)%Z.
Proof.
  destruct l as [|e l]; intros H Ha Hb Hn; [discriminate|]. simpl.
  pose proof (skip_equal_noninc e l H) as Hs. destruct (skip_equal e l) as [|n r].
  - exfalso. unfold first_edge, last_edge in *. simpl in Ha. inversion Ha; subst.
    simpl in Hb. rewrite Nat.sub_0_r in Hb. destruct l; simpl in Hb; [congruence|].
    apply Hn. symmetry. apply Hs. eapply nth_error_In; eauto.
  - destruct Hs as [-> Hs]. rewrite mono_down_noninc; auto.
Qed.

(** ** the index of one value, increasing edges *)
Lemma np_lt_nonan x e : is_nan e = false -> np_lt x e = nlt x e.
Proof. intros H; unfold np_lt; rewrite H, andb_false_r, orb_false_r; auto. Qed.

Lemma ss_right_nonan x l : (forall e, In e l -> is_nan e = false) ->
  searchsorted_right l x = count (fun e => negb (nlt x e)) l.
Proof. intros H. apply count_ext. intros e He. rewrite np_lt_nonan; auto. Qed.

Lemma count_all {A} (p : A -> bool) l : (forall x, In x l -> p x = true) -> count p l = length l.
Proof.
  induction l as [|a l IH]; intros H; auto. rewrite count_cons, H, IH; auto;
    [intros; apply H; right; auto|left; auto].
Qed.

Lemma nth_error_ex {A} (l : list A) i : (i < length l)%nat -> exists a, nth_error l i = Some a.
Proof. intros H. destruct (nth_error l i) eqn:E; eauto. apply nth_error_None in E; lia. Qed.

Lemma nlt_nan_x x : nlt NaN x = false. Proof. reflexivity. Qed.

Lemma bin_index1_inc edges x : nondecreasing edges -> edges <> [] ->
  exists z v, bin_index1 edges x = Ok (z, v) /\ bin_outcome edges x z v.
Proof.
  intros H Hne. unfold bin_index1, digitize1. rewrite monotonicity_nondec; auto. simpl.
  rewrite ss_right_nonan by apply H.
  set (p := fun e => negb (nlt x e)). set (c := count p edges).
  assert (Hc : (c <= length edges)%nat) by apply count_bound.
  assert (Hl : (0 < length edges)%nat) by (destruct edges; simpl; try lia; congruence).
  destruct (is_nan x) eqn:Ex.
  - assert (c = length edges).
    { apply count_all. intros e _. destruct x; try discriminate. reflexivity. }
    destruct (nth_error_ex edges (length edges - 1)) as [el Hel]; [lia|].
    destruct (Z.ltb_spec (Z.of_nat c - 1) 0) as [|_]; [lia|].
    destruct (Z.leb_spec (Z.of_nat (length edges) - 1) (Z.of_nat c - 1)) as [_|]; [|lia].
    do 2 eexists; split; [reflexivity|]. simpl. eapply above; [exact Hel|].
    destruct x; try discriminate; auto.
  - assert (Hp : forall i a, nth_error edges i = Some a -> (p a = true <-> (i < c)%nat)).
    { apply prefix_count. intros i a b Ha Hb Hpb. unfold p in *.
      apply negb_true_iff in Hpb. apply negb_true_iff.
      destruct (nlt x a) eqn:E; auto.
      rewrite (nlt_le_trans x a b) in Hpb; auto. eapply H; eauto. }
    assert (Hpb : forall a, In a edges -> p a = false -> nlt x a = true).
    { intros a _ Hpa. unfold p in Hpa. apply negb_false_iff in Hpa; auto. }
    assert (Hpt : forall a, In a edges -> p a = true -> nle a x = true).
    { intros a Ha Hpa. unfold p in Hpa. apply negb_true_iff in Hpa.
      apply not_nlt_le; auto. apply H; auto. }
    destruct (Z.ltb_spec (Z.of_nat c - 1) 0) as [Hu|Hu].
    + destruct (nth_error_ex edges 0 Hl) as [e0 He0].
      assert (Hx : nlt x e0 = true).
      { apply Hpb; [eapply nth_error_In; eauto|].
        destruct (p e0) eqn:E; auto. apply (Hp _ _ He0) in E. lia. }
      destruct (Z.leb_spec (Z.of_nat (length edges) - 1) (Z.of_nat c - 1)) as [Ho|Ho]; [lia|].
      do 2 eexists; split; [reflexivity|]. simpl. eapply below; eauto.
    + destruct (Z.leb_spec (Z.of_nat (length edges) - 1) (Z.of_nat c - 1)) as [Ho|Ho].
      * destruct (nth_error_ex edges (length edges - 1)) as [el Hel]; [lia|].
        do 2 eexists; split; [reflexivity|]. simpl. eapply above; [exact Hel|].
        left. apply Hpt; [eapply nth_error_In; eauto|]. apply (Hp _ _ Hel). lia.
      * destruct (nth_error_ex edges (c - 1)) as [lo Hlo]; [lia|].
        destruct (nth_error_ex edges c) as [hi Hhi]; [lia|].
        do 2 eexists; split; [reflexivity|].
        replace (Z.of_nat c - 1)%Z with (Z.of_nat (c - 1)) by lia. simpl. apply inside.
        exists lo, hi. repeat split; auto.
        -- replace (S (c - 1)) with c by lia; auto.
        -- apply Hpt; [eapply nth_error_In; eauto|]. apply (Hp _ _ Hlo); lia.
        -- apply Hpb; [eapply nth_error_In; eauto|].
           destruct (p hi) eqn:E; auto. apply (Hp _ _ Hhi) in E. lia.
Qed.

Lemma in_bin_unique edges x k k' : nondecreasing edges ->
  in_bin edges k x -> in_bin edges k' x -> k = k'.
Proof.
  assert (Hw : forall k k', nondecreasing edges -> in_bin edges k x -> in_bin edges k' x -> (k < k')%nat -> False).
  { intros i j H (lo & hi & H1 & H2 & H3 & H4) (lo' & hi' & H1' & H2' & H3' & H4') Hlt.
    assert (nle hi lo' = true) by (eapply (nondecreasing_le edges (S i) j); eauto).
    pose proof (nlt_le_trans _ _ _ H4 H0) as H5.
    apply nlt_not_le in H5. congruence. }
  intros H Hk Hk'. destruct (Nat.lt_trichotomy k k') as [?|[?|?]]; auto; exfalso; eauto.
Qed.

Lemma bin_outcome_functional edges x z v z' v' : nondecreasing edges ->
  bin_outcome edges x z v -> bin_outcome edges x z' v' -> z = z' /\ v = v'.
Proof.
  intros H.
  assert (Hib : forall k e, in_bin edges k x -> first_edge edges e -> nlt x e = true -> False).
  { intros k e (lo & hi & H1 & H2 & H3 & H4) Hf Hx.
    assert (nle e lo = true) by (eapply (nondecreasing_le edges 0 k); eauto; lia).
    pose proof (nlt_le_trans _ _ _ Hx H0) as Hq. apply nlt_not_le in Hq. congruence. }
  assert (Hia : forall k e, in_bin edges k x -> last_edge edges e -> nle e x = true \/ x = NaN -> False).
  { intros k e (lo & hi & H1 & H2 & H3 & H4) Hf [Hx| ->]; [|destruct lo; discriminate].
    assert (S k < length edges)%nat by (apply nth_error_Some; congruence).
    assert (nle hi e = true) by (eapply (nondecreasing_le edges (S k) (length edges - 1)); eauto; lia).
    pose proof (nle_lt_trans _ _ _ Hx H4) as Hq. apply nlt_not_le in Hq. congruence. }
  assert (Hba : forall e e', first_edge edges e -> nlt x e = true -> last_edge edges e' ->
                 nle e' x = true \/ x = NaN -> False).
  { intros e e' Hf Hx Hl [Hx'| ->]; [|discriminate].
    assert (nle e e' = true) by (eapply (nondecreasing_le edges 0 (length edges - 1)); eauto; lia).
    pose proof (nlt_le_trans _ _ _ Hx H0) as Hq. apply nlt_not_le in Hq. congruence. }
  intros H1 H2; inversion H1; inversion H2; subst; auto; try (exfalso; eauto; fail).
  assert (k = k0) by (eapply in_bin_unique; eauto). subst; auto.
Qed.

(** decreasing edges *)
Lemma bin_index1_dec edges a b x : nonincreasing edges ->
  first_edge edges a -> last_edge edges b -> a <> b ->
  exists z v, bin_index1 edges x = Ok (z, v) /\ bin_outcome_dec edges x z v.
Proof.
  intros H Ha Hb Hab. unfold bin_index1, digitize1.
  rewrite (monotonicity_noninc edges a b); auto. simpl.
  assert (Hss : (length edges - searchsorted_right (rev edges) x)%nat = count (fun e => nlt x e) edges).
  { unfold searchsorted_right. rewrite <- (count_perm _ _ _ (Permutation_rev edges)).
    assert (Hsum : (count (fun e => nlt x e) edges + count (fun e => negb (np_lt x e)) edges = length edges)%nat).
    { clear -H. destruct H as [H _]. induction edges as [|e l IH]; auto. rewrite !count_cons.
      rewrite np_lt_nonan by (apply H; left; auto). simpl.
      specialize (IH (fun y Hy => H y (or_intror Hy))). destruct (nlt x e); simpl; lia. }
    lia. }
  rewrite Hss.
  set (p := fun e => nlt x e). set (c := count p edges).
  assert (Hc : (c <= length edges)%nat) by apply count_bound.
  assert (Hl : (0 < length edges)%nat) by (destruct edges; simpl; try lia; discriminate).
  assert (Hp : forall i a, nth_error edges i = Some a -> (p a = true <-> (i < c)%nat)).
  { apply prefix_count. intros i u v Hu Hv Hpv. unfold p in *.
    apply (nlt_le_trans x v u); auto. eapply H; eauto. }
  assert (Hpf : forall e, In e edges -> p e = false -> nle e x = true \/ x = NaN).
  { intros e He Hpe. destruct (is_nan x) eqn:Ex; [destruct x; try discriminate; auto|].
    left. apply not_nlt_le; auto. apply H; auto. }
  destruct (Z.ltb_spec (Z.of_nat c - 1) 0) as [Hu|Hu].
  - assert (Hx : nle a x = true \/ x = NaN).
    { apply Hpf; [eapply nth_error_In; eauto|].
      destruct (p a) eqn:E; auto. apply (Hp _ _ Ha) in E. lia. }
    destruct (Z.leb_spec (Z.of_nat (length edges) - 1) (Z.of_nat c - 1)) as [Ho|Ho].
    { assert (length edges = 1)%nat by lia. unfold first_edge, last_edge in *.
      rewrite H0 in Hb. simpl in Ha, Hb. congruence. }
    do 2 eexists; split; [reflexivity|]. simpl. eapply below_dec; eauto.
  - destruct (Z.leb_spec (Z.of_nat (length edges) - 1) (Z.of_nat c - 1)) as [Ho|Ho].
    + do 2 eexists; split; [reflexivity|]. simpl. eapply above_dec; [exact Hb|].
      apply (Hp _ _ Hb). lia.
    + destruct (nth_error_ex edges (c - 1)) as [lo Hlo]; [lia|].
      destruct (nth_error_ex edges c) as [hi Hhi]; [lia|].
      do 2 eexists; split; [reflexivity|].
      replace (Z.of_nat c - 1)%Z with (Z.of_nat (c - 1)) by lia. simpl. apply inside_dec.
      exists lo, hi. repeat split; auto.
      * replace (S (c - 1)) with c by lia; auto.
      * apply (Hp _ _ Hlo); lia.
      * destruct (Hpf hi) as [?| ->]; auto; [eapply nth_error_In; eauto| |].
        -- destruct (p hi) eqn:E; auto. apply (Hp _ _ Hhi) in E. lia.
        -- exfalso. assert (p lo = true) by (apply (Hp _ _ Hlo); lia). discriminate.
Qed.

(** ** lifting to arrays *)
Lemma rmap_ok {A B} (f : A -> res B) l :
  (forall x, In x l -> exists b, f x = Ok b) -> exists bs, rmap f l = Ok bs /\
   length bs = length l /\
   forall i x, nth_error l i = Some x -> exists b, nth_error bs i = Some b /\ f x = Ok b.
Proof.
  induction l as [|a l IH]; intros H.
  - exists []; split; [reflexivity|split; auto]. intros [|i] x; discriminate.
  - destruct (H a (or_introl eq_refl)) as [b Hb].
    destruct IH as (bs & Hbs & Hlen & Hi); [intros; apply H; right; auto|].
    exists (b :: bs). simpl. rewrite Hb. simpl. rewrite Hbs. simpl.
    split; auto. split; [auto|]. intros [|i] x Hx; simpl in *; [inversion Hx; subst; eauto|auto].
Qed.

Lemma bin_indices_general (P : num -> Z -> bool -> Prop) data edges :
  monotonicity edges <> 0%Z ->
  (forall x, exists z v, bin_index1 edges x = Ok (z, v) /\ P x z v) ->
  exists idx valid, calculate_bin_indices_raw data edges = Ok (idx, valid) /\
    length idx = length data /\ length valid = length data /\
    forall i x, nth_error data i = Some x ->
      exists z v, nth_error idx i = Some z /\ nth_error valid i = Some v /\ P x z v.
Proof.
  intros Hm HP. unfold calculate_bin_indices_raw.
  destruct (Z.eqb_spec (monotonicity edges) 0) as [|_]; [contradiction|].
  destruct (rmap_ok (bin_index1 edges) data) as (bs & Hbs & Hlen & Hi).
  { intros x _. destruct (HP x) as (z & v & Hz & _). eauto. }
  rewrite Hbs. simpl. exists (map fst bs), (map snd bs). rewrite !map_length.
  repeat split; auto. intros i x Hx. destruct (Hi i x Hx) as ([z v] & Hb & Hf).
  destruct (HP x) as (z' & v' & Hz & Hp). rewrite Hz in Hf. inversion Hf; subst.
  exists z, v. rewrite !nth_error_map, Hb. auto.
Qed.

Lemma bin_indices_inc data edges : nondecreasing edges -> edges <> [] ->
  exists idx valid, calculate_bin_indices (mkArr data None) (mkArr edges None) = Ok (idx, valid) /\
    length idx = length data /\ length valid = length data /\
    forall i x, nth_error data i = Some x ->
      exists z v, nth_error idx i = Some z /\ nth_error valid i = Some v /\ bin_outcome edges x z v.
Proof.
  intros H Hne. change (calculate_bin_indices (mkArr data None) (mkArr edges None))
    with (calculate_bin_indices_raw data edges).
  apply (bin_indices_general (bin_outcome edges)).
  - rewrite monotonicity_nondec; auto. lia.
  - intros x. apply bin_index1_inc; auto.
Qed.
Lemma bin_indices_dec data edges a b : nonincreasing edges ->
  first_edge edges a -> last_edge edges b -> a <> b ->
  exists idx valid, calculate_bin_indices (mkArr data None) (mkArr edges None) = Ok (idx, valid) /\
    length idx = length data /\ length valid = length data /\
    forall i x, nth_error data i = Some x ->
      exists z v, nth_error idx i = Some z /\ nth_error valid i = Some v /\ bin_outcome_dec edges x z v.
Proof.
  intros H Ha Hb Hab. change (calculate_bin_indices (mkArr data None) (mkArr edges None))
    with (calculate_bin_indices_raw data edges).
  apply (bin_indices_general (bin_outcome_dec edges)).
  - rewrite (monotonicity_noninc edges a b); auto. lia.
  - intros x. eapply bin_index1_dec; eauto.
Qed.

(** non-monotonic edges: some step goes up and some step goes down *)
Lemma mono_up_true last l : mono_up last l = true ->
  forall i a b, nth_error (last :: l) i = Some a -> nth_error (last :: l) (S i) = Some b -> nlt b a = false.
Proof.
  revert last; induction l as [|x l IH]; intros last H i a b Ha Hb.
  - destruct i; simpl in Hb; [discriminate|destruct i; discriminate].
  - simpl in H. unfold ngt in H. destruct (nlt x last) eqn:E; [discriminate|].
    destruct i; simpl in Ha, Hb; [inversion Ha; inversion Hb; subst; auto|].
    eapply IH; eauto.
Qed.
Lemma mono_down_true last l : mono_down last l = true ->
  forall i a b, nth_error (last :: l) i = Some a -> nth_error (last :: l) (S i) = Some b -> nlt a b = false.
Proof.
  revert last; induction l as [|x l IH]; intros last H i a b Ha Hb.
  - destruct i; simpl in Hb; [discriminate|destruct i; discriminate].
  - simpl in H. destruct (nlt last x) eqn:E; [discriminate|].
    destruct i; simpl in Ha, Hb; [inversion Ha; inversion Hb; subst; auto|].
    eapply IH; eauto.
Qed.
Lemma skip_equal_steps e l (Q : num -> num -> Prop) :
  (forall a, Q a a) -> Q e match skip_equal e l with [] => e | n :: _ => n end ->
  (forall i a b, nth_error (skip_equal e l) i = Some a -> nth_error (skip_equal e l) (S i) = Some b -> Q a b) ->
  forall i a b, nth_error (e :: l) i = Some a -> nth_error (e :: l) (S i) = Some b -> Q a b.
Proof.
  intros Hr. revert e; induction l as [|x l IH]; intros e H1 H2 i a b Ha Hb.
  - destruct i; simpl in Hb; [discriminate|destruct i; discriminate].
  - simpl in H1, H2. destruct (neqb x e) eqn:E.
    + apply neqb_eq in E as [-> _]. destruct i; simpl in Ha, Hb; [inversion Ha; inversion Hb; subst; auto|].
      eapply IH; eauto.
    + destruct i; simpl in Ha, Hb; [inversion Ha; inversion Hb; subst; auto|].
      eapply (H2 i); eauto.
Qed.
Lemma monotonicity_zero edges i j a b c d :
  nth_error edges i = Some a -> nth_error edges (S i) = Some b -> nlt a b = true ->
  nth_error edges j = Some c -> nth_error edges (S j) = Some d -> nlt d c = true ->
  monotonicity edges = 0%Z.
Proof.
  intros Ha Hb Hab Hc Hd Hdc. destruct edges as [|e l]; [destruct i; discriminate|]. simpl.
  destruct (skip_equal e l) as [|n r] eqn:Es.
  { exfalso. assert (a = b).
    { refine (skip_equal_steps e l eq _ _ _ i a b Ha Hb); auto; rewrite Es; auto.
      intros [|k]; discriminate. }
    subst. rewrite nlt_irrefl in Hab; discriminate. }
  destruct (nlt e n) eqn:En.
  - destruct (mono_up n r) eqn:Em; auto. exfalso.
    assert (nlt d c = false).
    { refine (skip_equal_steps e l (fun a b => nlt b a = false) _ _ _ j c d Hc Hd).
      - intros; apply nlt_irrefl.
      - rewrite Es. apply nle_not_lt, nlt_nle; auto.
      - rewrite Es. apply mono_up_true; auto. }
    congruence.
  - destruct (mono_down n r) eqn:Em; auto. exfalso.
    assert (nlt a b = false).
    { refine (skip_equal_steps e l (fun a b => nlt a b = false) _ _ _ i a b Ha Hb).
      - intros; apply nlt_irrefl.
      - rewrite Es; auto.
      - rewrite Es. apply mono_down_true; auto. }
    congruence.
Qed.
Lemma bin_indices_nonmono data edges i j a b c d :
  nth_error edges i = Some a -> nth_error edges (S i) = Some b -> nlt a b = true ->
  nth_error edges j = Some c -> nth_error edges (S j) = Some d -> nlt d c = true ->
  calculate_bin_indices (mkArr data None) (mkArr edges None) = Err ValueError.
Proof.
  intros. unfold calculate_bin_indices, calculate_bin_indices_raw; simpl.
  rewrite (monotonicity_zero edges i j a b c d); auto.
Qed.

(** ** C02 *)
Lemma bin_indices_infinite data edges : nondecreasing edges ->
  first_edge edges NInf -> last_edge edges PInf ->
  (forall x, In x data -> x <> PInf /\ x <> NaN) ->
  exists idx valid, calculate_bin_indices (mkArr data None) (mkArr edges None) = Ok (idx, valid) /\
    length idx = length data /\ length valid = length data /\
    (forall v, In v valid -> v = true) /\
    (forall z, In z idx -> (0 <= z < Z.of_nat (length edges) - 1)%Z).
Proof.
  intros H H0 H1 Hd.
  assert (Hne : edges <> []) by (intros ->; discriminate).
  destruct (bin_indices_inc data edges H Hne) as (idx & valid & Heq & L1 & L2 & Hi).
  exists idx, valid. repeat split; auto.
  - intros v Hv. apply In_nth_error in Hv as [i Hv].
    assert (i < length data)%nat by (rewrite <- L2; apply nth_error_Some; congruence).
    destruct (nth_error_ex data i H2) as [x Hx]. destruct (Hi i x Hx) as (z & v' & Hz & Hv' & Ho).
    rewrite Hv in Hv'; inversion Hv'; subst. destruct (Hd x); [eapply nth_error_In; eauto|].
    inversion Ho; subst; auto; exfalso.
    + unfold first_edge in *. rewrite H0 in H5. inversion H5; subst. destruct x; discriminate.
    + unfold last_edge in *. rewrite H1 in H5. inversion H5; subst.
      destruct H6 as [H6| ->]; [|congruence]. destruct x; simpl in *; try discriminate; congruence.
  - apply In_nth_error in H2 as [i Hz].
    assert (i < length data)%nat by (rewrite <- L1; apply nth_error_Some; congruence).
    destruct (nth_error_ex data i H2) as [x Hx]. destruct (Hi i x Hx) as (z' & v' & Hz' & Hv' & Ho).
    rewrite Hz in Hz'; inversion Hz'; subst. destruct (Hd x); [eapply nth_error_In; eauto|].
    inversion Ho; subst; try lia; exfalso.
    + unfold first_edge in *. rewrite H0 in H5. inversion H5; subst. destruct x; discriminate.
    + unfold last_edge in *. rewrite H1 in H5. inversion H5; subst.
      destruct H6 as [H6| ->]; [|congruence]. destruct x; simpl in *; try discriminate; congruence.
  - apply In_nth_error in H2 as [i Hz].
    assert (i < length data)%nat by (rewrite <- L1; apply nth_error_Some; congruence).
    destruct (nth_error_ex data i H2) as [x Hx]. destruct (Hi i x Hx) as (z' & v' & Hz' & Hv' & Ho).
    rewrite Hz in Hz'; inversion Hz'; subst. destruct (Hd x); [eapply nth_error_In; eauto|].
    inversion Ho; subst.
    + destruct H5 as (lo & hi & _ & Hh & _).
      assert (S k < length edges)%nat by (apply nth_error_Some; congruence). lia.
    + exfalso. unfold first_edge in *. rewrite H0 in H5. inversion H5; subst. destruct x; discriminate.
    + exfalso. unfold last_edge in *. rewrite H1 in H5. inversion H5; subst.
      destruct H6 as [H6| ->]; [|congruence]. destruct x; simpl in *; try discriminate; congruence.
Qed.

Lemma bin_indices_infinite_refuted (x : num) (edges : list num) :
  x = PInf \/ x = NaN -> nondecreasing edges -> first_edge edges NInf -> last_edge edges PInf ->
  calculate_bin_indices (mkArr [x] None) (mkArr edges None) = Ok ([INT64_MAX], [false]).
Proof.
  intros Hx H H0 H1.
  assert (Hne : edges <> []) by (intros ->; discriminate).
  destruct (bin_indices_inc [x] edges H Hne) as (idx & valid & Heq & L1 & L2 & Hi).
  rewrite Heq. destruct (Hi 0%nat x eq_refl) as (z & v & Hz & Hv & Ho).
  destruct idx as [|z' [|]]; simpl in L1; try discriminate. destruct valid as [|v' [|]]; simpl in L2; try discriminate.
  simpl in *. inversion Hz; inversion Hv; subst.
  assert (bin_outcome edges x INT64_MAX false).
  { eapply above; [exact H1|]. destruct Hx as [-> | ->]; [left; reflexivity|auto]. }
  destruct (bin_outcome_functional _ _ _ _ _ _ H Ho H2). subst; auto.
Qed.

(** ** C03: units *)
Lemma nlt_scale c x y : 0 < c -> nlt (nmul (Fin c) x) (nmul (Fin c) y) = nlt x y.
Proof.
  intros Hc. destruct x, y; simpl; unfold inf_signed; rsolve; auto.
  destruct (Rltb_spec r r0), (Rltb_spec (c * r) (c * r0)); auto; exfalso.
  - apply n. apply Rmult_lt_compat_l; auto.
  - apply n. apply Rmult_lt_reg_l with c; auto.
Qed.
Lemma nle_scale c x y : 0 < c -> nle (nmul (Fin c) x) (nmul (Fin c) y) = nle x y.
Proof.
  intros Hc. destruct x, y; simpl; unfold inf_signed; rsolve; auto.
  destruct (Rleb_spec r r0), (Rleb_spec (c * r) (c * r0)); auto; exfalso.
  - apply n. apply Rmult_le_compat_l; lra.
  - apply n. apply Rmult_le_reg_l with c; auto.
Qed.
Lemma neqb_scale c x y : 0 < c -> neqb (nmul (Fin c) x) (nmul (Fin c) y) = neqb x y.
Proof.
  intros Hc. destruct x, y; simpl; unfold inf_signed; rsolve; auto.
  destruct (Reqb_spec r r0), (Reqb_spec (c * r) (c * r0)); auto; exfalso.
  - apply n; subst; auto.
  - apply n. apply Rmult_eq_reg_l with c; lra.
Qed.
Lemma is_nan_scale c x : 0 < c -> is_nan (nmul (Fin c) x) = is_nan x.
Proof. intros Hc. destruct x; simpl; unfold inf_signed; rsolve; auto. Qed.

Section Scale.
  Variable c : R.
  Hypothesis Hc : 0 < c.
  Let f := nmul (Fin c).
  Lemma mono_up_scale last l : mono_up (f last) (map f l) = mono_up last l.
  Proof. revert last; induction l as [|x l IH]; intros; simpl; auto. unfold ngt, f. rewrite nlt_scale, <- IH; auto. Qed.
  Lemma mono_down_scale last l : mono_down (f last) (map f l) = mono_down last l.
  Proof. revert last; induction l as [|x l IH]; intros; simpl; auto. unfold f. rewrite nlt_scale, <- IH; auto. Qed.
  Lemma skip_equal_scale last l : skip_equal (f last) (map f l) = map f (skip_equal last l).
  Proof.
    revert last; induction l as [|x l IH]; intros; simpl; auto. unfold f at 1 2. rewrite neqb_scale; auto.
    destruct (neqb x last); auto.
  Qed.
  Lemma monotonicity_scale l : monotonicity (map f l) = monotonicity l.
  Proof.
    destruct l as [|x l]; auto. simpl. rewrite skip_equal_scale. destruct (skip_equal x l) as [|n r]; auto.
    simpl. rewrite mono_up_scale, mono_down_scale. unfold f; rewrite nlt_scale; auto.
  Qed.
  Lemma np_lt_scale x y : np_lt (f x) (f y) = np_lt x y.
  Proof. unfold np_lt, f. rewrite nlt_scale, !is_nan_scale; auto. Qed.
  Lemma ss_right_scale l x : searchsorted_right (map f l) (f x) = searchsorted_right l x.
  Proof. unfold searchsorted_right. rewrite count_map. apply count_ext. intros; rewrite np_lt_scale; auto. Qed.
  Lemma bin_index1_scale l x : bin_index1 (map f l) (f x) = bin_index1 l x.
  Proof.
    unfold bin_index1, digitize1. rewrite monotonicity_scale, map_length, <- map_rev, !ss_right_scale. auto.
  Qed.
  Lemma bin_indices_scale data l :
    calculate_bin_indices_raw (map f data) (map f l) = calculate_bin_indices_raw data l.
  Proof.
    unfold calculate_bin_indices_raw. rewrite monotonicity_scale. destruct (Z.eqb _ _); auto.
    assert (E : rmap (bin_index1 (map f l)) (map f data) = rmap (bin_index1 l) data).
    { induction data as [|x data IH]; simpl; auto. rewrite bin_index1_scale, IH. auto. }
    rewrite E; auto.
  Qed.
End Scale.

Lemma nmul_assoc_fin a b x : 0 < a -> 0 < b -> nmul (Fin a) (nmul (Fin b) x) = nmul (Fin (a * b)) x.
Proof.
  intros Ha Hb. assert (0 < a * b) by (apply Rmult_lt_0_compat; auto).
  destruct x; simpl; unfold inf_signed; rsolve; auto. simpl. unfold inf_signed; rsolve; auto. f_equal; ring.
Qed.
Lemma nmul_1 x : nmul (Fin 1) x = x.
Proof. destruct x; simpl; unfold inf_signed; rsolve; auto. f_equal; ring. Qed.

Lemma convert_same u x : 0 < u_scale u -> convert_val u u x = x.
Proof. intros; unfold convert_val. replace (u_scale u / u_scale u) with 1 by (field; lra). apply nmul_1. Qed.
Lemma convert_twice u1 u2 u3 x : 0 < u_scale u1 -> 0 < u_scale u2 -> 0 < u_scale u3 ->
  convert_val u2 u3 (convert_val u1 u2 x) = convert_val u1 u3 x.
Proof.
  intros. unfold convert_val. rewrite nmul_assoc_fin by (apply Rdiv_lt_0_compat; auto).
  f_equal. f_equal. field; lra.
Qed.
Lemma map_convert_same u l : 0 < u_scale u -> map (convert_val u u) l = l.
Proof. intros; rewrite <- (map_id l) at 2. apply map_ext. intros; apply convert_same; auto. Qed.

Lemma bin_indices_units data bins ud ub ud' ub' :
  0 < u_scale ud -> 0 < u_scale ub -> 0 < u_scale ud' -> 0 < u_scale ub' ->
  u_dim ud = u_dim ub -> u_dim ud' = u_dim ud -> u_dim ub' = u_dim ud ->
  calculate_bin_indices (mkArr (map (convert_val ud ud') data) (Some ud'))
                        (mkArr (map (convert_val ub ub') bins) (Some ub'))
  = calculate_bin_indices (mkArr data (Some ud)) (mkArr bins (Some ub)).
Proof.
  intros H1 H2 H3 H4 D1 D2 D3. unfold calculate_bin_indices, to_value; simpl.
  rewrite !Nat.eqb_refl. rewrite D3, D2, <- D1, !Nat.eqb_refl. simpl.
  rewrite !map_convert_same by auto.
  assert (E : map (convert_val ub' ud') (map (convert_val ub ub') bins)
              = map (convert_val ud ud') (map (convert_val ub ud) bins)).
  { rewrite !map_map. apply map_ext. intros; rewrite !convert_twice; auto. }
  rewrite E. unfold convert_val at 1 2. apply bin_indices_scale. apply Rdiv_lt_0_compat; auto.
Qed.
Lemma bin_indices_same_unit data bins u : 0 < u_scale u ->
  calculate_bin_indices (mkArr data (Some u)) (mkArr bins (Some u))
  = calculate_bin_indices (mkArr data None) (mkArr bins None).
Proof.
  intros H. unfold calculate_bin_indices, to_value; simpl. rewrite Nat.eqb_refl. simpl.
  rewrite !map_convert_same; auto.
Qed.
Lemma bin_indices_wrong_dim data bins ud ub : u_dim ud <> u_dim ub ->
  calculate_bin_indices (mkArr data (Some ud)) (mkArr bins (Some ub)) = Err UnitConversionError.
Proof.
  intros H. unfold calculate_bin_indices, to_value; simpl. rewrite Nat.eqb_refl. simpl.
  destruct (Nat.eqb_spec (u_dim ub) (u_dim ud)); auto. congruence.
Qed.
