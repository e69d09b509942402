(** * TensorProofs *)
From Coq Require Import Reals List Bool ZArith Arith Lia Lra.
From Verif Require Import Num Numpy Lists SpecBinning BinningProofs HistProofs Tensor.
Import ListNotations.
Open Scope R_scope.

(** ** histogramdd *)
Lemma neqb_eq x y : neqb x y = true <-> x = y /\ is_nan x = false.
Proof.
  destruct x, y; cbn; split; intros H; try discriminate; auto; try (destruct H; discriminate).
  - apply Reqb_true in H. subst; auto.
  - destruct H as [H _]. injection H as ->. apply Reqb_true; auto.
Qed.
Lemma nlt_nle x y : nlt x y = true -> nle x y = true.
Proof. destruct x, y; cbn; auto; try discriminate. intros H. rcmp. lra. Qed.
Lemma nle_neq x y : nle x y = true -> neqb x y = false -> nlt x y = true.
Proof. destruct x, y; cbn; auto; try discriminate. intros H1 H2. rcmp. lra. Qed.
Section Hdd.
Variables (edges : list num) (x : num).
Hypotheses (Hnd : nondecreasing edges) (Hlen : (2 <= length edges)%nat).
Let c := searchsorted_right edges x.
Let n := length edges.
Lemma last_nth : nth_error edges (n - 1) = Some (last edges NaN).
Proof. unfold n. apply last_nth_error. intros ->. cbn in Hlen. lia. Qed.
Lemma c_le : (c <= n)%nat.
Proof. unfold c. apply count_bound. Qed.
Lemma c_nan : is_nan x = true -> c = n.
Proof.
  intros E. unfold c. rewrite ss_right_nonan by apply Hnd. apply count_all. intros e _. destruct x; try discriminate. reflexivity.
Qed.
Lemma c_prefix : is_nan x = false -> forall i a, nth_error edges i = Some a -> (nle a x = true <-> (i < c)%nat) /\ (nlt x a = true <-> (c <= i)%nat).
Proof.
  intros Ex i a Ha. unfold c. rewrite ss_right_nonan by apply Hnd.
  set (p := fun e => negb (nlt x e)).
  assert (Hp : forall i a, nth_error edges i = Some a -> (p a = true <-> (i < count p edges)%nat)).
  { apply prefix_count. intros j a' b Ha' Hb Hpb. unfold p in *. apply negb_true_iff in Hpb. apply negb_true_iff.
    destruct (nlt x a') eqn:E; auto. rewrite (nlt_le_trans x a' b) in Hpb; auto. eapply Hnd; eauto. }
  assert (Na : is_nan a = false) by (apply Hnd; eapply nth_error_In; eauto).
  specialize (Hp i a Ha). unfold p in Hp at 1.
  split.
  - rewrite <- Hp, negb_true_iff. split; intros H.
    + destruct (nlt x a) eqn:E; auto. apply nlt_not_le in E. congruence.
    + apply not_nlt_le; auto.
  - destruct (nlt x a) eqn:E; cbn in Hp.
    + split; auto. intros _. destruct (Nat.lt_ge_cases i (count p edges)) as [C|C]; auto. apply Hp in C. discriminate.
    + split; [discriminate|]. intros C. assert (i < count p edges)%nat by (apply Hp; auto). lia.
Qed.
Lemma hdd_spec k : (k < n - 1)%nat -> (hdd_index edges x = S k <-> in_hist_bin edges k x).
Proof.
  intros Hk. unfold hdd_index. fold c. pose proof last_nth as HL. pose proof c_le as Hc.
  destruct (is_nan x) eqn:Ex.
  - rewrite (c_nan Ex). destruct (neqb x (last edges NaN)) eqn:E; [apply neqb_eq in E; destruct E; congruence|].
    split; [lia|]. intros [(lo & hi & _ & _ & H & _)|[_ H]].
    + destruct x; try discriminate. destruct lo; discriminate.
    + unfold last_edge in H. assert (Hn : is_nan x = false) by (apply Hnd; eapply nth_error_In; eauto). congruence.
  - pose proof (c_prefix Ex) as Hp.
    destruct (neqb x (last edges NaN)) eqn:E.
    + apply neqb_eq in E as [E _]. assert (Hcn : c = n).
      { assert (n - 1 < c)%nat; [|lia]. apply (proj1 (Hp (n - 1)%nat _ HL)). rewrite <- E. destruct x; try discriminate; cbn; auto. apply Rleb_true. lra. }
      rewrite Hcn. split.
      * intros H. right. split; [unfold n in *; lia|]. unfold last_edge. fold n. rewrite HL, E. auto.
      * intros [(lo & hi & H1 & H2 & H3 & H4)|[H _]]; [|unfold n; lia]. apply (Hp _ _ H2) in H4. apply nth_some_lt in H2. unfold n in *. lia.
    + split.
      * intros H. left. destruct (nth_some_ex edges k) as [lo Hlo]; [unfold n in *; lia|]. destruct (nth_some_ex edges (S k)) as [hi Hhi]; [unfold n in *; lia|].
        exists lo, hi. repeat split; auto; [apply (Hp _ _ Hlo); lia|apply (Hp _ _ Hhi); lia].
      * intros [(lo & hi & H1 & H2 & H3 & H4)|[H1 H2]].
        -- apply (Hp _ _ H1) in H3. apply (Hp _ _ H2) in H4. lia.
        -- unfold last_edge in H2. fold n in H2. rewrite HL in H2. injection H2 as H2. assert (neqb x (last edges NaN) = true); [|congruence].
           apply neqb_eq. split; auto.
Qed.
Lemma hdd_range : ((1 <= hdd_index edges x)%nat /\ (hdd_index edges x <= n - 1)%nat) <-> in_range edges x.
Proof.
  pose proof last_nth as HL. destruct (nth_some_ex edges 0) as [e0 H0]; [lia|]. split.
  - intros [H1 H2]. assert (Hb : in_hist_bin edges (hdd_index edges x - 1) x) by (apply hdd_spec; lia).
    exists e0, (last edges NaN). split; auto. split; auto.
    assert (Ex : is_nan x = false).
    { destruct Hb as [(lo & hi & _ & _ & H & _)|[_ H]]; [destruct x, lo; try discriminate; auto|apply Hnd; eapply nth_error_In; exact H]. }
    pose proof (c_prefix Ex) as Hp. unfold hdd_index in H1, H2. fold c in H1, H2.
    destruct (neqb x (last edges NaN)) eqn:E.
    + apply neqb_eq in E as [E _]. split; [apply (Hp _ _ H0); lia|]. rewrite <- E. destruct x; try discriminate; cbn; auto. apply Rleb_true; lra.
    + split; [apply (Hp _ _ H0); lia|]. apply nlt_nle. apply (Hp _ _ HL). lia.
  - intros (a & b & Ha & Hb & Hax & Hxb). unfold first_edge, last_edge in *. fold n in Hb. rewrite HL in Hb. injection Hb as <-.
    assert (Ex : is_nan x = false) by (destruct x, a; try discriminate; auto). pose proof (c_prefix Ex) as Hp.
    apply (Hp _ _ Ha) in Hax. unfold hdd_index. fold c. pose proof c_le as Hc.
    destruct (neqb x (last edges NaN)) eqn:E.
    + apply neqb_eq in E as [E _]. assert (Hcn : (n - 1 < c)%nat). { apply (proj1 (Hp (n - 1)%nat _ HL)). rewrite <- E. destruct x; try discriminate; cbn; auto. apply Rleb_true; lra. }
      unfold n in *. lia.
    + split; [lia|]. assert (nlt x (last edges NaN) = true).
      { apply nle_neq; auto. }
      apply (Hp _ _ HL) in H. lia.
Qed.
End Hdd.
Lemma histogramdd_ok {A} (dims : list ((A -> num) * list num)) w evs :
  (forall d, In d dims -> nondecreasing (snd d) /\ (2 <= length (snd d))%nat) ->
  histogramdd dims w evs = Ok (mkT (map (fun d => (length (snd d) - 1)%nat) dims) (fun ix => Fin (wsum w (hdd_match dims ix) evs))).
Proof.
  intros H. unfold histogramdd.
  replace (existsb (fun d => decreases (snd d)) dims) with false.
  - replace (existsb _ dims) with false; auto. symmetry. apply not_true_is_false. intros E.
    apply existsb_exists in E as (d & Hd & E). destruct (H d Hd) as [_ L]. destruct (snd d); [cbn in L; lia|discriminate].
  - symmetry. apply not_true_is_false. intros E. apply existsb_exists in E as (d & Hd & E). rewrite decreases_nondec in E; [discriminate|]. apply H; auto.
Qed.
(** summing over one axis *)
Lemma wsum_axis {A} (w : A -> R) (q : A -> bool) (g : A -> nat) evs n :
  rsum (map (fun j => wsum w (fun e => q e && Nat.eqb (g e) (S j)) evs) (seq 0 n)) =
  wsum w (fun e => q e && (Nat.leb 1 (g e) && Nat.leb (g e) n)) evs.
Proof.
  induction n as [|n IH].
  - cbn [seq map]. rewrite rsum_nil. induction evs as [|e l IHl]; [rewrite wsum_nil; auto|]. rewrite wsum_cons.
    replace (q e && (Nat.leb 1 (g e) && Nat.leb (g e) 0))%bool with false; [rewrite <- IHl; ring|].
    destruct (q e); auto. cbn. symmetry. destruct (g e); auto.
  - rewrite seq_S, map_app, rsum_app, IH. cbn [map]. rewrite rsum_cons, rsum_nil, Rplus_0_r. symmetry. apply wsum_split.
    intros e _. cbn [Nat.add]. destruct (q e); cbn [andb]; auto.
    destruct (Nat.leb_spec 1 (g e)), (Nat.leb_spec (g e) n), (Nat.leb_spec (g e) (S n)), (Nat.eqb_spec (g e) (S n)); cbn [andb]; auto; lia.
Qed.
Lemma nsum_fin_map {A} (f : A -> R) l : nsum (map (fun a => Fin (f a)) l) = Fin (rsum (map f l)).
Proof. induction l as [|a l IH]; cbn [map]; [reflexivity|]. rewrite nsum_cons, IH, rsum_cons. reflexivity. Qed.

(** ** broadcasting *)
Lemma bdim_same n : bdim n n = Some n.
Proof. unfold bdim. rewrite Nat.eqb_refl. auto. Qed.
Lemma bdim_1r n : bdim n 1 = Some n.
Proof. unfold bdim. destruct (Nat.eqb_spec n 1); auto. Qed.
Lemma bdim_1l n : bdim 1 n = Some n.
Proof. unfold bdim. destruct (Nat.eqb_spec 1 n); subst; auto. Qed.
Lemma ixd n i : (i < n)%nat -> (if Nat.eqb n 1 then 0%nat else i) = i.
Proof. intros H. destruct (Nat.eqb_spec n 1); auto. lia. Qed.
Ltac bnorm := unfold tbin, bshape; cbn [shape rev app bshape_rev newaxis tsum insert_at remove_at vec tmap transpose2 length];
  rewrite ?bdim_same, ?bdim_1r, ?bdim_1l; cbn [rev app].
Ltac inorm := cbn [at_ shape bidx skipn length Nat.sub zipwith newaxis tsum insert_at remove_at vec tmap transpose2 rev app Nat.eqb]; 
  repeat match goal with H : (?i < ?n)%nat |- context [if Nat.eqb ?n 1 then 0%nat else ?i] => rewrite (ixd n i H) end.
