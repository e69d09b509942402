(** * Proofs about the nearest neighbour search *)
From Coq Require Import Reals List Bool ZArith Arith Lia Lra.
From Verif Require Import Num Numpy Sort Table Binning SpecBinning BinningProofs Lists CutsProofs CutsProofs2 Utils SpecSimulations SpecIRF IRFProofs IRFProofs2 Morph SpecInterp MorphProofs MorphProofs2 Geometry GeometryProofs GeometryProofs2 GeometryProofs4 Quantile.
Import ListNotations.
Open Scope R_scope.

(** the chosen element is strictly before all earlier ones *)
Section First.
Context {A : Type} (before : A -> A -> bool).
Hypothesis trans : forall a b c, before a b = true -> before b c = true -> before a c = true.
Hypothesis irr : forall a, before a a = false.
Hypothesis compl : forall a b c, before a b = true -> before b c = false -> before c b = false -> before a c = true.
Lemma first_best_first l : forall k best pre, length pre = k -> nth_error pre (fst best) = Some (snd best) ->
  (forall j y, (j < fst best)%nat -> nth_error pre j = Some y -> before (snd best) y = true) ->
  (forall j y, nth_error pre j = Some y -> before y (snd best) = false) ->
  forall j x y, nth_error (pre ++ l) (first_best before best k l) = Some x -> (j < first_best before best k l)%nat -> nth_error (pre ++ l) j = Some y -> before x y = true.
Proof.
  induction l as [|a l IH]; intros k best pre Hk Hb Hf Hm j x y Hx Hj Hy; cbn [first_best] in *.
  - rewrite app_nil_r in *. assert (x = snd best) by congruence. subst. eauto.
  - replace (pre ++ a :: l) with ((pre ++ [a]) ++ l) in * by (rewrite <- app_assoc; auto).
    revert Hx Hj Hy. apply IH.
    + rewrite app_length. cbn. lia.
    + destruct (before a (snd best)); cbn [fst snd].
      * rewrite nth_error_app2, Hk, Nat.sub_diag by lia. auto.
      * rewrite nth_error_app1; auto. eapply nth_some_lt; eauto.
    + intros i z Hi Hz. destruct (before a (snd best)) eqn:E; cbn [fst snd] in *.
      * rewrite nth_error_app1 in Hz by lia. pose proof (Hm i z Hz) as Q. destruct (before (snd best) z) eqn:E2; [eapply trans; eauto|]. eapply compl; eauto.
      * assert (fst best < length pre)%nat by (eapply nth_some_lt; eauto). rewrite nth_error_app1 in Hz by lia. eauto.
    + intros i z Hz.
      assert (C : nth_error pre i = Some z \/ z = a).
      { destruct (Nat.lt_ge_cases i (length pre)) as [Lt|Ge]; [rewrite nth_error_app1 in Hz by auto; auto|].
        rewrite nth_error_app2 in Hz by auto. destruct (i - length pre)%nat as [|q]; cbn in Hz; [right; congruence|destruct q; discriminate]. }
      destruct (before a (snd best)) eqn:E; cbn [snd].
      * destruct C as [C| -> ].
        -- destruct (before z a) eqn:E2; auto. pose proof (trans _ _ _ E2 E). rewrite (Hm i z C) in H. discriminate.
        -- apply irr.
      * destruct C as [C| -> ]; eauto.
Qed.
End First.

Lemma root_spec p s : (0 < p)%nat -> 0 <= s -> 0 <= root p s /\ root p s ^ p = s.
Proof.
  intros Hp Hs. unfold root. destruct (Reqb_spec s 0) as [->|N]; [split; [lra|]; destruct p; [lia|]; rewrite <- tech_pow_Rmult; ring|].
  assert (0 < s) by lra. assert (0 < Rpower s (/ INR p)) by (unfold Rpower; apply exp_pos). split; [lra|].
  rewrite <- Rpower_pow by auto. rewrite Rpower_mult. rewrite Rinv_l by (apply not_0_INR; lia). apply Rpower_1; auto.
Qed.
Lemma pow_mono p a b : (0 < p)%nat -> 0 <= a -> 0 <= b -> a < b -> a ^ p < b ^ p.
Proof.
  intros Hp Ha Hb H. induction p as [|p IH]; [lia|]. destruct p as [|p]; [cbn; lra|]. specialize (IH ltac:(lia)).
  rewrite <- !(tech_pow_Rmult _ (S p)). apply Rmult_le_0_lt_compat; auto. apply pow_le; auto.
Qed.
Lemma pow_mono_le p a b : 0 <= a -> a <= b -> a ^ p <= b ^ p.
Proof. intros. apply pow_incr; auto. Qed.
Lemma pnorm_spec p a b : (0 < p)%nat -> p_distance p a b (pnorm p (zipwith Rminus a b)).
Proof.
  intros Hp. unfold pnorm. set (s := rsum _).
  assert (E : s = total (map (fun q => Rabs (fst q - snd q) ^ p) (combine a b))).
  { unfold s. refine (eq_trans _ (eq_sym (total_rsum _))). f_equal. clear. revert b. induction a as [|x a IH]; intros [|y b]; cbn [zipwith combine map]; auto. f_equal. auto. }
  assert (0 <= s). { unfold s. apply rsum_nonneg. intros x Hx. apply in_map_iff in Hx. destruct Hx as (y & <- & _). apply pow_le, Rabs_pos. }
  destruct (root_spec p s Hp H) as (R1 & R2). split; auto. congruence.
Qed.
Lemma p_distance_unique p a b d d' : (0 < p)%nat -> p_distance p a b d -> p_distance p a b d' -> d = d'.
Proof.
  intros Hp (H1 & H2) (H1' & H2'). destruct (Rtotal_order d d') as [L|[->|L]]; auto.
  - pose proof (pow_mono p d d' Hp H1 H1' L). lra.
  - pose proof (pow_mono p d' d Hp H1' H1 L). lra.
Qed.

Lemma nn_index_spec grid p target : grid <> [] -> exists k g, nn_index grid p target = Ok k /\ nth_error grid k = Some g /\
  (forall j g', nth_error grid j = Some g' -> pnorm p (zipwith Rminus g target) <= pnorm p (zipwith Rminus g' target)) /\
  (forall j g', (j < k)%nat -> nth_error grid j = Some g' -> pnorm p (zipwith Rminus g target) < pnorm p (zipwith Rminus g' target)).
Proof.
  intros Hne. unfold nn_index. set (f := fun g => pnorm p (zipwith Rminus g target)). set (bf := fun a b : R => Rltb a b).
  assert (T1 : forall a b c, bf a b = false -> bf b c = false -> bf a c = false) by (unfold bf; intros; rcmp; lra).
  assert (T2 : forall a b, bf a b = true -> bf b a = false) by (unfold bf; intros; rcmp; lra).
  assert (T3 : forall a b c, bf a b = true -> bf b c = true -> bf a c = true) by (unfold bf; intros; rcmp; lra).
  assert (T4 : forall a, bf a a = false) by (unfold bf; intros; rcmp; lra).
  assert (T5 : forall a b c, bf a b = true -> bf b c = false -> bf c b = false -> bf a c = true) by (unfold bf; intros; rcmp; lra).
  destruct (argbest_spec bf (map f grid) T1 T2) as (k & x & Ek & Hk & Hm). { destruct grid; [congruence|discriminate]. }
  exists k. pose proof Hk as Hk'. apply map_nth_inv in Hk. destruct Hk as (g & Hg & Ex). exists g. split; [exact Ek|]. split; [auto|]. split.
  - intros j g' Hj. specialize (Hm j (f g') (map_nth_some _ _ _ _ Hj)). unfold bf in Hm. rcmp. unfold f in *. lra.
  - intros j g' Hj Hg'. unfold argbest in Ek. destruct grid as [|g0 grid]; [congruence|]. cbn [map] in Ek, Hk'.
    assert (Ek' : first_best bf (0%nat, f g0) 1 (map f grid) = k) by congruence.
    assert (Q : bf x (f g') = true).
    { eapply (first_best_first bf T3 T4 T5 (map f grid) 1 (0%nat, f g0) [f g0]); auto.
      - intros i y Hi; cbn in Hi; lia.
      - intros [|i] y Hi; cbn in Hi; [|destruct i; discriminate]. injection Hi as <-. apply T4.
      - rewrite Ek'. exact Hk'.
      - rewrite Ek'. exact Hj.
      - change ([f g0] ++ map f grid) with (map f (g0 :: grid)). apply map_nth_some; auto. }
    unfold bf in Q. rcmp. unfold f in *. lra.
Qed.
(** *** C55 *)
Lemma c55_nearest grid shape rows p target : grid <> [] -> (0 < p)%nat -> length rows = length grid ->
  exists k g r, nth_error grid k = Some g /\ nth_error rows k = Some r /\ nn_interpolate grid (Rows shape rows) p target = Ok (shape, r) /\
    forall j g' d d', nth_error grid j = Some g' -> p_distance p g target d -> p_distance p g' target d' -> d <= d' /\ ((j < k)%nat -> d < d').
Proof.
  intros Hne Hp Hl. destruct (nn_index_spec grid p target Hne) as (k & g & Ek & Hg & Hm & Hf).
  destruct (nth_some_ex rows k) as (r & Hr). { rewrite Hl. eapply nth_some_lt; eauto. }
  exists k, g, r. split; [auto|]. split; [auto|]. split; [unfold nn_interpolate; rewrite Ek; cbn [rbind]; rewrite Hr; auto|].
  intros j g' d d' Hj Hd Hd'. rewrite (p_distance_unique p g target d _ Hp Hd (pnorm_spec p g target Hp)), (p_distance_unique p g' target d' _ Hp Hd' (pnorm_spec p g' target Hp)).
  split; [eapply Hm; eauto|intros; eapply Hf; eauto].
Qed.
Lemma pnorm_zero p a b : (0 < p)%nat -> length a = length b -> pnorm p (zipwith Rminus a b) <= 0 -> a = b.
Proof.
  intros Hp Hl H. destruct (pnorm_spec p a b Hp) as (H1 & H2). assert (E : pnorm p (zipwith Rminus a b) = 0) by lra. rewrite E in H2. rewrite pow_i in H2 by lia.
  clear -H2 Hl Hp. revert b Hl H2. induction a as [|x a IH]; intros [|y b] Hl H2; cbn in Hl; try lia; auto.
  cbn [combine map total fst snd] in H2. assert (P : forall l : list (R * R), 0 <= total (map (fun q => Rabs (fst q - snd q) ^ p) l)).
  { induction l as [|q l IHl]; cbn [map total]; [lra|]. pose proof (pow_le (Rabs (fst q - snd q)) p (Rabs_pos _)). lra. }
  pose proof (P (combine a b)). pose proof (pow_le (Rabs (x - y)) p (Rabs_pos _)).
  assert (Z : Rabs (x - y) ^ p = 0) by lra. f_equal; [|apply IH; [lia|lra]].
  destruct (Req_dec x y); auto. exfalso. apply (pow_nonzero (Rabs (x - y)) p); auto. apply Rabs_no_R0. lra.
Qed.
Lemma c55_at_grid_point grid shape rows p k g r : (0 < p)%nat -> NoDup grid -> (forall x, In x grid -> length x = length g) ->
  nth_error grid k = Some g -> nth_error rows k = Some r -> nn_interpolate grid (Rows shape rows) p g = Ok (shape, r).
Proof.
  intros Hp Hn Hd Hg Hr. assert (Hne : grid <> []) by (destruct grid; [destruct k; discriminate|discriminate]).
  destruct (nn_index_spec grid p g Hne) as (k' & g' & Ek & Hg' & Hm & _). specialize (Hm k g Hg).
  assert (Z : pnorm p (zipwith Rminus g g) = 0).
  { destruct (pnorm_spec p g g Hp) as (P1 & P2). assert (Q : total (map (fun q => Rabs (fst q - snd q) ^ p) (combine g g)) = 0).
    { clear -Hp. induction g as [|x g IH]; cbn [combine map total fst snd]; auto. rewrite IH. replace (x - x) with 0 by ring. rewrite Rabs_R0, pow_i by lia. ring. }
    rewrite Q in P2. destruct (Rle_lt_or_eq_dec _ _ P1) as [L|L]; auto. pose proof (pow_lt _ p L). lra. }
  rewrite Z in Hm. apply pnorm_zero in Hm; auto. 2:{ apply Hd. eapply nth_error_In; eauto. } subst g'.
  assert (k' = k). { apply (proj1 (NoDup_nth_error grid) Hn); [eapply nth_some_lt; eauto|congruence]. } subst k'.
  unfold nn_interpolate. rewrite Ek. cbn [rbind]. rewrite Hr. auto.
Qed.
Lemma c55_flat grid l p target : grid <> [] -> nn_interpolate grid (Flat l) p target = Err IndexError.
Proof. intros Hne. unfold nn_interpolate. destruct (nn_index_spec grid p target Hne) as (k & g & Ek & _). rewrite Ek. auto. Qed.
Lemma c55_norm_ord : check_norm_ord PNotNumber = Err ValueError /\
  (forall k, check_norm_ord (PNum (Fin (INR (S k)))) = Ok (Fin (INR (S k)))) /\
  (forall v, (forall k, v <> Fin (INR (S k))) -> check_norm_ord (PNum v) = Err ValueError).
Proof.
  split; [auto|]. split.
  - intros k. unfold check_norm_ord. rewrite (proj2 (positive_integer_spec (Fin (INR (S k))))); eauto.
  - intros v Hv. unfold check_norm_ord. destruct (positive_integer v) eqn:E; auto. apply positive_integer_spec in E. destruct E as (k & E). exfalso. eapply Hv; eauto.
Qed.
