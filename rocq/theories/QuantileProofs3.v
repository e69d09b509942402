(** * Proofs about the quantile interpolation, second part *)
From Coq Require Import Reals List Bool ZArith Arith Lia Lra.
From Verif Require Import Num Numpy Sort Table Binning SpecBinning BinningProofs Lists CutsProofs CutsProofs2 Utils SpecSimulations SpecIRF IRFProofs IRFProofs2 Morph SpecInterp MorphProofs MorphProofs2 Geometry GeometryProofs GeometryProofs2 GeometryProofs3 Quantile QuantileProofs2.
Import ListNotations.
Open Scope R_scope.

Lemma linspace_inc n : (2 <= n)%nat -> increasing (linspace01 n) /\ length (linspace01 n) = n /\ forall t, In t (linspace01 n) -> 0 <= t <= 1.
Proof.
  intros Hn. unfold linspace01. assert (P : 0 < INR (n - 1)) by (apply lt_0_INR; lia). split; [|split].
  - intros k u v Hu Hv. apply map_nth_inv in Hu, Hv. destruct Hu as (a & Ha & ->). destruct Hv as (b & Hb & ->).
    assert (La : (k < n)%nat) by (apply nth_some_lt in Ha; rewrite seq_length in Ha; auto).
    assert (Lb : (S k < n)%nat) by (apply nth_some_lt in Hb; rewrite seq_length in Hb; auto).
    rewrite nth_error_nth' with (d := 0%nat) in Ha by (rewrite seq_length; auto). rewrite nth_error_nth' with (d := 0%nat) in Hb by (rewrite seq_length; auto).
    rewrite seq_nth in Ha, Hb by auto. assert (a = k) by (cbn in Ha; congruence). assert (b = S k) by (cbn in Hb; congruence). subst.
    apply Rmult_lt_compat_r; [apply Rinv_0_lt_compat; auto|]. apply lt_INR. lia.
  - rewrite map_length, seq_length. auto.
  - intros t Ht. apply in_map_iff in Ht. destruct Ht as (k & <- & Hk). apply in_seq in Hk. pose proof (pos_INR k).
    assert (INR k <= INR (n - 1)) by (apply le_INR; lia). split.
    + apply Rmult_le_pos; [auto|left; apply Rinv_0_lt_compat; auto].
    + apply (Rmult_le_reg_r (INR (n - 1))); [auto|]. unfold Rdiv. rewrite Rmult_assoc, Rinv_l by lra. lra.
Qed.
Lemma extended_cons edges : (2 <= length edges)%nat -> exists w, forall m, ws m (extended_edges edges) = measure m w (nth 0 edges 0) :: ws m edges.
Proof.
  destruct edges as [|a [|b l]]; cbn [length]; intros; try lia. eexists. intros m. unfold ws, extended_edges. cbn [but_last tl zipwith nth]. reflexivity.
Qed.
Lemma extended_length edges : length (extended_edges edges) = S (length edges).
Proof. reflexivity. Qed.

Section Slice.
Variables (m : measured_by) (edges : list R).
Hypothesis Hu : usable_edges m edges.
Let N := (length edges - 1)%nat.
Lemma ppf_of h q : histogram_of N h -> (forall t, In t q -> 0 <= t <= 1) -> increasing q ->
  exists o, (do cdf <- cdf_values (0 :: h) (extended_edges edges) (nz m); ppf_values (mids (extended_edges edges)) cdf q) = Ok o /\
    (0 < rsum h -> exists p, o = Some p /\ length p = length q /\ increasing p) /\ (rsum h = 0 -> o = None).
Proof.
  intros (Hl & Hn) Hq Hi. pose proof Hu as (He & H2 & _).
  unfold cdf_values. rewrite get_width. cbn [rbind]. destruct (extended_cons edges H2) as (w & E). rewrite E. cbn [zipwith].
  set (pr := zipwith Rmult h (ws m edges)). set (w0 := measure m w (nth 0 edges 0)).
  assert (Pn : forall v, In v (0 * w0 :: pr) -> 0 <= v).
  { intros v [<-|Hv]; [lra|]. eapply zipmul_nonneg; [| |exact Hv]; [auto|]. intros x Hx. left. eapply ws_pos; eauto. }
  assert (Lp : length pr = N) by (unfold pr; rewrite zipwith_length, ws_length; fold N; lia).
  destruct (cumsum_spec (0 * w0 :: pr) 0 Pn) as (C1 & C2 & C3 & C4). specialize (C4 ltac:(discriminate)).
  set (cdf := cumsum_from 0 (0 * w0 :: pr)) in *. change (cumsum (0 * w0 :: pr)) with cdf.
  assert (Rs : rsum (0 * w0 :: pr) = rsum pr) by (rewrite rsum_cons; ring). rewrite Rs in C2, C4.
  assert (Lc : length cdf = length edges) by (rewrite C1; cbn [length]; rewrite Lp; unfold N; lia).
  assert (Ne : cdf <> []) by (intros Z; rewrite Z in Lc; cbn in Lc; lia).
  assert (Mx : list_max cdf = rsum pr).
  { destruct (list_max_spec cdf Ne) as (M1 & M2). pose proof (C2 _ M1). assert (In (rsum pr) cdf).
    { replace (rsum pr) with (0 + rsum pr) by ring. rewrite <- C4. apply nth_In. cbn [length]. rewrite Lc, Lp. unfold N. lia. }
    pose proof (M2 _ H0). lra. }
  rewrite Mx. assert (Hd : nth 0 cdf 0 = 0) by (unfold cdf; cbn; ring).
  destruct (Rle_lt_or_eq_dec 0 (rsum h) ltac:(apply rsum_nonneg; auto)) as [Hp|Hz].
  - assert (Pp : 0 < rsum pr) by (apply prob_pos; auto; split; auto).
    destruct (Reqb (rsum pr) 0) eqn:Eq; rcmp; [lra|]. set (c := map (fun x => x / rsum pr) cdf).
    assert (Nc : forall k, (k < length cdf)%nat -> nth k c 0 = nth k cdf 0 / rsum pr).
    { intros k Hk. apply nth_error_nth. unfold c. erewrite map_nth_error; [reflexivity|]. apply nth_in. auto. }
    assert (Lcc : length c = length cdf) by (unfold c; apply map_length).
    assert (c1 : nth (length c - 1) c 0 = 1).
    { rewrite Lcc, Nc by lia. replace (length cdf - 1)%nat with (length ((0 * w0)%R :: pr) - 1)%nat by (cbn [length]; rewrite Lc, Lp; unfold N; lia). rewrite C4. field. lra. }
    assert (c0 : nth 0 c 0 = 0) by (rewrite Nc, Hd by lia; unfold Rdiv; ring).
    assert (cm : forall i a b, nth_error c i = Some a -> nth_error c (S i) = Some b -> a <= b).
    { intros i a b Ha Hb. unfold c in Ha, Hb. apply map_nth_inv in Ha, Hb. destruct Ha as (a' & Ha & ->). destruct Hb as (b' & Hb & ->).
      apply Rmult_le_compat_r; [left; apply Rinv_0_lt_compat; auto|]. eauto. }
    destruct (cropped_ok c (mids (extended_edges edges)) cm c0) with (q := q) as (p & Ep & Lq & Ip); auto.
    { rewrite Lcc, Lc, mids_length, extended_length. lia. }
    { apply mids_inc, extended_inc; auto. }
    exists (Some p). unfold ppf_values. replace (Rltb 0 (rsum c)) with true.
    2:{ symmetry. apply Rltb_true. apply rsum_pos_in with (x := 1); [|rewrite <- c1; apply nth_In; lia|lra].
        intros x Hx. unfold c in Hx. apply in_map_iff in Hx. destruct Hx as (x' & <- & Hx). apply C2 in Hx. apply Rmult_le_pos; [lra|left; apply Rinv_0_lt_compat; auto]. }
    rewrite Ep. cbn [rbind]. split; [auto|]. split; [eauto|lra].
  - assert (Pz : rsum pr = 0). { apply rsum_zero_list. intros x Hx. unfold pr in Hx. apply In_nth_error in Hx. destruct Hx as (k & Hk). apply zw_nth_inv in Hk. destruct Hk as (u & v & U & V & ->).
      assert (u = 0) by (apply (rsum_zero h); [auto|auto|eapply nth_error_In; eauto]). subst. ring. }
    rewrite Pz, Reqb_refl. exists None. unfold ppf_values. replace (Rltb 0 _) with false.
    2:{ symmetry. apply Rltb_false. rewrite rsum_zero_list; [lra|]. intros x Hx. apply in_map_iff in Hx. destruct Hx as (? & <- & _). auto. }
    split; [auto|]. split; [lra|auto].
Qed.
End Slice.

(** *** the weighted mean of the ppfs *)
Lemma griddata_ok (nq : nat) (ppfs : list (option (list R))) weights : weights <> [] ->
  (forall i c, In (i, c) weights -> 0 <= c /\ exists p, nth_error ppfs i = Some (Some p) /\ length p = nq /\ increasing p) ->
  exists p, griddata weights ppfs = Some p /\ length p = nq /\
    forall k a b, nth_error p k = Some a -> nth_error p (S k) = Some b -> a <= b /\ (0 < rsum (map snd weights) -> a < b).
Proof.
  induction weights as [|(i, c) weights IH]; [congruence|]. intros _ H.
  destruct (H i c (or_introl eq_refl)) as (Hc & p & Hp & Lp & Ip). cbn [map snd]. rewrite rsum_cons.
  destruct weights as [|w weights].
  - cbn [griddata]. rewrite Hp. eexists. split; [reflexivity|]. split; [rewrite map_length; auto|].
    intros k a b Ha Hb. apply map_nth_inv in Ha, Hb. destruct Ha as (a' & Ha & ->). destruct Hb as (b' & Hb & ->). pose proof (Ip _ _ _ Ha Hb).
    cbn [map]. rewrite rsum_nil. split; [apply Rmult_le_compat_l; lra|]. intros. apply Rmult_lt_compat_l; lra.
  - destruct IH as (q & Eq & Lq & Iq); [discriminate|intros; apply H; right; auto|].
    change (griddata ((i, c) :: w :: weights) ppfs) with (match nth_error ppfs i, griddata (w :: weights) ppfs with
      | Some (Some p), Some q => Some (zipwith (fun v u => c * v + u) p q) | _, _ => None end). rewrite Hp, Eq.
    eexists. split; [reflexivity|]. split; [rewrite zipwith_length; lia|].
    intros k a b Ha Hb. apply zw_nth_inv in Ha, Hb. destruct Ha as (a' & a'' & Ha & Ha' & ->). destruct Hb as (b' & b'' & Hb & Hb' & ->).
    pose proof (Ip _ _ _ Ha Hb). destruct (Iq _ _ _ Ha' Hb') as (Q1 & Q2).
    assert (Cm : c * a' <= c * b') by (apply Rmult_le_compat_l; lra). split; [lra|]. intros Hs.
    destruct (Rle_lt_or_eq_dec 0 c Hc) as [C|C].
    + assert (c * a' < c * b') by (apply Rmult_lt_compat_l; lra). lra.
    + specialize (Q2 ltac:(lra)). lra.
Qed.
Lemma griddata_none ppfs weights i c : In (i, c) weights -> nth_error ppfs i = Some None -> griddata weights ppfs = None.
Proof.
  induction weights as [|(j, d) weights IH]; [intros []|]. intros [E|Hi] Hn.
  - injection E as -> ->. destruct weights; cbn [griddata]; rewrite Hn; auto.
  - destruct weights as [|w weights]; [destruct Hi|].
    change (griddata ((j, d) :: w :: weights) ppfs) with (match nth_error ppfs j, griddata (w :: weights) ppfs with
      | Some (Some p), Some q => Some (zipwith (fun v u => d * v + u) p q) | _, _ => None end). rewrite IH by auto. destruct (nth_error ppfs j) as [[|]|]; auto.
Qed.

(** *** back to a histogram *)
Lemma diffR_length l : length (diffR l) = (length l - 1)%nat.
Proof. rewrite diffR_zip. apply adj_length. Qed.
Lemma but_last_nth {A} (l : list A) k : (S k < length l)%nat -> nth_error (but_last l) k = nth_error l k.
Proof.
  revert k. induction l as [|a [|b l] IH]; intros k Hk; cbn [length] in Hk; try lia. cbn [but_last]. destruct k as [|k]; [auto|]. cbn [nth_error]. apply IH. cbn; lia.
Qed.
Lemma but_last_length {A} (l : list A) : length (but_last l) = (length l - 1)%nat.
Proof. induction l as [|a [|b l] IH]; auto. cbn [but_last length] in *. rewrite IH. lia. Qed.
Lemma mid_nth p k a : nth_error (zipwith (fun a d => a + d / 2) (but_last p) (diffR p)) k = Some a ->
  exists u v, nth_error p k = Some u /\ nth_error p (S k) = Some v /\ a = (u + v) / 2.
Proof.
  intros H. apply zw_nth_inv in H. destruct H as (u & d & Hu & Hd & ->). rewrite diffR_zip in Hd. apply adj_inv in Hd. destruct Hd as (x & y & Hx & Hy & ->).
  rewrite but_last_nth in Hu by (apply nth_some_lt in Hy; auto). exists x, y. assert (u = x) by congruence. subst. unfold width. repeat split; auto. lra.
Qed.
Lemma mid_inc p : increasing p -> increasing (zipwith (fun a d => a + d / 2) (but_last p) (diffR p)).
Proof.
  intros Hi k a b Ha Hb. apply mid_nth in Ha, Hb. destruct Ha as (u & v & H1 & H2 & ->). destruct Hb as (u' & v' & H3 & H4 & ->).
  assert (u' = v) by congruence. subst. pose proof (Hi _ _ _ H1 H2). pose proof (Hi _ _ _ H3 H4). lra.
Qed.
Lemma fill0_nonneg x y t : increasing x -> length y = length x -> (2 <= length x)%nat -> (forall v, In v y -> 0 <= v) -> 0 <= interp_fill0 x y t.
Proof.
  intros. unfold interp_fill0. destruct (Rltb t (nth 0 x 0)) eqn:E; [lra|]. destruct (Rltb (nth (length x - 1) x 0) t) eqn:E'; [lra|]. rcmp. apply interp_nonneg; auto; split; assumption.
Qed.
Lemma pdf_ok edges p q : increasing p -> increasing q -> length p = length q -> (3 <= length q)%nat ->
  length (pdf_from_ppf edges (Some p) q) = (length edges - 1)%nat /\ forall x, In x (pdf_from_ppf edges (Some p) q) -> 0 <= x.
Proof.
  intros Hp Hq Hl H3. unfold pdf_from_ppf. split; [rewrite map_length, but_last_length; auto|]. intros x Hx. apply in_map_iff in Hx. destruct Hx as (t & <- & _).
  apply fill0_nonneg.
  - apply mid_inc; auto.
  - rewrite !zipwith_length, but_last_length, !diffR_length. lia.
  - rewrite !zipwith_length, but_last_length, !diffR_length. lia.
  - intros v Hv. apply In_nth_error in Hv. destruct Hv as (k & Hk). apply zw_nth_inv in Hk. destruct Hk as (u & w & Hu & Hw & ->).
    rewrite diffR_zip in Hu, Hw. apply adj_inv in Hu, Hw. destruct Hu as (a & b & Ha & Hb & ->). destruct Hw as (c & d & Hc & Hd & ->).
    pose proof (Hq _ _ _ Ha Hb). pose proof (Hp _ _ _ Hc Hd). unfold width. left. apply Rdiv_lt_0_compat; lra.
Qed.
Lemma renorm s : s <> 0 -> forall pdf w, (forall x, In x w -> 0 < x) -> length pdf = length w ->
  rsum (zipwith Rmult (zipwith (fun p w => p / (s * w)) pdf w) w) = rsum pdf / s.
Proof.
  intros Hs. induction pdf as [|p pdf IH]; intros [|a w] Hw Hl; try discriminate; cbn [zipwith]; rewrite ?rsum_nil, ?rsum_cons; [unfold Rdiv; ring|].
  rewrite IH by (auto; intros; apply Hw; right; auto). pose proof (Hw a (or_introl eq_refl)). field. split; lra.
Qed.
Lemma norm_ok m edges pdf : usable_edges m edges -> histogram_of (length edges - 1) pdf ->
  exists out, norm_pdf pdf edges (nz m) = Ok out /\ histogram_of (length edges - 1) out /\
    (rsum pdf = 0 -> forall x, In x out -> x = 0) /\ (rsum pdf <> 0 -> integral_over (measure m) edges out = 1).
Proof.
  intros Hu (Hl & Hn). unfold norm_pdf. rewrite get_width. cbn [rbind]. eexists. split; [reflexivity|].
  assert (Lo : length (zipwith (fun p w => if Reqb (rsum pdf) 0 then 0 else p / (rsum pdf * w)) pdf (ws m edges)) = (length edges - 1)%nat) by (rewrite zipwith_length, ws_length; lia).
  assert (0 <= rsum pdf) by (apply rsum_nonneg; auto). split; [split; [exact Lo|]|split].
  - intros x Hx. apply In_nth_error in Hx. destruct Hx as (k & Hk). apply zw_nth_inv in Hk. destruct Hk as (u & w & U & W & ->).
    destruct (Reqb (rsum pdf) 0) eqn:E; rcmp; [lra|]. pose proof (ws_pos m edges Hu w (nth_error_In _ _ W)). pose proof (Hn u (nth_error_In _ _ U)).
    apply Rmult_le_pos; [auto|]. left. apply Rinv_0_lt_compat, Rmult_lt_0_compat; lra.
  - intros Z x Hx. rewrite Z, Reqb_refl in Hx. apply In_nth_error in Hx. destruct Hx as (k & Hk). apply zw_nth_inv in Hk. destruct Hk as (u & w & U & W & ->). auto.
  - intros Nz. rewrite integral_ws by exact Lo. pose proof (ws_pos m edges Hu) as Hw.
    assert (Lw : length pdf = length (ws m edges)) by (rewrite ws_length; auto).
    replace (Reqb (rsum pdf) 0) with false by (symmetry; apply Reqb_false; auto).
    rewrite (renorm (rsum pdf)) by auto. field. auto.
Qed.
Definition empty (h : list R) : Prop := total h = 0.
Lemma total_empty (h : list R) : total h = 0 <-> rsum h = 0.
Proof. pose proof (total_rsum h) as E. split; intros; congruence. Qed.
Section Final.
Variables (m : measured_by) (edges : list R) (templates : list (list R)) (nq : nat) (weights : list (nat * R)).
Hypothesis Hu : usable_edges m edges.
Hypothesis Hq : (3 <= nq)%nat.
Let N := (length edges - 1)%nat.
Hypothesis Ht : forall h, In h templates -> histogram_of N h.
Hypothesis Hw : weights = [] \/ mean_weights (length templates) weights.
Lemma init_ok : exists ppfs, quantile_init edges templates (nz m) nq = Ok (extended_edges edges, ppfs) /\
  length ppfs = length templates /\ forall i h o, nth_error templates i = Some h -> nth_error ppfs i = Some o ->
    (0 < rsum h -> exists p, o = Some p /\ length p = nq /\ increasing p) /\ (rsum h = 0 -> o = None).
Proof.
  unfold quantile_init. replace (forallb _ templates) with true.
  2:{ symmetry. apply forallb_forall. intros h Hh. apply Nat.eqb_eq. apply Ht; auto. }
  destruct (linspace_inc nq ltac:(lia)) as (L1 & L2 & L3).
  destruct (rmap_all_ok (fun h => do cdf <- cdf_values (0 :: h) (extended_edges edges) (nz m); ppf_values (mids (extended_edges edges)) cdf (linspace01 nq)) templates) as (ppfs & E).
  { intros h Hh. destruct (ppf_of m edges Hu h (linspace01 nq)) as (o & Eo & _); eauto. }
  exists ppfs. rewrite E. cbn [rbind]. split; [auto|]. apply rmap_nth in E. destruct E as (El & E). split; [auto|].
  intros i h o Hh Ho. specialize (E i). destruct (ppf_of m edges Hu h (linspace01 nq)) as (o' & Eo & P1 & P2); auto. { apply Ht. eapply nth_error_In; eauto. }
  destruct (E h Hh) as (b & Hb & Eb). assert (o' = o) by congruence. subst. rewrite L2 in P1. auto.
Qed.
Theorem c56_density : exists out, quantile_interpolate edges templates (nz m) nq weights = Ok out /\ histogram_of N out /\
  (integral_over (measure m) edges out = 1 \/ forall x, In x out -> x = 0) /\
  (weights = [] \/ (exists i c h, In (i, c) weights /\ nth_error templates i = Some h /\ total h = 0) -> forall x, In x out -> x = 0).
Proof.
  destruct init_ok as (ppfs & E & El & Ep). unfold quantile_interpolate. rewrite E. cbn [rbind fst snd].
  destruct (linspace_inc nq ltac:(lia)) as (L1 & L2 & L3). pose proof Hu as (_ & H2 & _). change (tl (extended_edges edges)) with edges.
  set (g := griddata weights ppfs).
  assert (Zero : g = None -> exists out, norm_pdf (tl (pdf_from_ppf (extended_edges edges) g (linspace01 nq))) edges (nz m) = Ok out /\ histogram_of N out /\ (forall x, In x out -> x = 0)).
  { intros ->. cbn [pdf_from_ppf]. set (z := tl _). assert (Z : forall x, In x z -> x = 0).
    { intros x Hx. unfold z in Hx. assert (Hx' : In x (map (fun _ : R => 0) (but_last (extended_edges edges)))) by (destruct (map (fun _ : R => 0) (but_last (extended_edges edges))); [destruct Hx|right; auto]).
      apply in_map_iff in Hx'. destruct Hx' as (? & <- & _). auto. }
    assert (Lz : length z = N). { unfold z. assert (length (map (fun _ : R => 0) (but_last (extended_edges edges))) = length edges) by (rewrite map_length, but_last_length, extended_length; lia).
      destruct (map (fun _ : R => 0) (but_last (extended_edges edges))); cbn [tl length] in *; unfold N; lia. }
    destruct (norm_ok m edges z Hu) as (out & O1 & O2 & O3 & _). { split; [exact Lz|]. intros x Hx. rewrite (Z x Hx). lra. }
    exists out. split; [auto|]. split; [auto|]. apply O3. apply rsum_zero_list; auto. }
  destruct Hw as [W|W].
  { destruct Zero as (out & O1 & O2 & O3); [unfold g; rewrite W; auto|]. exists out. repeat (split; [solve [auto]|]). auto. }
  assert (D : (exists i c h, In (i, c) weights /\ nth_error templates i = Some h /\ total h = 0) \/
    forall i c, In (i, c) weights -> exists h, nth_error templates i = Some h /\ 0 < rsum h).
  { destruct W as (W & _). clear - W Ht. induction weights as [|(i, c) l IH]; [right; intros ? ? []|].
    destruct (W i c (or_introl eq_refl)) as (Hi & _). destruct (nth_some_ex templates i Hi) as (h & Hh).
    destruct (Ht h (nth_error_In _ _ Hh)) as (_ & Hn). destruct (Rle_lt_or_eq_dec 0 (rsum h) (rsum_nonneg _ Hn)) as [P|P].
    - destruct IH as [(i' & c' & h' & H1 & H2)|IH]; [intros; apply W; right; auto|left; exists i', c', h'; split; [right; auto|auto]|].
      right. intros i' c' [X|X]; [injection X as <- <-; eauto|eauto].
    - left. exists i, c, h. split; [left; auto|]. split; [auto|]. apply total_empty. auto. }
  destruct D as [D|D].
  { destruct Zero as (out & O1 & O2 & O3).
    { destruct D as (i & c & h & D1 & D2 & D3). destruct (nth_some_ex ppfs i) as (o & Ho). { rewrite El. apply nth_some_lt in D2. auto. }
      destruct (Ep i h o D2 Ho) as (_ & Q). unfold g. apply griddata_none with (i := i) (c := c); auto. rewrite Ho. f_equal. apply Q. apply total_empty; auto. }
    exists out. repeat (split; [solve [auto]|]). auto. }
  assert (Ne : weights <> []). { intros X. destruct W as (_ & W). rewrite X in W. unfold total in W. cbn in W. lra. }
  destruct (griddata_ok nq ppfs weights Ne) as (p & P1 & P2 & P3).
  { intros i c Hi. destruct W as (W & _). split; [apply (W i c Hi)|]. destruct (D i c Hi) as (h & Hh & Hp).
    destruct (nth_some_ex ppfs i) as (o & Ho). { rewrite El. apply nth_some_lt in Hh. auto. }
    destruct (Ep i h o Hh Ho) as (Q & _). destruct (Q Hp) as (p & -> & Q'). eauto. }
  assert (Ip : increasing p). { intros k a b Ha Hb. apply (P3 k a b Ha Hb). destruct W as (_ & W). assert (Z : rsum (map snd weights) = 1) by (rewrite <- W; symmetry; exact (total_rsum (map snd weights))). rewrite Z. lra. }
  fold g in P1. rewrite P1. destruct (pdf_ok (extended_edges edges) p (linspace01 nq)) as (F1 & F2); auto; try congruence; try (rewrite L2; auto).
  clear Zero. set (f := pdf_from_ppf (extended_edges edges) (Some p) (linspace01 nq)) in *. rewrite extended_length in F1.
  destruct (norm_ok m edges (tl f) Hu) as (out & O1 & O2 & O3 & O4). { clear - F1 F2 H2. destruct f as [|x f']; cbn [tl length] in F1 |- *; [lia|]. split; [lia|]. intros; apply F2; right; auto. }
  exists out. split; [auto|]. split; [auto|]. split.
  - destruct (Req_dec (rsum (tl f)) 0); auto.
  - intros [X|(i & c & h & D1 & D2 & D3)]; [congruence|]. exfalso. destruct (D i c D1) as (h' & H' & Hp). assert (h' = h) by congruence. subst. apply (proj1 (total_empty _)) in D3. rewrite D3 in Hp. lra.
Qed.
End Final.
Theorem c56_mismatch edges templates n nq weights : (exists h, In h templates /\ length h <> (length edges - 1)%nat) ->
  quantile_interpolate edges templates n nq weights = Err ValueError.
Proof.
  intros (h & Hh & Hl). unfold quantile_interpolate, quantile_init. replace (forallb _ templates) with false; [auto|].
  symmetry. apply not_true_iff_false. intros F. rewrite forallb_forall in F. apply F, Nat.eqb_eq in Hh. auto.
Qed.
(** the scale of the templates does not matter *)
Lemma cumsum_scale k l : forall s, cumsum_from (k * s) (map (Rmult k) l) = map (Rmult k) (cumsum_from s l).
Proof. induction l as [|a l IH]; intros s; cbn [map cumsum_from]; auto. rewrite <- Rmult_plus_distr_l. f_equal. apply IH. Qed.
Lemma fold_max_scale k l : 0 < k -> forall a, fold_left Rmax (map (Rmult k) l) (k * a) = k * fold_left Rmax l a.
Proof. intros Hk. induction l as [|b l IH]; intros a; cbn [map fold_left]; auto. rewrite RmaxRmult by lra. apply IH. Qed.
Lemma cdf_scale k h edges n : 0 < k -> cdf_values (map (Rmult k) h) edges n = cdf_values h edges n.
Proof.
  intros Hk. unfold cdf_values. destruct (get_bin_width edges n) as [w|]; auto. cbn [rbind]. f_equal.
  replace (zipwith Rmult (map (Rmult k) h) w) with (map (Rmult k) (zipwith Rmult h w)).
  2:{ revert w. induction h as [|x h IH]; intros [|a w]; cbn [map zipwith]; auto. f_equal; [ring|apply IH]. }
  unfold cumsum. pose proof (cumsum_scale k (zipwith Rmult h w) 0) as C. rewrite Rmult_0_r in C. rewrite C.
  set (c := cumsum_from 0 _). assert (M : list_max (map (Rmult k) c) = k * list_max c).
  { unfold list_max. destruct c as [|a c]; cbn [map]; [ring|]. apply fold_max_scale. auto. }
  rewrite M, map_map. apply map_ext. intros x. destruct (Reqb (list_max c) 0) eqn:E; rcmp.
  - rewrite E, Rmult_0_r, Reqb_refl. auto.
  - replace (Reqb (k * list_max c) 0) with false. 2:{ symmetry. apply Reqb_false. intros Z. apply Rmult_integral in Z. lra. }
    field. lra.
Qed.
Theorem c56_scale edges templates ks n nq weights : length ks = length templates -> (forall k, In k ks -> 0 < k) ->
  quantile_interpolate edges (map (fun kh => map (Rmult (fst kh)) (snd kh)) (combine ks templates)) n nq weights = quantile_interpolate edges templates n nq weights.
Proof.
  intros Hl Hk. unfold quantile_interpolate. f_equal. unfold quantile_init.
  set (t' := map _ (combine ks templates)).
  assert (F : forallb (fun h => Nat.eqb (length h) (length edges - 1)) t' = forallb (fun h => Nat.eqb (length h) (length edges - 1)) templates).
  { unfold t'. clear -Hl. revert ks Hl. induction templates as [|h ts IH]; intros [|k ks] Hl; try discriminate; auto. cbn [combine map fst snd forallb]. rewrite map_length, IH by (cbn in Hl; lia). auto. }
  rewrite F. destruct (forallb _ templates); auto.
  assert (E : forall f : list R -> res (option (list R)), (forall k h, 0 < k -> f (map (Rmult k) h) = f h) -> rmap f t' = rmap f templates).
  { intros f Hf. unfold t'. clear F t'. revert ks Hl Hk. induction templates as [|h ts IH]; intros [|k ks] Hl Hk; try discriminate; auto. cbn [combine map fst snd rmap].
    rewrite Hf by (apply Hk; left; auto). rewrite IH; auto. intros; apply Hk; right; auto. }
  rewrite E; auto. intros k h Hp. replace (0 :: map (Rmult k) h) with (map (Rmult k) (0 :: h)) by (cbn [map]; rewrite Rmult_0_r; auto). rewrite cdf_scale; auto.
Qed.

(** two templates with all content in one of two neighbouring bins, half way between the grid points: the result is empty *)
Lemma interp2 a b c d t : interp_seg [a; b] [c; d] t = (d - c) / (b - a) * (t - a) + c.
Proof. unfold interp_seg. cbn [length]. replace (Nat.min _ _) with 1%nat by lia. reflexivity. Qed.
Ltac req := repeat match goal with |- context [Reqb ?a ?b] => first [replace (Reqb a b) with true by (symmetry; apply Reqb_true; lra) | replace (Reqb a b) with false by (symmetry; apply Reqb_false; lra)] end.
Ltac ppf_calc := unfold cdf_values; cbn [get_bin_width diffR rbind zipwith]; unfold cumsum; cbn [cumsum_from]; unfold list_max; cbn [fold_left];
  repeat match goal with |- context [Rmax ?a ?b] => first [rewrite (Rmax_left a b) by lra | rewrite (Rmax_right a b) by lra] end; cbn [map]; req;
  unfold ppf_values; match goal with |- (if Rltb 0 ?s then _ else _) = _ => replace (Rltb 0 s) with true by (symmetry; apply Rltb_true; rewrite !rsum_cons, rsum_nil; lra) end;
  unfold cropped_interp; cbn [nth last_index first_index]; req; cbn [length seq filter selected changed Nat.eqb Nat.leb orb andb nth]; req; unfold mids; cbn [negb map nth rbind zipwith but_last tl];
  f_equal; f_equal; apply map_ext; intros t; rewrite interp2; field.
Lemma ppf_a a nq : a = -1 -> (do cdf <- cdf_values [0; 0; 1; 0] [a; 0; 1; 2; 3] AREA; ppf_values (mids [a; 0; 1; 2; 3]) cdf (linspace01 nq)) = Ok (Some (map (fun t => t + 1/2) (linspace01 nq))).
Proof. intros ->. ppf_calc. Qed.
Lemma ppf_b a nq : a = -1 -> (do cdf <- cdf_values [0; 0; 0; 1] [a; 0; 1; 2; 3] AREA; ppf_values (mids [a; 0; 1; 2; 3]) cdf (linspace01 nq)) = Ok (Some (map (fun t => t + 3/2) (linspace01 nq))).
Proof. intros ->. ppf_calc. Qed.
Lemma zip_map2 {A} (f g : A -> R) (h : R -> R -> R) l : zipwith h (map f l) (map g l) = map (fun x => h (f x) (g x)) l.
Proof. induction l as [|x l IH]; cbn [map zipwith]; auto. rewrite IH. auto. Qed.
Lemma last_nth (l : list R) k : increasing l -> (k < length l)%nat -> nth k l 0 <= nth (length l - 1) l 0.
Proof. intros. apply inc_nth_le; auto; lia. Qed.
Theorem c56_empty_refuted nq : (3 <= nq)%nat ->
  quantile_interpolate [0; 1; 2; 3] [[0; 1; 0]; [0; 0; 1]] AREA nq [(0%nat, 1/2); (1%nat, 1/2)] = Ok [0; 0; 0].
Proof.
  intros Hq. unfold quantile_interpolate, quantile_init. cbn [forallb length Nat.sub Nat.eqb andb]. change (extended_edges [0; 1; 2; 3]) with [0 - (1 - 0); 0; 1; 2; 3].
  set (a := 0 - (1 - 0)). assert (Ea : a = -1) by (unfold a; ring). cbn [rmap]. rewrite ppf_a, ppf_b by exact Ea. cbn [rbind fst snd griddata nth_error tl].
  destruct (linspace_inc nq ltac:(lia)) as (L1 & L2 & L3). set (q := linspace01 nq) in *.
  rewrite map_map, zip_map2.
  replace (map (fun x => 1 / 2 * (x + 1 / 2) + 1 / 2 * (x + 3 / 2)) q) with (map (fun x => x + 1) q) by (apply map_ext; intros; lra).
  set (p := map (fun x => x + 1) q). assert (Ip : increasing p).
  { intros k u v Hu Hv. apply map_nth_inv in Hu, Hv. destruct Hu as (u' & Hu & ->). destruct Hv as (v' & Hv & ->). pose proof (L1 _ _ _ Hu Hv). lra. }
  assert (Lp : length p = nq) by (unfold p; rewrite map_length; auto).
  assert (Rp : forall u, In u p -> 1 <= u <= 2). { intros u Hu. unfold p in Hu. apply in_map_iff in Hu. destruct Hu as (t & <- & Ht). apply L3 in Ht. lra. }
  cbn [pdf_from_ppf but_last map tl]. set (mid := zipwith (fun a d => a + d / 2) (but_last p) (diffR p)).
  assert (Lm : length mid = (nq - 1)%nat) by (unfold mid; rewrite zipwith_length, but_last_length, diffR_length; lia).
  assert (Rm : forall u, In u mid -> 1 < u < 2).
  { intros u Hu. apply In_nth_error in Hu. destruct Hu as (k & Hk). apply mid_nth in Hk. destruct Hk as (x & y & Hx & Hy & ->).
    pose proof (Ip _ _ _ Hx Hy). pose proof (Rp _ (nth_error_In _ _ Hx)). pose proof (Rp _ (nth_error_In _ _ Hy)). lra. }
  pose proof (Rm (nth 0 mid 0) ltac:(apply nth_In; lia)). pose proof (Rm (nth (length mid - 1) mid 0) ltac:(apply nth_In; lia)).
  assert (Z : forall y t, t <= 1 \/ 2 <= t -> interp_fill0 mid y t = 0).
  { intros y t Ht. unfold interp_fill0. destruct (Rltb t (nth 0 mid 0)) eqn:E1; auto. destruct (Rltb (nth (length mid - 1) mid 0) t) eqn:E2; auto. rcmp. lra. }
  rewrite !Z by lra. unfold norm_pdf. cbn [get_bin_width diffR rbind zipwith]. rewrite !rsum_cons, rsum_nil. req. auto.
Qed.
(** [norm_pdf] spreads the content evenly over the bins, whatever their width *)
Theorem c56_width_refuted : norm_pdf [1; 1] [0; 1; 3] AREA = Ok [1/2; 1/4].
Proof. unfold norm_pdf. cbn [get_bin_width diffR rbind zipwith]. rewrite !rsum_cons, rsum_nil. req. f_equal. f_equal; [lra|f_equal; lra]. Qed.
(** at a grid point, bins of different width: a uniform density is not returned as a uniform density *)
Ltac rlt := repeat match goal with |- context [Rltb ?a ?b] => first [replace (Rltb a b) with true by (symmetry; apply Rltb_true; lra) | replace (Rltb a b) with false by (symmetry; apply Rltb_false; lra)] end.
Ltac seg := unfold interp_seg; rewrite ?count_cons, ?count_nil; rlt; cbn [length Nat.add Nat.max Nat.min Nat.sub nth].
Theorem c56_grid_refuted : 
  quantile_interpolate [0; 1; 3] [[1/3; 1/3]] AREA 7 [(0%nat, 1)] = Ok [3/7; 2/7].
Proof.
  assert (L : linspace01 7 = [0; 1/6; 1/3; 1/2; 2/3; 5/6; 1]). { unfold linspace01. cbn [seq map Nat.sub INR]. repeat (f_equal; [lra|]). f_equal; lra. }
  unfold quantile_interpolate, quantile_init. cbn [forallb length Nat.sub Nat.eqb andb]. change (extended_edges [0; 1; 3]) with [0 - (1 - 0); 0; 1; 3]. rewrite L.
  replace (0 - (1 - 0)) with (-1) by ring. cbn [rmap].
  assert (P : (do cdf <- cdf_values [0; 1/3; 1/3] [-1; 0; 1; 3] AREA; ppf_values (mids [-1; 0; 1; 3]) cdf [0; 1/6; 1/3; 1/2; 2/3; 5/6; 1]) = Ok (Some [-1/2; 0; 1/2; 7/8; 5/4; 13/8; 2])).
  { unfold cdf_values; cbn [get_bin_width diffR rbind zipwith]; unfold cumsum; cbn [cumsum_from]; unfold list_max; cbn [fold_left];
  repeat match goal with |- context [Rmax ?a ?b] => first [rewrite (Rmax_left a b) by lra | rewrite (Rmax_right a b) by lra] end; cbn [map]; req.
  unfold ppf_values; match goal with |- (if Rltb 0 ?s then _ else _) = _ => replace (Rltb 0 s) with true by (symmetry; apply Rltb_true; rewrite !rsum_cons, rsum_nil; lra) end.
  unfold cropped_interp; cbn [nth last_index first_index]; req; cbn [length seq filter selected changed Nat.eqb Nat.leb orb andb nth]; req; unfold mids; cbn [negb map nth rbind zipwith but_last tl].
  f_equal; f_equal. seg. repeat (f_equal; [lra|]). f_equal; lra. }
  rewrite P. cbn [rbind fst snd griddata nth_error map pdf_from_ppf diffR but_last zipwith tl]. unfold interp_fill0. cbn [length Nat.sub nth]. rlt. seg.
  unfold norm_pdf. cbn [get_bin_width diffR rbind zipwith]. rewrite !rsum_cons, rsum_nil. req. f_equal. f_equal; [field|f_equal; field].
Qed.
