(** * EnergyDispersionEstimator with moment morphing *)
From Coq Require Import String Reals List Bool ZArith Arith Lia Lra Permutation.
From Verif Require Import Num Numpy Sort Table Binning SpecBinning BinningProofs Lists CutsProofs Utils SpecSimulations SpecIRF Morph SpecInterp MorphProofs MorphProofs2 Geometry GeometryProofs GeometryProofs2 GeometryProofs3 Quantile Tensor Quantities Estimators SpecEstimators EstimatorProofs EstimatorProofs2 EstimatorProofs4 SensitivityProofs4 PDFEstimators SpecPDFEstimators PDFProofs.
Import ListNotations.
Open Scope R_scope.

Lemma points_of_dim1 pts : of_dimension 1 pts -> forall i x, nth_error pts i = Some x -> x = [nth 0 x 0].
Proof. intros H i x Hx. specialize (H x (nth_error_In _ _ Hx)). destruct x as [|a [|]]; cbn in H; try lia. auto. Qed.
Lemma arranged_in_order {T} pts (tm : list T) pts' tm' : of_dimension 1 pts -> length tm = length pts -> NoDup pts -> arranged 1 pts tm pts' tm' -> in_order pts' /\ of_dimension 1 pts' /\ Permutation pts pts'.
Proof.
  intros Hd Hl Hnd (L & P & _ & A). specialize (A eq_refl).
  assert (Pp : Permutation pts pts'). { rewrite <- (combine_fst pts tm), <- (combine_fst pts' tm') by lia. apply Permutation_map; auto. }
  assert (D' : of_dimension 1 pts') by (intros p Hp; apply Hd; eapply Permutation_in; [symmetry; eauto|auto]).
  split; [|auto]. intros i a b Ha Hb. rewrite nth_error_map in Ha, Hb. destruct (nth_error pts' i) as [x|] eqn:Ex; [|discriminate]. destruct (nth_error pts' (S i)) as [y|] eqn:Ey; [|discriminate].
  cbn in Ha, Hb. injection Ha as <-. injection Hb as <-. pose proof (A i x y Ex Ey) as Hle. destruct (Rle_lt_or_eq_dec _ _ Hle) as [|E]; auto. exfalso.
  assert (x = y) by (rewrite (points_of_dim1 _ D' _ _ Ex), (points_of_dim1 _ D' _ _ Ey), E; auto). subst y.
  pose proof (Permutation_NoDup Pp Hnd) as N. rewrite NoDup_nth_error in N. specialize (N i (S i) ltac:(apply nth_error_Some; congruence) ltac:(congruence)). lia.
Qed.
Lemma concat_nth1 pts i x : of_dimension 1 pts -> nth_error pts i = Some [x] -> nth_error (concat pts) i = Some x.
Proof. intros H Hx. rewrite dim1_concat by auto. rewrite (map_nth_error _ _ _ Hx). auto. Qed.
Lemma concat_nth1_inv pts i x : of_dimension 1 pts -> nth_error (concat pts) i = Some x -> nth_error pts i = Some [x].
Proof.
  intros H Hx. rewrite dim1_concat, nth_error_map in Hx by auto. destruct (nth_error pts i) as [y|] eqn:E; [|discriminate]. cbn in Hx. injection Hx as <-. rewrite (points_of_dim1 _ H _ _ E). auto.
Qed.
Lemma concat_order pts : of_dimension 1 pts -> in_order pts -> increasing (concat pts).
Proof. intros H. unfold in_order. rewrite dim1_concat; auto. Qed.
Lemma increasing_inj l i j a b : increasing l -> nth_error l i = Some a -> nth_error l j = Some b -> a < b -> (i < j)%nat.
Proof.
  intros H Ha Hb Hab. destruct (lt_eq_lt_dec i j) as [[E|E]|E]; auto.
  - subst. assert (a = b) by congruence. lra.
  - pose proof (increasing_lt l j i b a H E Hb Ha). lra.
Qed.

(** the position of a grid point and its template in the arranged grid *)
Lemma arranged_at {T} d pts (tm : list T) pts' tm' p x y : arranged d pts tm pts' tm' -> nth_error pts p = Some x -> nth_error tm p = Some y ->
  exists i, nth_error pts' i = Some x /\ nth_error tm' i = Some y.
Proof.
  intros (L & P & _) Hx Hy. assert (In (x, y) (combine pts tm)).
  { clear -Hx Hy. revert tm p Hx Hy. induction pts as [|a pts IH]; intros [|b tm] [|p] Hx Hy; cbn in *; try discriminate; [left; congruence|right; eauto]. }
  eapply Permutation_in in H; [|exact P]. apply In_nth_error in H. destruct H as (i & H). exists i.
  clear -H. revert tm' i H. induction pts' as [|a pts IH]; intros [|b tm] [|i] H; cbn in *; try discriminate; [injection H as -> ->; auto|eauto].
Qed.
Section Neighbours.
Context {T : Type} (pts : list (list R)) (tm : list T) (pts' : list (list R)) (tm' : list T).
Hypothesis Hd : of_dimension 1 pts.
Hypothesis Hl : length tm = length pts.
Hypothesis Hnd : NoDup pts.
Hypothesis A : arranged 1 pts tm pts' tm'.
Lemma two_next p q a b tp tq : nth_error pts p = Some [a] -> nth_error pts q = Some [b] -> a < b -> (forall c, In [c] pts -> c <= a \/ b <= c) ->
  nth_error tm p = Some tp -> nth_error tm q = Some tq ->
  exists i, nth_error (concat pts') i = Some a /\ nth_error (concat pts') (S i) = Some b /\ nth_error tm' i = Some tp /\ nth_error tm' (S i) = Some tq.
Proof.
  intros Hp Hq Hab Hno Tp Tq. destruct (arranged_in_order _ _ _ _ Hd Hl Hnd A) as (O & D' & P).
  destruct (arranged_at _ _ _ _ _ _ _ _ A Hp Tp) as (i & I1 & I2). destruct (arranged_at _ _ _ _ _ _ _ _ A Hq Tq) as (j & J1 & J2).
  pose proof (concat_nth1 _ _ _ D' I1) as I3. pose proof (concat_nth1 _ _ _ D' J1) as J3. pose proof (concat_order _ D' O) as O'.
  pose proof (increasing_inj _ _ _ _ _ O' I3 J3 Hab) as Hij. assert (j = S i).
  { destruct (Nat.eq_dec j (S i)); auto. exfalso. destruct (nth_some_ex (concat pts') (S i)) as (c & Hc). { apply nth_some_lt in J3. lia. }
    pose proof (increasing_lt _ i (S i) _ _ O' ltac:(lia) I3 Hc). pose proof (increasing_lt _ (S i) j _ _ O' ltac:(lia) Hc J3).
    destruct (Hno c); [|lra|lra]. apply concat_nth1_inv in Hc; auto. eapply Permutation_in; [symmetry; exact P|]. eapply nth_error_In; eauto. }
  subst j. eauto.
Qed.
End Neighbours.

Lemma nz_edges m edges : usable_edges m edges -> (2 <= length edges)%nat. Proof. intros (_ & H & _). auto. Qed.

Section Shell.
Variables (edges : list R) (g : grid_arg) (d : nat) (pts : list (list R)) (a : array) (axis : Z) (k : nat) (n_bins : nat).
Hypothesis Hg : float_grid g d pts.
Hypothesis Hd : (1 <= d)%nat.
Hypothesis Hp : (d + 1 <= length pts)%nat.
Hypothesis He : (length edges = n_bins + 1)%nat.
Hypothesis Ha : histograms_along (length pts) n_bins axis k a.
Definition sw := swapped a k.
Definition count_slices := size (inner sw).
Definition tms := map (point_slices sw) (seq 0 (length pts)).
Lemma tms_length : length tms = length pts. Proof. unfold tms. rewrite map_length, seq_length. auto. Qed.
Lemma tms_nth p : (p < length pts)%nat -> nth_error tms p = Some (point_slices sw p).
Proof. intros H. unfold tms. rewrite nth_error_map. rewrite (nth_error_nth' _ 0%nat) by (rewrite seq_length; auto). rewrite seq_nth by auto. auto. Qed.
Lemma init_shell interp extrap : pdf_init g edges a interp extrap axis =
  (do est <- parametrized_init g (Some tms) (interp count_slices edges) (match extrap with Some e => Some (e count_slices edges) | None => None end);
   Ok (mkPE est axis (inner sw) n_bins)).
Proof.
  destruct Ha as (H2 & H3 & H4 & H5 & H6 & _). unfold pdf_init. rewrite (swapped_ok a axis k) by auto. cbn [rbind]. fold sw. 
  unfold sw. rewrite (swapped_last a axis k), (swapped_hd a k), H5, H6 by auto. fold sw. fold tms. fold count_slices.
  rewrite (c48_discrete g edges n_bins tms) by auto. destruct extrap; auto.
Qed.
Lemma call_shell inside (est : estimator slices) w sl tgt : estimator_call inside est tgt = Ok (w, ([1%nat], sl)) -> length sl = count_slices -> (forall h, In h sl -> length h = n_bins) ->
  exists out, pdf_call inside (mkPE est axis (inner sw) n_bins) tgt = Ok (w, out) /\ shape out = 1%nat :: tl (ashape a) /\
  forall ix, index_of (shape out) ix -> nth_error sl (ravel (inner sw) (slice_index a k ix)) = Some (result_along out k ix).
Proof.
  destruct Ha as (H2 & H3 & H4 & H5 & H6 & _). intros E L Lh. unfold pdf_call. cbn [pe_est pe_axis pe_inner pe_bins]. rewrite E. cbn [rbind fst snd].
  destruct (raw_result a axis k H2 H3 H4 sl L ltac:(intros; rewrite H6; auto)) as (out & Eo & So & Ro). unfold raw in Eo. rewrite H6 in Eo. fold sw in Eo. rewrite Eo. exists out. auto.
Qed.
Lemma call_error inside (est : estimator slices) e tgt : estimator_call inside est tgt = Err e -> pdf_call inside (mkPE est axis (inner sw) n_bins) tgt = Err e.
Proof. intros E. unfold pdf_call. cbn [pe_est]. rewrite E. auto. Qed.
Lemma tms_histograms p h : (p < length pts)%nat -> In h (point_slices sw p) -> histogram_of n_bins h.
Proof. destruct Ha as (H2 & H3 & H4 & H5 & H6 & H7). intros Hlt Hin. rewrite <- H6. eapply slices_histograms; eauto. lia. Qed.
Lemma tms_templates pts' tm' : arranged d pts tms pts' tm' -> templates_of count_slices edges tm'.
Proof.
  intros (L & P & _) t Ht. assert (In t tms).
  { apply Permutation_map with (f := snd) in P. rewrite !combine_snd in P by (rewrite ?tms_length; auto). eapply Permutation_in; [symmetry; exact P|auto]. }
  unfold tms in H. apply in_map_iff in H. destruct H as (p & <- & Hp'). apply in_seq in Hp'. destruct Ha as (H2 & H3 & H4 & _). split; [apply point_slices_length|].
  intros h Hh. replace (length edges - 1)%nat with n_bins by lia. eapply tms_histograms; eauto. lia.
Qed.
Lemma slice_at p ix : index_of (1%nat :: tl (ashape a)) ix -> nth_error (point_slices sw p) (ravel (inner sw) (slice_index a k ix)) = Some (histogram_along a k ix p).
Proof. destruct Ha as (H2 & H3 & H4 & _). intros H. eapply point_slices_nth; eauto. Qed.
End Shell.

Lemma slice_length m edges pdfs cs o : usable_edges m edges -> length cs = length pdfs -> (forall h, In h pdfs -> histogram_of (length edges - 1) h) ->
  moment_morph_slice edges pdfs cs (nz m) = Ok o -> length o = (length edges - 1)%nat.
Proof. intros He Hc Hh E. destruct (slice_any m edges pdfs cs He Hc Hh) as (out & E' & L & _). congruence. Qed.

Section Morph1D.
Variables (m : measured_by) (edges : list R) (g : grid_arg) (pts : list (list R)) (a : array) (axis : Z) (k : nat) (find : list coords -> coords -> nat * nat * nat) (inside : list coords -> coords -> bool).
Hypothesis He : usable_edges m edges.
Hypothesis Hg : float_grid g 1 pts.
Hypothesis Hp : (2 <= length pts)%nat.
Hypothesis Hnd : NoDup pts.
Hypothesis Ha : histograms_along (length pts) (length edges - 1) axis k a.
Let interp := fun (N : nat) (e : list R) => morph_method find false N (nz m) e.
Lemma grid_dim1 : of_dimension 1 pts. Proof. destruct (base_ok g 1 pts Hg Hp) as (_ & H). exact H. Qed.
Lemma hull_between t p q c d : between pts t p q c d -> in_hull 1 pts [t].
Proof.
  intros (H1 & H2 & H3 & _). apply hull_1d; [apply grid_dim1|]. exists [c], [d]. split; [eapply nth_error_In; eauto|]. split; [eapply nth_error_In; eauto|]. cbn. lra.
Qed.
Lemma hull_largest t : largest pts t -> in_hull 1 pts [t].
Proof. intros (H1 & _). apply hull_1d; [apply grid_dim1|]. exists [t], [t]. cbn. split; [auto|]. split; [auto|]. lra. Qed.
Lemma hull_outside t : outside pts t -> ~ in_hull 1 pts [t].
Proof.
  intros H Hin. pose proof grid_dim1 as D. apply hull_1d in Hin; [|auto]. destruct Hin as (p & q & Ip & Iq & Hle). cbn in Hle.
  destruct (In_nth_error _ _ Ip) as (i & Ei). destruct (In_nth_error _ _ Iq) as (j & Ej). rewrite (points_of_dim1 _ D _ _ Ei) in Ip. rewrite (points_of_dim1 _ D _ _ Ej) in Iq.
  destruct H as [H|H]; apply H in Ip; apply H in Iq; lra.
Qed.
Lemma any_columns pts' (tm' : list (list (list R))) : arranged 1 pts (tms pts a k) pts' tm' -> columns_of pts' = 1%nat /\ of_dimension 1 pts' /\ increasing (concat pts') /\ length (concat pts') = length pts.
Proof.
  intros A. destruct (arranged_in_order _ _ _ _ grid_dim1 (tms_length pts a k) Hnd A) as (O & D' & P). pose proof (Permutation_length P) as L. split; [|split; [auto|]].
  - unfold columns_of. destruct pts' as [|x l]; [cbn in L; lia|]. cbn. apply D'. left; auto.
  - split; [apply concat_order; auto|]. rewrite dim1_concat by auto. rewrite map_length. auto.
Qed.
Lemma morph_1d_call : exists est, pdf_init g edges a interp None axis = Ok est /\
  (forall t p q c d, between pts t p q c d -> exists out, pdf_call inside est (TFlat [t]) = Ok (false, out) /\ shape out = 1%nat :: tl (ashape a) /\
    forall ix, index_of (shape out) ix ->
      moment_morph_slice edges [histogram_along a k ix p; histogram_along a k ix q] [(d - t) / (d - c); (t - c) / (d - c)] (nz m) = Ok (result_along out k ix) /\
      histogram_of (length edges - 1) (histogram_along a k ix p) /\ histogram_of (length edges - 1) (histogram_along a k ix q)) /\
  (forall t, largest pts t -> pdf_call inside est (TFlat [t]) = Err IndexError) /\
  (forall t, outside pts t -> pdf_call inside est (TFlat [t]) = Err ValueError).
Proof.
  assert (HT : hull_test 1 pts inside) by (intros H; lia). assert (Le : length edges = (length edges - 1 + 1)%nat) by (pose proof (nz_edges _ _ He); lia).
  rewrite (init_shell edges g pts a axis k (length edges - 1)) by (auto; lia).
  destruct (c48_dispatch inside g 1 pts (tms pts a k) (interp (count_slices a k) edges) HT Hg (le_n 1) Hp (tms_length pts a k) eq_refl) as (pts' & tm' & A & _ & B).
  pose proof (any_columns pts' tm' A) as (C1 & D' & O' & L'). pose proof A as (Lt & _).
  assert (Ec : create (interp (count_slices a k) edges) pts' tm' = Ok (fun t => do o <- morph_interpolate1D false (concat pts') edges (count_slices a k) tm' (nz m) (hd 0 t); Ok ([1%nat], o))).
  { unfold interp, morph_method. cbn [create]. rewrite C1. auto. }
  destruct (B _ Ec) as ((est & E & Q) & _). cbn [rbind] in *. rewrite E. cbn [rbind]. eexists. split; [reflexivity|]. split; [|split].
  - intros t p q c d Hb. destruct (Q [t] eq_refl) as (Q1 & _). specialize (Q1 (hull_between _ _ _ _ _ Hb)). destruct Hb as (Hp1 & Hq1 & Ht & Hno).
    pose proof (nth_some_lt _ _ _ Hp1) as Lp. pose proof (nth_some_lt _ _ _ Hq1) as Lq.
    destruct (two_next pts (tms pts a k) pts' tm' grid_dim1 (tms_length pts a k) Hnd A p q c d _ _ Hp1 Hq1 ltac:(lra) Hno (tms_nth pts a k p Lp) (tms_nth pts a k q Lq)) as (i & I1 & I2 & I3 & I4).
    assert (Ht2 : templates_of (count_slices a k) edges [point_slices (sw a k) p; point_slices (sw a k) q]).
    { intros x Hx. apply (tms_templates edges 1 pts a axis k (length edges - 1)) with (pts' := pts') (tm' := tm'); auto. destruct Hx as [<-|[<-|[]]]; eapply nth_error_In; eauto. }
    destruct (morph_rows_spec m edges (count_slices a k) _ [(d - t) / (d - c); (t - c) / (d - c)] He Ht2 eq_refl) as (sl & Es & Ls & Hs).
    cbn [hd] in Q1. unfold morph_interpolate1D in Q1. rewrite (digitize_inside (concat pts') t i c d) in Q1 by auto. cbn [rbind] in Q1.
    replace (Z.of_nat (S i) - 1)%Z with (Z.of_nat i) in Q1 by lia. rewrite (pyget_nat _ i c), (pyget_nat _ (S i) d) in Q1 by auto. cbn [rbind] in Q1. rewrite c49_weights in Q1 by lra. cbn [rbind] in Q1.
    rewrite (pyget_nat _ i _ I3), (pyget_nat _ (S i) _ I4) in Q1. cbn [rbind] in Q1. unfold morph_rows_q in Q1. rewrite Es in Q1. cbn [rbind] in Q1.
    assert (Hcol : forall r o, nth_error sl r = Some o -> (forall h, In h (column r [point_slices (sw a k) p; point_slices (sw a k) q]) -> histogram_of (length edges - 1) h) /\ length (column r [point_slices (sw a k) p; point_slices (sw a k) q]) = 2%nat).
    { intros r o Hr. destruct (Hs r o Hr) as (_ & Hlt). destruct (column_nth r _ _ ltac:(intros y Hy; apply (Ht2 y Hy)) Hlt) as (C2 & C3). split; [|exact C2]. intros h Hh. apply In_nth_error in Hh. destruct Hh as (u & Hu). apply C3 in Hu. destruct Hu as (y & Hy & Hh).
      apply (Ht2 y (nth_error_In _ _ Hy)). eapply nth_error_In; eauto. }
    destruct (call_shell pts a axis k (length edges - 1) Ha inside est false sl (TFlat [t]) Q1 Ls) as (out & Eo & So & Ro).
    { intros h Hh. apply In_nth_error in Hh. destruct Hh as (r & Hr). destruct (Hs r h Hr) as (Em & _). destruct (Hcol r h Hr) as (G1 & G2). eapply slice_length; [exact He| |exact G1|exact Em]. symmetry. exact G2. }
    exists out. split; [exact Eo|]. split; [exact So|]. intros ix Hix. pose proof (Ro ix Hix) as Hr. rewrite So in Hix. destruct (Hs _ _ Hr) as (Em & _). destruct (Hcol _ _ Hr) as (G1 & _).
    assert (Ecol : column (ravel (inner (sw a k)) (slice_index a k ix)) [point_slices (sw a k) p; point_slices (sw a k) q] = [histogram_along a k ix p; histogram_along a k ix q]).
    { unfold column. cbn [flat_map]. rewrite !(slice_at pts a axis k (length edges - 1)) by auto. auto. }
    rewrite Ecol in Em, G1. split; [exact Em|]. split; apply G1; cbn; auto.
  - intros t Hb. destruct (Q [t] eq_refl) as (Q1 & _). apply call_error. rewrite Q1 by (apply hull_largest; auto). unfold morph_interpolate1D. cbn [hd].
    assert (Hlast : exists b, nth_error (concat pts') (length (concat pts') - 1) = Some b /\ b <= t).
    { destruct (nth_some_ex (concat pts') (length (concat pts') - 1)) as (b & Hb'); [lia|]. exists b. split; [auto|]. destruct Hb as (_ & Hb). apply Hb. apply concat_nth1_inv in Hb'; auto.
      destruct (arranged_in_order _ _ _ _ grid_dim1 (tms_length pts a k) Hnd A) as (_ & _ & P). eapply Permutation_in; [symmetry; exact P|]. eapply nth_error_In; eauto. }
    destruct Hlast as (b & Hb1 & Hb2). rewrite (digitize_after (concat pts') t b) by auto. cbn [rbind]. replace (Z.of_nat (length (concat pts')) - 1)%Z with (Z.of_nat (length (concat pts') - 1)) by lia.
    rewrite (pyget_nat _ _ b) by auto. cbn [rbind]. rewrite pyget_out. auto.
  - intros t Ho. destruct (Q [t] eq_refl) as (_ & Q2). apply call_error. apply Q2. apply hull_outside; auto.
Qed.
End Morph1D.
