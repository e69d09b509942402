(** * EnergyDispersionEstimator and PSFTableEstimator: properties of the result *)
From Coq Require Import String Reals List Bool ZArith Arith Lia Lra Permutation.
From Verif Require Import Num Numpy Sort Table Binning SpecBinning BinningProofs Lists CutsProofs Utils SpecSimulations SpecIRF Morph SpecInterp MorphProofs MorphProofs2 Geometry GeometryProofs GeometryProofs2 GeometryProofs3 Quantile QuantileProofs2 QuantileProofs3 Tensor Quantities Estimators SpecEstimators EstimatorProofs EstimatorProofs2 EstimatorProofs4 SensitivityProofs4 PDFEstimators SpecPDFEstimators PDFProofs PDFProofs2.
Import ListNotations.
Open Scope R_scope.

Lemma morph_two m edges h0 h1 c0 c1 o : usable_edges m edges -> histogram_of (length edges - 1) h0 -> histogram_of (length edges - 1) h1 ->
  moment_morph_slice edges [h0; h1] [c0; c1] (nz m) = Ok o -> 0 < c0 -> 0 <= c1 -> c0 + c1 = 1 ->
  (filled h0 -> filled h1 -> nonnegative o /\ (integrates_to_one m edges o \/ all_zero o)) /\
  (~ filled h0 \/ ~ filled h1 -> all_zero o) /\
  (c1 = 0 -> filled h0 -> filled h1 -> normalised m edges h0 o).
Proof.
  intros He H0 H1 E P0 P1 S. split; [|split].
  - intros F0 F1. destruct (slice_normalised m edges He [h0; h1] [c0; c1] eq_refl) as (o' & E' & C & N).
    { intros h [<-|[<-|[]]]; auto. }
    assert (o' = o) by congruence. subst o'. assert (Nn : nonnegative o). { apply N; [intros c [<-|[<-|[]]]; lra|exists c0; cbn; auto]. }
    split; [exact Nn|]. destruct C as [C|[C|C]]; auto. right. pose proof (slice_length m edges [h0; h1] [c0; c1] o He eq_refl ltac:(intros h [<-|[<-|[]]]; auto) E) as L. pose proof (nz_edges _ _ He).
    destruct o as [|x o]; [cbn in L; lia|]. specialize (C x (or_introl eq_refl)). destruct (Nn x (or_introl eq_refl)) as (r & Er & _). congruence.
  - intros F. destruct (slice_any m edges [h0; h1] [c0; c1] He eq_refl) as (o' & E' & _ & _ & Z). { intros h [<-|[<-|[]]]; auto. }
    assert (o' = o) by congruence. subst o'. apply Z. destruct F as [F|F]; [exists h0|exists h1]; cbn; auto.
  - intros -> F0 F1. destruct (slice_same m edges He [h0; h1] [c0; 0] eq_refl ltac:(intros h [<-|[<-|[]]]; auto) h0) as (o' & E' & N).
    + rewrite !rsum_cons; unfold rsum; cbn; lra.
    + cbn; auto.
    + intros [|[|[|]]] c t Hc Ht Hne; cbn in Hc, Ht; try discriminate; try congruence.
    + assert (o' = o) by congruence. subst o'. exact N.
Qed.

Lemma c82_morph m edges g pts a axis k find inside : usable_edges m edges -> float_grid g 1 pts -> (2 <= length pts)%nat -> NoDup pts ->
  histograms_along (length pts) (length edges - 1) axis k a ->
  exists est, edisp_init g edges a (fun N e => morph_method find false N (nz m) e) None axis = Ok est /\
  (forall t p q c d, between pts t p q c d -> exists out, pdf_call inside est (TFlat [t]) = Ok (false, out) /\ shape out = 1%nat :: tl (ashape a) /\
    forall ix, index_of (shape out) ix ->
      let h0 := histogram_along a k ix p in let h1 := histogram_along a k ix q in let h := result_along out k ix in
      (filled h0 -> filled h1 -> nonnegative h /\ (integrates_to_one m edges h \/ all_zero h)) /\
      (~ filled h0 \/ ~ filled h1 -> all_zero h) /\
      (t = c -> filled h0 -> filled h1 -> normalised m edges h0 h) /\
      moment_morph_slice edges [h0; h1] [(d - t) / (d - c); (t - c) / (d - c)] (nz m) = Ok h) /\
  (forall t, largest pts t -> pdf_call inside est (TFlat [t]) = Err IndexError) /\
  (forall t, outside pts t -> pdf_call inside est (TFlat [t]) = Err ValueError).
Proof.
  intros He Hg Hp Hnd Ha. destruct (morph_1d_call m edges g pts a axis k find inside He Hg Hp Hnd Ha) as (est & E & B & L & O). exists est. split; [exact E|]. split; [|split; [exact L|exact O]].
  intros t p q c d Hb. destruct (B t p q c d Hb) as (out & Eo & So & Ro). exists out. split; [exact Eo|]. split; [exact So|]. intros ix Hix h0 h1 h. destruct (Ro ix Hix) as (Em & H0 & H1).
  destruct Hb as (_ & _ & Ht & _).
  destruct (morph_two m edges h0 h1 ((d - t) / (d - c)) ((t - c) / (d - c)) h He H0 H1 Em) as (M1 & M2 & M3).
  - apply Rdiv_lt_0_compat; lra.
  - apply Rmult_le_pos; [lra|]. apply Rlt_le, Rinv_0_lt_compat. lra.
  - field. lra.
  - split; [exact M1|]. split; [exact M2|]. split; [|exact Em]. intros -> F0 F1. apply M3; auto. replace (c - c) with 0 by lra. unfold Rdiv. apply Rmult_0_l.
Qed.

(** extrapolation: the two smallest or the two largest grid points *)
Section Extra1D.
Variables (m : measured_by) (edges : list R) (g : grid_arg) (pts : list (list R)) (a : array) (axis : Z) (k : nat) (find : list coords -> coords -> nat * nat * nat) (tri : list coords -> triangulation) (inside : list coords -> coords -> bool).
Hypothesis He : usable_edges m edges.
Hypothesis Hg : float_grid g 1 pts.
Hypothesis Hp : (2 <= length pts)%nat.
Hypothesis Hnd : NoDup pts.
Hypothesis Ha : histograms_along (length pts) (length edges - 1) axis k a.
Lemma clip_length edges' n sl out nb : clip_negative edges' n sl = Ok out -> (forall h, In h sl -> length h = nb) -> (forall h, In h out -> length h = nb) /\ length out = length sl.
Proof.
  unfold clip_negative. intros H L. destruct (forallb _ sl); [injection H as <-; auto|]. destruct (get_bin_width edges' n) as [w|]; [|discriminate]. cbn [rbind] in H. injection H as <-. split; [|rewrite !map_length; auto].
  intros h Hh. apply in_map_iff in Hh. destruct Hh as (h' & <- & Hh). apply in_map_iff in Hh. destruct Hh as (h'' & <- & Hh). unfold renormalise. rewrite !map_length. auto.
Qed.
Lemma c82_extrapolate : exists est, edisp_init g edges a (fun N e => morph_method find false N (nz m) e) (Some (fun N e => morph_extrapolator tri false N (nz m) e)) axis = Ok est /\
  forall t p q c d, beyond pts t p q c d -> exists out w, pdf_call inside est (TFlat [t]) = Ok (true, out) /\ shape out = 1%nat :: tl (ashape a) /\
    total w = 1 /\ weighted w [c; d] = t /\
    forall ix, index_of (shape out) ix -> slice_result m edges [histogram_along a k ix p; histogram_along a k ix q] w (result_along out k ix).
Proof.
  assert (HT : hull_test 1 pts inside) by (intros H; lia). assert (Le : length edges = (length edges - 1 + 1)%nat) by (pose proof (nz_edges _ _ He); lia).
  unfold edisp_init. rewrite (init_shell edges g pts a axis k (length edges - 1)) by (auto; lia).
  cbv beta. set (interp := morph_method find false (count_slices a k) (nz m) edges). set (ex := morph_extrapolator tri false (count_slices a k) (nz m) edges).
  destruct (c48_dispatch inside g 1 pts (tms pts a k) interp HT Hg (le_n 1) Hp (tms_length pts a k) eq_refl) as (pts' & tm' & A & _ & B).
  pose proof (any_columns g pts a k Hg Hp Hnd pts' tm' A) as (C1 & D' & O' & L'). pose proof A as (Lt & _). pose proof (grid_dim1 g pts Hg Hp) as D.
  destruct (arranged_in_order _ _ _ _ D (tms_length pts a k) Hnd A) as (_ & _ & P).
  assert (Ec : create interp pts' tm' = Ok (fun t => do o <- morph_interpolate1D false (concat pts') edges (count_slices a k) tm' (nz m) (hd 0 t); Ok ([1%nat], o))).
  { unfold interp, morph_method. cbn [create]. rewrite C1. auto. }
  assert (Ee : create ex pts' tm' = Ok (fun t => do o <- morph_extrapolate1D (concat pts') edges (count_slices a k) tm' (nz m) (hd 0 t); Ok ([1%nat], o))).
  { unfold ex, morph_extrapolator. cbn [create]. rewrite C1. auto. }
  destruct (B _ Ec) as (_ & _ & X). destruct (X ex _ eq_refl Ee) as (est & E & Q). clear X B. cbn [rbind] in *. match goal with |- context [rbind ?x _] => replace x with (Ok est) by (symmetry; exact E) end. cbn [rbind]. eexists. split; [reflexivity|].
  intros t p q c d (H1 & H2 & Hcd & Hb).
  pose proof (nth_some_lt _ _ _ H1) as Lp. pose proof (nth_some_lt _ _ _ H2) as Lq.
  assert (Ho : outside pts t). { destruct Hb as [(Hb & Hs)|(Hb & Hs)]; [left|right]; intros x Hx; destruct (Hs x Hx); lra. }
  assert (Hno : forall x, In [x] pts -> x <= c \/ d <= x). { destruct Hb as [(Hb & Hs)|(Hb & Hs)]; intros x Hx; destruct (Hs x Hx); auto; subst; auto; lra. }
  destruct (Q [t] eq_refl) as (_ & Q2). specialize (Q2 (hull_outside g pts Hg Hp t Ho)). cbn [hd] in Q2.
  destruct (two_next pts (tms pts a k) pts' tm' D (tms_length pts a k) Hnd A p q c d _ _ H1 H2 Hcd Hno (tms_nth pts a k p Lp) (tms_nth pts a k q Lq)) as (i & I1 & I2 & I3 & I4).
  assert (Ht : templates_of (count_slices a k) edges tm') by (eapply tms_templates; eauto).
  assert (Lc : length tm' = length (concat pts')) by (rewrite L', Lt; symmetry; apply Permutation_length; auto).
  destruct (c52_morph_1d m edges (count_slices a k) (concat pts') tm' t He (increasing_NoDup _ O') ltac:(lia) Lc Ht) as (j & ca & cb & ta & tb & w & sl & J1 & J2 & J3 & J4 & Hj & W1 & W2 & Es & Ls & Hs).
  assert (j = i).
  { destruct Hb as [(Hb & Hss)|(Hb & Hss)].
    - assert (i = 0%nat). { destruct i as [|i]; auto. exfalso. destruct (nth_some_ex (concat pts') 0) as (x & Hx). { apply nth_some_lt in I1. lia. }
        pose proof (increasing_lt _ 0 (S i) _ _ O' ltac:(lia) Hx I1). apply concat_nth1_inv in Hx; auto. assert (In [x] pts) by (eapply Permutation_in; [symmetry; exact P|]; eapply nth_error_In; eauto). destruct (Hss x H0); lra. }
      destruct Hj as [(_ & Hj)|((x & Hx & Hle) & _)]; [lia|]. exfalso. apply In_nth_error in Hx. destruct Hx as (u & Hu). apply concat_nth1_inv in Hu; auto.
      assert (In [x] pts) by (eapply Permutation_in; [symmetry; exact P|]; eapply nth_error_In; eauto). destruct (Hss x H0); lra.
    - assert (S (S i) = length (concat pts')). { pose proof (nth_some_lt _ _ _ I2). destruct (Nat.eq_dec (S (S i)) (length (concat pts'))); auto. exfalso. destruct (nth_some_ex (concat pts') (S (S i))) as (x & Hx); [lia|].
        pose proof (increasing_lt _ (S i) (S (S i)) _ _ O' ltac:(lia) I2 Hx). apply concat_nth1_inv in Hx; auto. assert (In [x] pts) by (eapply Permutation_in; [symmetry; exact P|]; eapply nth_error_In; eauto). destruct (Hss x H3); lra. }
      destruct Hj as [(Hj & _)|(_ & Hj)]; [|lia]. exfalso. apply nth_error_In in I2. apply Hj in I2. lra. }
  subst j. rewrite I1 in J1. rewrite I2 in J2. rewrite I3 in J3. rewrite I4 in J4. injection J1 as <-. injection J2 as <-. injection J3 as <-. injection J4 as <-.
  rewrite Es in Q2. cbn [rbind] in Q2.
  assert (Hlen : forall h, In h sl -> length h = (length edges - 1)%nat).
  { intros h Hh. apply In_nth_error in Hh. destruct Hh as (r & Hr). pose proof (nth_some_lt _ _ _ Hr) as Hlt. rewrite Ls in Hlt.
    destruct (nth_some_ex (point_slices (sw a k) p) r) as (ha & Hha). { rewrite point_slices_length. exact Hlt. }
    destruct (nth_some_ex (point_slices (sw a k) q) r) as (hb & Hhb). { rewrite point_slices_length. exact Hlt. }
    apply (Hs r h ha hb Hr Hha Hhb). }
  destruct (call_shell pts a axis k (length edges - 1) Ha inside est true sl (TFlat [t]) Q2 Ls Hlen) as (out & Eo & So & Ro).
  exists out, w. split; [exact Eo|]. split; [exact So|]. split; [exact W1|]. split; [exact W2|]. intros ix Hix. pose proof (Ro ix Hix) as Hr. rewrite So in Hix.
  apply (Hs _ _ _ _ Hr); apply (slice_at pts a axis k (length edges - 1) Ha); auto.
Qed.
End Extra1D.
