(** * EnergyDispersionEstimator and PSFTableEstimator: two dimensions, quantile interpolation, order, errors *)
From Coq Require Import String Reals List Bool ZArith Arith Lia Lra Permutation.
From Verif Require Import Num Numpy Sort Table Binning SpecBinning BinningProofs Lists CutsProofs Utils SpecSimulations SpecIRF Morph SpecInterp MorphProofs MorphProofs2 Geometry GeometryProofs GeometryProofs2 GeometryProofs3 Quantile QuantileProofs2 QuantileProofs3 Tensor Quantities Estimators SpecEstimators EstimatorProofs EstimatorProofs2 EstimatorProofs3 EstimatorProofs4 SensitivityProofs4 PDFEstimators SpecPDFEstimators PDFProofs PDFProofs2 PDFProofs3.
Import ListNotations.
Open Scope R_scope.

Section Morph2D.
Variables (m : measured_by) (edges : list R) (g : grid_arg) (pts : list (list R)) (a : array) (axis : Z) (k : nat) (find : list coords -> coords -> nat * nat * nat) (inside : list coords -> coords -> bool).
Hypothesis He : usable_edges m edges.
Hypothesis Hg : float_grid g 2 pts.
Hypothesis Hp : (3 <= length pts)%nat.
Hypothesis Hh : hull_test 2 pts inside.
Hypothesis Hf : simplex_finder pts find.
Hypothesis Ha : histograms_along (length pts) (length edges - 1) axis k a.
Lemma c82_morph_2d : exists est, edisp_init g edges a (fun N e => morph_method find false N (nz m) e) None axis = Ok est /\
  forall t, length t = 2%nat ->
  (in_hull 2 pts t -> exists out p1 p2 p3 c1 c2 c3, pdf_call inside est (TFlat t) = Ok (false, out) /\ shape out = 1%nat :: tl (ashape a) /\
    find pts t = (p1, p2, p3) /\ nth_error (map in_plane pts) p1 = Some c1 /\ nth_error (map in_plane pts) p2 = Some c2 /\ nth_error (map in_plane pts) p3 = Some c3 /\
    forall ix, index_of (shape out) ix ->
      let h1 := histogram_along a k ix p1 in let h2 := histogram_along a k ix p2 in let h3 := histogram_along a k ix p3 in let h := result_along out k ix in
      (filled h1 -> filled h2 -> filled h3 -> nonnegative h /\ (integrates_to_one m edges h \/ all_zero h)) /\
      (~ filled h1 \/ ~ filled h2 \/ ~ filled h3 -> all_zero h) /\
      (filled h1 -> filled h2 -> filled h3 -> (in_plane t = c1 -> normalised m edges h1 h) /\ (in_plane t = c2 -> normalised m edges h2 h) /\ (in_plane t = c3 -> normalised m edges h3 h))) /\
  (~ in_hull 2 pts t -> pdf_call inside est (TFlat t) = Err ValueError).
Proof.
  assert (Le : length edges = (length edges - 1 + 1)%nat) by (pose proof (nz_edges _ _ He); lia).
  unfold edisp_init. rewrite (init_shell edges g pts a axis k (length edges - 1)) by (auto; lia). cbv beta.
  set (interp := morph_method find false (count_slices a k) (nz m) edges).
  destruct (c48_dispatch inside g 2 pts (tms pts a k) interp Hh Hg ltac:(lia) Hp (tms_length pts a k) eq_refl) as (pts' & tm' & A & _ & B).
  pose proof A as (Lt & P & A2 & _). destruct (A2 ltac:(lia)) as (Ep & Et). subst pts' tm'.
  assert (D : of_dimension 2 pts) by (destruct (base_ok g 2 pts Hg Hp) as (_ & D); exact D).
  assert (C1 : columns_of pts = 2%nat). { unfold columns_of. destruct pts as [|x l]; [cbn in Hp; lia|]. apply D. left; auto. }
  assert (Ec : create interp pts (tms pts a k) = Ok (fun t => do o <- morph_interpolate2D false (map plane pts) edges (count_slices a k) (tms pts a k) (nz m) (find pts t) (plane t); Ok ([1%nat], o))).
  { unfold interp, morph_method. cbn [create]. rewrite C1. auto. }
  destruct (B _ Ec) as ((est & E & Q) & _). cbn [rbind] in *. match goal with |- context [rbind ?x _] => replace x with (Ok est) by (symmetry; exact E) end. cbn [rbind]. eexists. split; [reflexivity|].
  intros t Hlt. destruct (Q t Hlt) as (Q1 & Q2). split; [|intros Hout; apply call_error; auto].
  intros Hin. specialize (Q1 Hin). destruct (Hf t Hlt Hin) as (c1 & c2 & c3 & T & Pr & It). destruct (find pts t) as ((p1 & p2) & p3) eqn:Ef. destruct T as (T1 & T2 & T3). cbn [fst snd] in T1, T2, T3.
  assert (Lp1 : (p1 < length pts)%nat) by (apply nth_some_lt in T1; rewrite map_length in T1; auto).
  assert (Lp2 : (p2 < length pts)%nat) by (apply nth_some_lt in T2; rewrite map_length in T2; auto).
  assert (Lp3 : (p3 < length pts)%nat) by (apply nth_some_lt in T3; rewrite map_length in T3; auto).
  assert (Em : map plane pts = map in_plane pts) by reflexivity.
  assert (T1' : nth_error (map plane pts) p1 = Some c1) by exact T1. assert (T2' : nth_error (map plane pts) p2 = Some c2) by exact T2. assert (T3' : nth_error (map plane pts) p3 = Some c3) by exact T3.
  unfold morph_interpolate2D in Q1. rewrite T1', T2', T3' in Q1. rewrite !(tms_nth pts a k) in Q1 by auto. unfold morph_rows_q in Q1.
  set (w := barycentric_2D_interpolation_coefficients c1 c2 c3 (plane t)) in *.
  assert (Lw : length w = 3%nat) by reflexivity.
  assert (Ht2 : templates_of (count_slices a k) edges [point_slices (sw a k) p1; point_slices (sw a k) p2; point_slices (sw a k) p3]).
  { intros x Hx. apply (tms_templates edges 2 pts a axis k (length edges - 1)) with (pts' := pts) (tm' := tms pts a k); auto.
    destruct Hx as [<-|[<-|[<-|[]]]]; eapply nth_error_In; apply tms_nth; auto. }
  destruct (morph_rows_spec m edges (count_slices a k) _ w He Ht2 Lw) as (sl & Es & Ls & Hs). rewrite Es in Q1. cbn [rbind] in Q1.
  assert (Hcol : forall r o, nth_error sl r = Some o -> (forall h, In h (column r [point_slices (sw a k) p1; point_slices (sw a k) p2; point_slices (sw a k) p3]) -> histogram_of (length edges - 1) h) /\ length (column r [point_slices (sw a k) p1; point_slices (sw a k) p2; point_slices (sw a k) p3]) = 3%nat).
  { intros r o Hr. destruct (Hs r o Hr) as (_ & Hlt'). destruct (column_nth r _ _ ltac:(intros y Hy; apply (Ht2 y Hy)) Hlt') as (C2 & C3). split; [|exact C2]. intros h Hh'. apply In_nth_error in Hh'. destruct Hh' as (u & Hu). apply C3 in Hu. destruct Hu as (y & Hy & Hh').
    apply (Ht2 y (nth_error_In _ _ Hy)). eapply nth_error_In; eauto. }
  destruct (call_shell pts a axis k (length edges - 1) Ha inside est false sl (TFlat t) Q1 Ls) as (out & Eo & So & Ro).
  { intros h Hh'. apply In_nth_error in Hh'. destruct Hh' as (r & Hr). destruct (Hs r h Hr) as (Em' & _). destruct (Hcol r h Hr) as (G1 & G2). eapply slice_length; [exact He| |exact G1|exact Em']. rewrite G2. auto. }
  exists out, p1, p2, p3, c1, c2, c3. split; [exact Eo|]. split; [exact So|]. split; [reflexivity|]. split; [auto|]. split; [auto|]. split; [auto|].
  intros ix Hix. set (h1 := histogram_along a k ix p1). set (h2 := histogram_along a k ix p2). set (h3 := histogram_along a k ix p3). set (h := result_along out k ix). pose proof (Ro ix Hix) as Hr. rewrite So in Hix. destruct (Hs _ _ Hr) as (Emm & _). destruct (Hcol _ _ Hr) as (G1 & _).
  assert (Ecol : column (ravel (inner (sw a k)) (slice_index a k ix)) [point_slices (sw a k) p1; point_slices (sw a k) p2; point_slices (sw a k) p3] = [h1; h2; h3]).
  { unfold column. cbn [flat_map]. rewrite !(slice_at pts a axis k (length edges - 1)) by auto. auto. }
  rewrite Ecol in Emm, G1. fold h in Emm.
  set (tl' := map (fun p => histogram_along a k ix p) (seq 0 (length pts))).
  assert (N : forall p, (p < length pts)%nat -> nth_error tl' p = Some (histogram_along a k ix p)).
  { intros p Hp'. unfold tl'. rewrite nth_error_map. rewrite (nth_error_nth' _ 0%nat) by (rewrite seq_length; auto). rewrite seq_nth by auto. auto. }
  assert (E2 : forall u : point, interpolate2D (map in_plane pts) edges tl' (nz m) (p1, p2, p3) u = moment_morph_slice edges [h1; h2; h3] (barycentric_2D_interpolation_coefficients c1 c2 c3 u) (nz m)).
  { intros u. unfold interpolate2D. match goal with |- context [nth_error ?l p1] => change (nth_error l p1) with (nth_error (map plane pts) p1); change (nth_error l p2) with (nth_error (map plane pts) p2); change (nth_error l p3) with (nth_error (map plane pts) p3) end. rewrite T1', T2', T3', !N by auto. auto. }
  split; [|split].
  - intros F1 F2 F3. destruct (c51_inside_2d m edges (map in_plane pts) tl' p1 p2 p3 c1 c2 c3 h1 h2 h3 (plane t) He T1 T2 T3 (N _ Lp1) (N _ Lp2) (N _ Lp3)) as (o & Eo' & R1).
    + intros x [<-|[<-|[<-|[]]]]; split; auto; apply G1; cbn; auto.
    + auto.
    + auto.
    + rewrite E2 in Eo'. fold w in Eo'. assert (o = h) by congruence. subst o. auto.
  - intros F. destruct (slice_any m edges [h1; h2; h3] w He Lw G1) as (o' & E' & _ & _ & Z). assert (o' = h) by congruence. subst o'. apply Z.
    destruct F as [F|[F|F]]; [exists h1|exists h2|exists h3]; cbn; auto.
  - intros F1 F2 F3. destruct (c51_at_vertex m edges (map in_plane pts) tl' p1 p2 p3 c1 c2 c3 h1 h2 h3 He T1 T2 T3 (N _ Lp1) (N _ Lp2) (N _ Lp3)) as (R1 & R2 & R3).
    + intros x [<-|[<-|[<-|[]]]]; split; auto; apply G1; cbn; auto.
    + auto.
    + destruct R1 as (o1 & X1 & Y1), R2 as (o2 & X2 & Y2), R3 as (o3 & X3 & Y3). rewrite E2 in X1, X2, X3. unfold w in Emm. change (plane t) with (in_plane t) in Emm.
      split; [|split]; intros Eq; rewrite Eq in Emm; [assert (o1 = h) by congruence|assert (o2 = h) by congruence|assert (o3 = h) by congruence]; subst; auto.
Qed.
End Morph2D.
