(** * EnergyDispersionEstimator: nearest neighbours, extrapolation in two dimensions *)
From Coq Require Import String Reals List Bool ZArith Arith Lia Lra Permutation.
From Verif Require Import Num Numpy Sort Table Binning SpecBinning BinningProofs Lists CutsProofs Utils SpecSimulations SpecIRF Morph SpecInterp MorphProofs MorphProofs2 Geometry GeometryProofs GeometryProofs2 GeometryProofs3 Quantile QuantileProofs QuantileProofs2 QuantileProofs3 Tensor Quantities SpecUnits SpectralUnitsProofs Estimators SpecEstimators EstimatorProofs EstimatorProofs2 EstimatorProofs3 EstimatorProofs4 SensitivityProofs4 PDFEstimators SpecPDFEstimators PDFProofs PDFProofs2 PDFProofs3 PDFProofs4 PDFProofs5 PDFProofs6.
Import ListNotations.
Open Scope R_scope.

Lemma swap_S (x : nat) i j l : (i < length l)%nat -> (j < length l)%nat -> swap 0%nat (S i) (S j) (x :: l) = x :: swap 0%nat i j l.
Proof.
  intros Hi Hj. unfold swap. cbn [length]. rewrite <- cons_seq. cbn [map Nat.eqb nth]. f_equal. rewrite <- seq_shift, map_map. apply map_ext. intros q. cbn [Nat.eqb].
  destruct (Nat.eqb q i); [auto|]. destruct (Nat.eqb q j); auto.
Qed.
Lemma swap_tl i j (l : list nat) : (1 <= i)%nat -> (1 <= j)%nat -> (i < length l)%nat -> (j < length l)%nat -> tl (swap 0%nat i j l) = swap 0%nat (i - 1) (j - 1) (tl l).
Proof.
  intros. destruct l as [|x l]; [cbn in *; lia|]. destruct i as [|i]; [lia|]. destruct j as [|j]; [lia|]. cbn [length] in *. rewrite swap_S by lia. cbn [tl]. f_equal; lia.
Qed.
Section Nearest.
Variables (edges : list R) (pts : list (list R)) (a : array) (k : nat) (n_bins : nat).
Let n := length (ashape a).
Let axis := (Z.of_nat k - Z.of_nat n)%Z.
Hypothesis Ha : histograms_along (length pts) n_bins axis k a.
Lemma nearest_shell inside (est : estimator slices) w p tgt : estimator_call inside est tgt = Ok (w, ([], map (map Fin) (point_slices (sw a k) p))) ->
  exists out, pdf_call inside (mkPE est axis (inner (sw a k)) n_bins) tgt = Ok (w, out) /\ shape out = tl (ashape a) /\
  forall ix, index_of (shape out) ix -> at_ out ix = Fin (aat a (p :: ix)).
Proof.
  intros E. destruct Ha as (H2 & H3 & H4 & H5 & H6 & _). pose proof H3 as (Hkn & _). fold n in H2, H3, Hkn.
  unfold pdf_call. cbn [pe_est pe_inner pe_bins pe_axis]. rewrite E. cbn [rbind fst snd].
  set (raw' := assemble (inner (sw a k)) n_bins ([], map (map Fin) (point_slices (sw a k) p))).
  assert (Sr : shape raw' = tl (ashape (sw a k))). { unfold raw', assemble. cbn [shape fst app]. unfold sw. rewrite (swapped_shape a axis k) by auto. cbn [tl]. rewrite H6. reflexivity. }
  assert (Lr : length (shape raw') = (n - 1)%nat). { rewrite Sr, tl_len. unfold sw. rewrite swapped_length. auto. }
  unfold tswapaxes. rewrite Lr. rewrite (axis_ok (n - 1) (-1) (n - 2)) by (split; [lia|right; lia]). rewrite (axis_ok (n - 1) axis (k - 1)) by (split; [lia|right; unfold axis; lia]). cbn [rbind].
  eexists. split; [reflexivity|]. cbn [shape at_].
  assert (Sh : swap 0%nat (n - 2) (k - 1) (shape raw') = tl (ashape a)).
  { assert (X : swap 0%nat (n - 1) k (ashape (sw a k)) = ashape a). { cbn [sw swapped ashape]. fold n. apply swap_swap; fold n; lia. }
    rewrite Sr. rewrite <- X. rewrite swap_tl; [f_equal; lia|lia|lia| |]; unfold sw; rewrite swapped_length; fold n; lia. }
  split; [exact Sh|]. intros ix Hix. rewrite Sh in Hix.
  assert (Hfull : index_of (1%nat :: tl (ashape a)) (0%nat :: ix)) by (constructor; [lia|exact Hix]).
  assert (Li : length ix = (n - 1)%nat). { pose proof (F2_length _ _ _ Hix) as L. rewrite tl_len in L. fold n in L. lia. }
  pose proof (split_index a axis k H2 H3 H4 (0%nat :: ix) ltac:(cbn [length]; fold n; lia)) as Sp. fold n in Sp. 
  replace (n - 1)%nat with (S (n - 2)) in Sp by lia. replace k with (S (k - 1)) in Sp at 1 by lia. rewrite swap_S in Sp by lia. cbn [hd] in Sp. injection Sp as Sp.
  rewrite Sp. unfold raw', assemble. cbn [at_ fst snd length skipn]. rewrite last_last, removelast_last.
  pose proof (point_slices_nth a axis k H2 H3 H4 (0%nat :: ix) p Hfull) as Hs. rewrite (nth_error_nth _ _ _ (map_nth_error (map Fin) _ _ Hs)).
  assert (Hm : (nth k (0%nat :: ix) 0 < nth k (ashape a) 0)%nat).
  { apply index_nth in Hfull. destruct Hfull as (_ & Hf). specialize (Hf k). cbn [length] in Hf. rewrite tl_len in Hf. fold n in Hf. specialize (Hf ltac:(lia)). destruct k as [|k']; [lia|]. cbn [nth] in *. rewrite tl_nth in Hf. exact Hf. }
  unfold histogram_along. rewrite map_map. set (fm := fun m => Fin (aat a (with_index (with_index (0%nat :: ix) 0 p) k m))).
  rewrite (nth_indep (map fm _) NaN (fm 0%nat)) by (rewrite map_length, seq_length; auto). rewrite map_nth, seq_nth by auto. unfold fm. f_equal. f_equal. cbn [Nat.add].
  change (with_index (0%nat :: ix) 0 p) with (p :: ix). apply nth_ext with (d := 0%nat) (d' := 0%nat).
  - rewrite with_length; cbn [length]; lia.
  - intros q Hq. rewrite with_length in Hq by (cbn [length]; lia). rewrite with_nth by (cbn [length] in *; lia). destruct (Nat.eqb_spec q k) as [->|]; auto. destruct k; [lia|auto].
Qed.
End Nearest.

Lemma arranged_back {T} d pts (tm : list T) pts' tm' i x y : arranged d pts tm pts' tm' -> length tm = length pts -> nth_error pts' i = Some x -> nth_error tm' i = Some y ->
  exists p, nth_error pts p = Some x /\ nth_error tm p = Some y.
Proof.
  intros (L & P & _) Hl Hx Hy. pose proof (combine_some _ _ _ _ _ Hx Hy) as C. apply nth_error_In in C. eapply Permutation_in in C; [|symmetry; exact P].
  apply In_nth_error in C. destruct C as (p & C). apply combine_nth_inv in C. exists p. exact C.
Qed.
Section NearestD.
Variables (edges : list R) (g : grid_arg) (d : nat) (pts : list (list R)) (a : array) (k ord : nat) (inside : list coords -> coords -> bool).
Hypothesis He : (2 <= length edges)%nat.
Hypothesis Hg : float_grid g d pts.
Hypothesis Hd : (1 <= d)%nat.
Hypothesis Hp : (d + 1 <= length pts)%nat.
Hypothesis Hh : hull_test d pts inside.
Hypothesis Ho : (0 < ord)%nat.
Let axis := (Z.of_nat k - Z.of_nat (length (ashape a)))%Z.
Hypothesis Ha : histograms_along (length pts) (length edges - 1) axis k a.
Lemma c82_nearest : exists est, edisp_init g edges a (fun N e => nearest_pdf_method ord e) (Some (fun N e => nearest_pdf_method ord e)) axis = Ok est /\
  forall t, length t = d -> exists w p x out, pdf_call inside est (TFlat t) = Ok (w, out) /\ (w = false <-> in_hull d pts t) /\
    nth_error pts p = Some x /\ (forall y dx dy, In y pts -> p_distance ord x t dx -> p_distance ord y t dy -> dx <= dy) /\
    shape out = tl (ashape a) /\ forall ix, index_of (shape out) ix -> at_ out ix = Fin (aat a (p :: ix)).
Proof.
  assert (Le : length edges = (length edges - 1 + 1)%nat) by lia.
  unfold edisp_init. rewrite (init_shell edges g pts a axis k (length edges - 1)) by (auto; lia). cbv beta.
  set (interp := nearest_pdf_method ord edges).
  destruct (c48_dispatch inside g d pts (tms pts a k) interp Hh Hg Hd Hp (tms_length pts a k) eq_refl) as (pts' & tm' & A & _ & B).
  pose proof A as (Lt & P & _). assert (Lp : length pts' = length pts). { pose proof (Permutation_length P) as X. rewrite !combine_length, Lt, tms_length in X. lia. }
  assert (Pp : Permutation pts pts'). { rewrite <- (combine_fst pts (tms pts a k)), <- (combine_fst pts' tm') by (rewrite ?tms_length; auto). apply Permutation_map; auto. }
  set (f := fun t : coords => do i <- nn_index pts' ord t; match nth_error tm' i with Some r => Ok ([] : list nat, map (map Fin) r) | None => Err IndexError end).
  assert (Ec : create interp pts' tm' = Ok f) by reflexivity.
  destruct (B _ Ec) as (_ & _ & X). destruct (X interp f eq_refl Ec) as (est & E & Q). clear X B. match goal with |- context [rbind ?x _] => replace x with (Ok est) by (symmetry; exact E) end. cbn [rbind]. eexists. split; [reflexivity|].
  intros t Hlt. destruct (Q t Hlt) as (Q1 & Q2).
  destruct (nn_index_spec pts' ord t) as (i & x & Ei & Hi & Hm & _). { intros ->. cbn in Lp. lia. }
  destruct (nth_some_ex tm' i) as (y & Hy). { rewrite Lt. eapply nth_some_lt; eauto. }
  destruct (arranged_back _ _ _ _ _ _ _ _ A (tms_length pts a k) Hi Hy) as (p & Hx & Hpy). rewrite (tms_nth pts a k p) in Hpy by (eapply nth_some_lt; eauto). injection Hpy as <-.
  assert (Ef : f t = Ok ([], map (map Fin) (point_slices (sw a k) p))). { unfold f. rewrite Ei. cbn [rbind]. rewrite Hy. reflexivity. }
  assert (W : exists w, estimator_call inside est (TFlat t) = Ok (w, ([], map (map Fin) (point_slices (sw a k) p))) /\ (w = false <-> in_hull d pts t)).
  { destruct (Classical_Prop.classic (in_hull d pts t)) as [H|H]; [exists false; rewrite (Q1 H), Ef|exists true; rewrite (Q2 H), Ef]; cbn [rbind]; (split; [reflexivity|]); split; intros; try discriminate; try contradiction; auto. }
  destruct W as (w & Ew & Hw). destruct (nearest_shell pts a k (length edges - 1) Ha inside est w p (TFlat t) Ew) as (out & Eo & So & Ao).
  exists w, p, x, out. split; [exact Eo|]. split; [exact Hw|]. split; [exact Hx|]. split; [|auto].
  intros z dx dz Hz Dx Dz. eapply Permutation_in in Hz; [|exact Pp]. apply In_nth_error in Hz. destruct Hz as (j & Hj).
  rewrite (p_distance_unique ord x t dx _ Ho Dx (pnorm_spec ord x t Ho)), (p_distance_unique ord z t dz _ Ho Dz (pnorm_spec ord z t Ho)). eapply Hm; eauto.
Qed.
End NearestD.

Section Extra2D.
Variables (m : measured_by) (edges : list R) (g : grid_arg) (pts : list (list R)) (a : array) (axis : Z) (k : nat) (find : list coords -> coords -> nat * nat * nat) (tri : list coords -> triangulation) (inside : list coords -> coords -> bool) (sx : list (nat * nat * nat)) (hl : list (nat * nat)).
Hypothesis He : usable_edges m edges.
Hypothesis Hg : float_grid g 2 pts.
Hypothesis Hp : (3 <= length pts)%nat.
Hypothesis Hh : hull_test 2 pts inside.
Hypothesis Ht : tri pts = mkTri (map in_plane pts) sx hl.
Hypothesis Hm : good_mesh (map in_plane pts) sx hl.
Hypothesis Ha : histograms_along (length pts) (length edges - 1) axis k a.
Lemma c82_extrapolate_2d : exists est, edisp_init g edges a (fun N e => morph_method find false N (nz m) e) (Some (fun N e => morph_extrapolator tri false N (nz m) e)) axis = Ok est /\
  forall t, length t = 2%nat -> ~ in_hull 2 pts t -> exists out p1 p2 p3 c1 c2 c3 h f w, pdf_call inside est (TFlat t) = Ok (true, out) /\ shape out = 1%nat :: tl (ashape a) /\
    In (p1, p2, p3) sx /\ triangle_of (map in_plane pts) (p1, p2, p3) (c1, c2, c3) /\
    In h hl /\ side_of (map in_plane pts) h (fst f) (snd f) /\ is_corner (fst f) (c1, c2, c3) /\ is_corner (snd f) (c1, c2, c3) /\
    (forall h' f' d d', In h' hl -> side_of (map in_plane pts) h' (fst f') (snd f') ->
       distance_to_segment (fst f) (snd f) (in_plane t) d -> distance_to_segment (fst f') (snd f') (in_plane t) d' ->
       d <= d' + 1/100000 * (distance (fst f) (snd f) + distance (fst f') (snd f'))) /\
    barycentric (c1, c2, c3) (in_plane t) w /\
    forall ix, index_of (shape out) ix -> slice_result m edges [histogram_along a k ix p1; histogram_along a k ix p2; histogram_along a k ix p3] w (result_along out k ix).
Proof.
  assert (Le : length edges = (length edges - 1 + 1)%nat) by (pose proof (nz_edges _ _ He); lia).
  unfold edisp_init. rewrite (init_shell edges g pts a axis k (length edges - 1)) by (auto; lia). cbv beta.
  set (interp := morph_method find false (count_slices a k) (nz m) edges). set (ex := morph_extrapolator tri false (count_slices a k) (nz m) edges).
  destruct (c48_dispatch inside g 2 pts (tms pts a k) interp Hh Hg ltac:(lia) Hp (tms_length pts a k) eq_refl) as (pts' & tm' & A & _ & B).
  pose proof A as (Lt & P & A2 & _). destruct (A2 ltac:(lia)) as (Ep & Et). subst pts' tm'.
  assert (D : of_dimension 2 pts) by (destruct (base_ok g 2 pts Hg Hp) as (_ & D); exact D).
  assert (C1 : columns_of pts = 2%nat). { unfold columns_of. destruct pts as [|x l]; [cbn in Hp; lia|]. apply D. left; auto. }
  assert (Ec : create interp pts (tms pts a k) = Ok (fun t => do o <- morph_interpolate2D false (map plane pts) edges (count_slices a k) (tms pts a k) (nz m) (find pts t) (plane t); Ok ([1%nat], o))).
  { unfold interp, morph_method. cbn [create]. rewrite C1. auto. }
  assert (Ee : create ex pts (tms pts a k) = Ok (fun t => do o <- morph_extrapolate2D (tri pts) edges (count_slices a k) (tms pts a k) (nz m) (plane t); Ok ([1%nat], o))).
  { unfold ex, morph_extrapolator. cbn [create]. rewrite C1. auto. }
  destruct (B _ Ec) as (_ & _ & X). destruct (X ex _ eq_refl Ee) as (est & E & Q). clear X B. match goal with |- context [rbind ?x _] => replace x with (Ok est) by (symmetry; exact E) end. cbn [rbind]. eexists. split; [reflexivity|].
  intros t Hlt Hout. destruct (Q t Hlt) as (_ & Q2). specialize (Q2 Hout). rewrite Ht in Q2.
  assert (Hte : templates_of (count_slices a k) edges (tms pts a k)). { intros x Hx. apply (tms_templates edges 2 pts a axis k (length edges - 1)) with (pts' := pts) (tm' := tms pts a k); auto. }
  destruct (c52_morph_2d m edges (count_slices a k) (map in_plane pts) sx hl (tms pts a k) (in_plane t) He Hm) as (q & s & tt & w & t1 & t2 & t3 & sl & K1 & K2 & K3 & K4 & K5 & K6 & K7 & K8 & K9 & K10).
  { rewrite map_length, tms_length. auto. } { exact Hte. }
  destruct (c52_nearest (map in_plane pts) sx hl Hm 0 [] (in_plane t)) as (q' & s' & tt' & h & f & _ & _ & N1 & N2 & N3 & N4 & N5 & N6 & N7 & N8 & _).
  assert (q' = q) by congruence. subst q'. assert (s' = s) by congruence. subst s'.
  assert (tt' = tt). { destruct K3 as (X1 & X2 & X3), N3 as (Y1 & Y2 & Y3). destruct tt as ((?, ?), ?), tt' as ((?, ?), ?); cbn [fst snd] in *. congruence. } subst tt'.
  destruct s as ((p1 & p2) & p3), tt as ((c1 & c2) & c3). cbn [fst snd] in K5, K6, K7.
  pose proof K3 as (T1 & T2 & T3). cbn [fst snd] in T1, T2, T3.
  assert (Lp1 : (p1 < length pts)%nat) by (apply nth_some_lt in T1; rewrite map_length in T1; auto).
  assert (Lp2 : (p2 < length pts)%nat) by (apply nth_some_lt in T2; rewrite map_length in T2; auto).
  assert (Lp3 : (p3 < length pts)%nat) by (apply nth_some_lt in T3; rewrite map_length in T3; auto).
  rewrite tms_nth in K5, K6, K7 by auto. injection K5 as <-. injection K6 as <-. injection K7 as <-.
  change (plane t) with (in_plane t) in Q2. rewrite K8 in Q2. cbn [rbind] in Q2.
  assert (Hlen : forall o, In o sl -> length o = (length edges - 1)%nat).
  { intros o Hin. apply In_nth_error in Hin. destruct Hin as (r & Hr). pose proof (nth_some_lt _ _ _ Hr) as Hlr. rewrite K9 in Hlr.
    destruct (nth_some_ex (point_slices (sw a k) p1) r) as (h1 & Hh1). { rewrite point_slices_length. exact Hlr. }
    destruct (nth_some_ex (point_slices (sw a k) p2) r) as (h2 & Hh2). { rewrite point_slices_length. exact Hlr. }
    destruct (nth_some_ex (point_slices (sw a k) p3) r) as (h3 & Hh3). { rewrite point_slices_length. exact Hlr. }
    apply (K10 r o h1 h2 h3 Hr Hh1 Hh2 Hh3). }
  destruct (call_shell pts a axis k (length edges - 1) Ha inside est true sl (TFlat t) Q2 K9 Hlen) as (out & Eo & So & Ro).
  exists out, p1, p2, p3, c1, c2, c3, h, f, w. split; [exact Eo|]. split; [exact So|]. split; [eapply nth_error_In; eauto|]. split; [exact K3|]. split; [exact N4|]. split; [exact N5|]. split; [exact N6|]. split; [exact N7|]. split; [exact N8|]. split; [exact K4|].
  intros ix Hix. pose proof (Ro ix Hix) as Hr. rewrite So in Hix. apply (K10 _ _ _ _ _ Hr); apply (slice_at pts a axis k (length edges - 1) Ha); auto.
Qed.
End Extra2D.

Lemma largest_exists pts : of_dimension 1 pts -> pts <> [] -> exists t, largest pts t.
Proof.
  induction pts as [|x pts IH]; intros D Hn; [congruence|]. pose proof (D x (or_introl eq_refl)) as Lx. destruct x as [|x [|]]; cbn in Lx; try lia.
  destruct pts as [|y pts'].
  - exists x. split; [left; auto|]. intros c [H|[]]. injection H as ->. lra.
  - destruct IH as (t & Ht & Hm). { intros z Hz. apply D. right; auto. } { discriminate. }
    destruct (Rle_lt_dec x t).
    + exists t. split; [right; auto|]. intros c [H|H]; [injection H as ->; auto|auto].
    + exists x. split; [left; auto|]. intros c [H|H]; [injection H as ->; lra|]. specialize (Hm c H). lra.
Qed.
Lemma c82_largest m edges g pts a axis k find inside : usable_edges m edges -> float_grid g 1 pts -> (2 <= length pts)%nat -> NoDup pts ->
  histograms_along (length pts) (length edges - 1) axis k a ->
  exists est t, edisp_init g edges a (fun N e => morph_method find false N (nz m) e) None axis = Ok est /\
    In [t] pts /\ in_hull 1 pts [t] /\ pdf_call inside est (TFlat [t]) = Err IndexError.
Proof.
  intros He Hg Hp Hnd Ha. destruct (c82_morph m edges g pts a axis k find inside He Hg Hp Hnd Ha) as (est & E & _ & L & _).
  destruct (largest_exists pts) as (t & Ht). { eapply grid_dim1; eauto. } { intros ->. cbn in Hp. lia. }
  exists est, t. split; [exact E|]. split; [apply Ht|]. split; [eapply hull_largest; eauto|]. apply L; auto.
Qed.
Lemma c82_psf_quantile bins bu edges pu kwi kwe g d pts a axis k nq choose inside : in_radian bins bu edges -> qu_dim pu = per_solid_angle -> normalization_left_out kwi -> normalization_left_out kwe ->
  usable_edges BySolidAngle edges -> float_grid g d pts -> (1 <= d)%nat -> (d + 1 <= length pts)%nat -> hull_test d pts inside -> served d pts choose -> NoDup pts ->
  (3 <= nq)%nat -> histograms_along (length pts) (length edges - 1) axis k a ->
  exists est, psf_init g bins (Some bu) a (Some pu) kwi (fun n N e => quantile_method choose nq N n e) kwe None axis = Ok est /\
  forall t, length t = d -> in_hull d pts t -> exists out, pdf_call inside est (TFlat t) = Ok (false, out) /\ shape out = 1%nat :: tl (ashape a) /\
    forall ix, index_of (shape out) ix ->
      nonnegative (result_along out k ix) /\ (integrates_to_one BySolidAngle edges (result_along out k ix) \/ all_zero (result_along out k ix)).
Proof.
  intros Hb Hu Hi Hke He Hg Hd Hp Hh Hs Hnd Hq Ha. rewrite (c82_psf g bins bu edges a pu kwi _ kwe _ axis Hb Hu Hi Hke).
  destruct (c82_quantile BySolidAngle edges g d pts a axis k nq choose inside He Hg Hd Hp Hh Hs Hnd Hq Ha) as (est & E & Q).
  exists est. split; [exact E|]. intros t Ht Hin. destruct (Q t Ht) as (Q1 & _). destruct (Q1 Hin) as (out & Eo & So & Ro). exists out. split; [auto|]. split; [auto|]. intros ix Hix. destruct (Ro ix Hix) as (R1 & R2 & _). auto.
Qed.
