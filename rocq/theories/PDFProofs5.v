(** * EnergyDispersionEstimator and PSFTableEstimator: quantile interpolation, order, errors, units *)
From Coq Require Import String Reals List Bool ZArith Arith Lia Lra Permutation.
From Verif Require Import Num Numpy Sort Table Binning SpecBinning BinningProofs Lists CutsProofs Utils SpecSimulations SpecIRF Morph SpecInterp MorphProofs MorphProofs2 Geometry GeometryProofs GeometryProofs2 GeometryProofs3 Quantile QuantileProofs2 QuantileProofs3 Tensor Quantities Estimators SpecEstimators EstimatorProofs EstimatorProofs2 EstimatorProofs3 EstimatorProofs4 SensitivityProofs4 PDFEstimators SpecPDFEstimators PDFProofs PDFProofs2 PDFProofs3.
Import ListNotations.
Open Scope R_scope.

Lemma nth_ext_all {T} (l l' : list T) : (forall i, nth_error l i = nth_error l' i) -> l = l'.
Proof.
  revert l'. induction l as [|x l IH]; intros [|y l'] H; auto; try (specialize (H 0%nat); discriminate).
  pose proof (H 0%nat) as H0. injection H0 as ->. f_equal. apply IH. intros i. exact (H (S i)).
Qed.
Lemma arranged_same {T} d pts (tm : list T) pts' tm' : of_dimension d pts -> length tm = length pts -> (d = 1%nat -> in_order pts) -> arranged d pts tm pts' tm' -> pts' = pts /\ tm' = tm.
Proof.
  intros Hd Hl Ho A. destruct (Nat.eq_dec d 1) as [->|Hne]; [|destruct A as (_ & _ & A & _); auto]. specialize (Ho eq_refl).
  assert (Hnd : NoDup pts). { apply (NoDup_map_inv (fun p => nth 0 p 0)). apply increasing_NoDup. exact Ho. }
  destruct (arranged_in_order _ _ _ _ Hd Hl Hnd A) as (O' & D' & P).
  assert (Ep : pts' = pts).
  { assert (E : map (fun p => nth 0 p 0) pts = map (fun p => nth 0 p 0) pts') by (apply increasing_perm; auto; apply Permutation_map; auto). 
    apply nth_ext_all. intros i. pose proof (f_equal (fun l => nth_error l i) E) as Ei. cbn beta in Ei. rewrite !nth_error_map in Ei.
    destruct (nth_error pts i) as [x|] eqn:Ex, (nth_error pts' i) as [y|] eqn:Ey; cbn in Ei; try discriminate; auto. injection Ei as Ei. rewrite (points_of_dim1 _ Hd _ _ Ex), (points_of_dim1 _ D' _ _ Ey), Ei. auto. }
  subst pts'. split; [auto|]. pose proof A as (L & _). apply nth_ext_all. intros i. destruct (nth_error tm i) as [y|] eqn:Ey.
  - destruct (nth_some_ex pts i) as (x & Hx). { apply nth_some_lt in Ey. lia. } destruct (arranged_at _ _ _ _ _ _ _ _ A Hx Ey) as (j & J1 & J2).
    rewrite NoDup_nth_error in Hnd. assert (i = j). { apply Hnd; [apply nth_some_lt in Hx; auto|congruence]. } subst. auto.
  - apply nth_error_None in Ey. apply nth_error_None. lia.
Qed.

Section QuantileD.
Variables (m : measured_by) (edges : list R) (g : grid_arg) (d : nat) (pts : list (list R)) (a : array) (axis : Z) (k nq : nat) (choose : list coords -> coords -> list (nat * R)) (inside : list coords -> coords -> bool).
Hypothesis He : usable_edges m edges.
Hypothesis Hg : float_grid g d pts.
Hypothesis Hd : (1 <= d)%nat.
Hypothesis Hp : (d + 1 <= length pts)%nat.
Hypothesis Hh : hull_test d pts inside.
Hypothesis Hs : served d pts choose.
Hypothesis Hnd : NoDup pts.
Hypothesis Hq : (3 <= nq)%nat.
Hypothesis Ha : histograms_along (length pts) (length edges - 1) axis k a.
Definition qslice := fun (pts' : list coords) (t : coords) (ep : list R * list (option (list R))) =>
  norm_pdf (tl (pdf_from_ppf (fst ep) (griddata (choose pts' t) (snd ep)) (linspace01 nq))) (tl (fst ep)) (nz m).
Lemma c82_quantile : exists est, edisp_init g edges a (fun N e => quantile_method choose nq N (nz m) e) None axis = Ok est /\
  forall t, length t = d ->
  (in_hull d pts t -> exists out, pdf_call inside est (TFlat t) = Ok (false, out) /\ shape out = 1%nat :: tl (ashape a) /\
    forall ix, index_of (shape out) ix ->
      nonnegative (result_along out k ix) /\ (integrates_to_one m edges (result_along out k ix) \/ all_zero (result_along out k ix)) /\
      ((d = 1%nat -> in_order pts) -> exists r, result_along out k ix = map Fin r /\
         quantile_interpolate edges (map (histogram_along a k ix) (seq 0 (length pts))) (nz m) nq (choose pts t) = Ok r)) /\
  (~ in_hull d pts t -> pdf_call inside est (TFlat t) = Err ValueError).
Proof.
  assert (Le : length edges = (length edges - 1 + 1)%nat) by (pose proof (nz_edges _ _ He); lia).
  unfold edisp_init. rewrite (init_shell edges g pts a axis k (length edges - 1)) by (auto; lia). cbv beta.
  set (interp := quantile_method choose nq (count_slices a k) (nz m) edges).
  destruct (c48_dispatch inside g d pts (tms pts a k) interp Hh Hg Hd Hp (tms_length pts a k) eq_refl) as (pts' & tm' & A & _ & B).
  assert (D : of_dimension d pts) by (destruct (base_ok g d pts Hg Hp) as (_ & D); exact D).
  assert (Ht : templates_of (count_slices a k) edges tm') by (eapply tms_templates; eauto).
  pose proof A as (Lt & P & _). assert (Lp : length pts' = length pts). { pose proof (Permutation_length P) as X. rewrite !combine_length, Lt, tms_length in X. lia. }
  assert (Hser : linear_interpolation d pts' choose).
  { destruct Hs as (S1 & S2). destruct (Nat.eq_dec d 1) as [E|E].
    - apply S1; auto; rewrite E in D, A; destruct (arranged_in_order _ _ _ _ D (tms_length pts a k) Hnd A) as (O' & _ & P'); auto.
    - destruct A as (_ & _ & A & _). destruct (A E) as (-> & _). auto. }
  assert (Hcol : forall r, (r < count_slices a k)%nat -> length (column r tm') = length pts /\ (forall h, In h (column r tm') -> histogram_of (length edges - 1) h) /\ forall i h, nth_error (column r tm') i = Some h <-> exists x, nth_error tm' i = Some x /\ nth_error x r = Some h).
  { intros r Hr. destruct (column_nth r tm' (count_slices a k)) as (C1 & C2). { intros x Hx. apply (Ht x Hx). } { auto. }
    split; [lia|]. split; [|auto]. intros h Hin. apply In_nth_error in Hin. destruct Hin as (u & Hu). apply C2 in Hu. destruct Hu as (y & Hy & Hyr). apply (Ht y (nth_error_In _ _ Hy)). eapply nth_error_In; eauto. }
  (* construction *)
  assert (Hinit : exists eps, rmap (fun r => quantile_init edges (column r tm') (nz m) nq) (seq 0 (count_slices a k)) = Ok eps).
  { apply rmap_all_ok. intros r Hr. apply in_seq in Hr. destruct (Hcol r ltac:(lia)) as (_ & C2 & _).
    destruct (c56_density m edges (column r tm') nq [] He Hq C2 (or_introl eq_refl)) as (o & Eo & _). unfold quantile_interpolate in Eo. destruct (quantile_init edges (column r tm') (nz m) nq) as [ep|]; [eauto|discriminate]. }
  destruct Hinit as (eps & Einit). destruct (rmap_nth _ _ _ Einit) as (Leps & Heps). rewrite seq_length in Leps.
  assert (Ec : create interp pts' tm' = Ok (fun t => do o <- rmap (qslice pts' t) eps; Ok ([1%nat], map (map Fin) o))).
  { unfold interp, quantile_method. cbn [create]. rewrite Einit. reflexivity. }
  destruct (B _ Ec) as ((est & E & Q) & _). cbn [rbind] in *. match goal with |- context [rbind ?x _] => replace x with (Ok est) by (symmetry; exact E) end. cbn [rbind]. eexists. split; [reflexivity|].
  intros t Hlt. destruct (Q t Hlt) as (Q1 & Q2). split; [|intros Hout; apply call_error; auto].
  intros Hin. specialize (Q1 Hin).
  assert (Hin' : in_hull d pts' t). { apply (arranged_hull d pts (tms pts a k) pts' tm' t (tms_length pts a k) D A). auto. }
  destruct (Hser t Hlt Hin') as (Hmean & _). rewrite Lp in Hmean.
  assert (Hep : forall r ep, nth_error eps r = Some ep -> exists o, qslice pts' t ep = Ok o /\ quantile_interpolate edges (column r tm') (nz m) nq (choose pts' t) = Ok o /\ histogram_of (length edges - 1) o /\ (integral_over (measure m) edges o = 1 \/ forall x, In x o -> x = 0)).
  { intros r ep Hr. pose proof (nth_some_lt _ _ _ Hr) as Hlt'. rewrite Leps in Hlt'. destruct (Hcol r Hlt') as (C1 & C2 & _).
    destruct (Heps r r) as (ep' & Hr' & Ei). { rewrite (nth_error_nth' _ 0%nat) by (rewrite seq_length; auto). rewrite seq_nth by auto. auto. }
    assert (ep' = ep) by congruence. subst ep'.
    destruct (c56_density m edges (column r tm') nq (choose pts' t) He Hq C2) as (o & Eo & Ho & Io & _). { right. rewrite C1. exact Hmean. }
    exists o. split; [|auto]. unfold quantile_interpolate in Eo. rewrite Ei in Eo. exact Eo. }
  destruct (rmap_all_ok (qslice pts' t) eps) as (os & Eos). { intros ep Hep'. apply In_nth_error in Hep'. destruct Hep' as (r & Hr). destruct (Hep r ep Hr) as (o & Eo & _). eauto. }
  destruct (rmap_nth _ _ _ Eos) as (Los & Hos). rewrite Eos in Q1. cbn [rbind] in Q1.
  assert (Hres : forall r h, nth_error (map (map Fin) os) r = Some h -> exists o, h = map Fin o /\ quantile_interpolate edges (column r tm') (nz m) nq (choose pts' t) = Ok o /\ histogram_of (length edges - 1) o /\ (integral_over (measure m) edges o = 1 \/ forall x, In x o -> x = 0)).
  { intros r h Hr. rewrite nth_error_map in Hr. destruct (nth_error os r) as [o|] eqn:Er; [|discriminate]. cbn in Hr. injection Hr as <-.
    destruct (nth_some_ex eps r) as (ep & Hr). { apply nth_some_lt in Er. lia. } destruct (Hos r ep Hr) as (o' & Ho' & Eo'). assert (o' = o) by congruence. subst o'.
    destruct (Hep r ep Hr) as (o'' & E1 & E2 & E3 & E4). assert (o'' = o) by congruence. subst o''. exists o. auto. }
  destruct (call_shell pts a axis k (length edges - 1) Ha inside est false (map (map Fin) os) (TFlat t) Q1) as (out & Eo & So & Ro).
  { rewrite map_length. lia. }
  { intros h Hh'. apply In_nth_error in Hh'. destruct Hh' as (r & Hr). destruct (Hres r h Hr) as (o & -> & _ & (L & _) & _). rewrite map_length. auto. }
  exists out. split; [exact Eo|]. split; [exact So|]. intros ix Hix. pose proof (Ro ix Hix) as Hr. rewrite So in Hix. destruct (Hres _ _ Hr) as (o & Eho & Eq & (L & Pos) & I). rewrite Eho.
  split; [|split].
  - intros x Hx. apply in_map_iff in Hx. destruct Hx as (y & <- & Hy). eauto.
  - destruct I as [I|I]; [left; exists o; auto|right]. intros x Hx. apply in_map_iff in Hx. destruct Hx as (y & <- & Hy). rewrite (I y Hy). auto.
  - intros Hord. exists o. split; [auto|]. destruct (arranged_same d pts (tms pts a k) pts' tm' D (tms_length pts a k) Hord A) as (-> & ->).
    rewrite <- Eq. f_equal. set (r := ravel (inner (sw a k)) (slice_index a k ix)) in *. assert (Hlr : (r < count_slices a k)%nat). { apply nth_some_lt in Hr. rewrite map_length in Hr. lia. }
    destruct (Hcol r Hlr) as (C1 & _ & C3). apply nth_ext_all. intros i. destruct (lt_dec i (length pts)) as [Hi|Hi].
    + rewrite nth_error_map, (nth_error_nth' _ 0%nat) by (rewrite seq_length; auto). rewrite seq_nth by auto. cbn [option_map Nat.add]. symmetry. apply C3. exists (point_slices (sw a k) i). split; [apply tms_nth; auto|]. apply (slice_at pts a axis k (length edges - 1) Ha); auto.
    + rewrite !(proj2 (nth_error_None _ _)); auto; [rewrite C1|rewrite map_length, seq_length]; lia.
Qed.
End QuantileD.
