(** * EnergyDispersionEstimator and PSFTableEstimator: order of the grid points, errors, units *)
From Coq Require Import String Reals List Bool ZArith Arith Lia Lra Permutation.
From Verif Require Import Num Numpy Sort Table Binning SpecBinning BinningProofs Lists CutsProofs Utils SpecSimulations SpecIRF Morph SpecInterp MorphProofs MorphProofs2 Geometry GeometryProofs GeometryProofs2 GeometryProofs3 Quantile QuantileProofs2 QuantileProofs3 Tensor Quantities SpecUnits SpectralUnitsProofs Estimators SpecEstimators EstimatorProofs EstimatorProofs2 EstimatorProofs3 EstimatorProofs4 SensitivityProofs4 PDFEstimators SpecPDFEstimators PDFProofs PDFProofs2 PDFProofs3 PDFProofs4 PDFProofs5.
Import ListNotations.
Open Scope R_scope.

Lemma swap_tail i j x y l : (1 <= i)%nat -> (1 <= j)%nat -> exists t, swap 0%nat i j (x :: l) = x :: t /\ swap 0%nat i j (y :: l) = y :: t.
Proof.
  intros Hi Hj. unfold swap. cbn [length]. rewrite <- cons_seq. cbn [map]. 
  assert (forall z, nth (if Nat.eqb 0 i then j else if Nat.eqb 0 j then i else 0) (z :: l) 0%nat = z) as Hz.
  { intros z. destruct (Nat.eqb_spec 0 i); [lia|]. destruct (Nat.eqb_spec 0 j); [lia|]. auto. }
  eexists. rewrite !Hz. split; [reflexivity|]. f_equal. apply map_ext_in. intros q Hq. apply in_seq in Hq.
  assert (forall n, (1 <= n)%nat -> nth n (y :: l) 0%nat = nth n (x :: l) 0%nat) as Hn. { intros [|n] H; [lia|]. auto. }
  apply Hn. destruct (Nat.eqb q i); [auto|]. destruct (Nat.eqb q j); auto. lia.
Qed.
Lemma reordered_slices a a' axis k n_points n_bins i j : histograms_along n_points n_bins axis k a -> ashape a' = ashape a -> (j < n_points)%nat ->
  (forall ix, index_of (tl (ashape a)) ix -> aat a' (i :: ix) = aat a (j :: ix)) ->
  point_slices (sw a' k) i = point_slices (sw a k) j.
Proof.
  intros (H2 & H3 & H4 & H5 & H6 & _) Hs Hj H. unfold point_slices, sw. assert (Ei : inner (swapped a' k) = inner (swapped a k)). { unfold inner, swapped. cbn [ashape]. rewrite Hs. auto. }
  rewrite Ei. apply map_ext_in. intros jx Hjx. apply all_indices_in in Hjx. unfold last_slice. replace (last (ashape (swapped a' k)) 0%nat) with (last (ashape (swapped a k)) 0%nat) by (cbn; rewrite Hs; auto).
  rewrite (swapped_last a axis k) by auto. apply map_ext_in. intros m Hm. apply in_seq in Hm. cbn [aat swapped]. rewrite Hs. set (n := length (ashape a)) in *.
  cbn [app]. destruct (swap_tail k (n - 1) i j (jx ++ [m]) ltac:(lia) ltac:(lia)) as (t & E1 & E2). rewrite E1, E2. apply H.
  assert (Hix : index_of (ashape a) (swap 0%nat k (n - 1) (j :: jx ++ [m]))).
  { assert (Ln : length (ashape a) = n) by reflexivity. pose proof H3 as (Hkn & _). rewrite <- (swap_swap (ashape a) k (n - 1)) by lia. rewrite !(swap_comm 0%nat k (n - 1)).
    apply swap_index; [rewrite swap_length; lia|rewrite swap_length; lia|].
    replace (swap 0%nat (n - 1) k (ashape a)) with (ashape (swapped a k)) by (cbn; apply swap_comm). rewrite (swapped_shape a axis k) by auto. constructor; [lia|]. apply Forall2_app; [exact Hjx|]. constructor; [lia|constructor]. }
  rewrite E2 in Hix. destruct (ashape a) as [|s0 s]; [inversion Hix|]. inversion Hix; subst; auto.
Qed.
Lemma combine_map_nth {A B} (l : list A) (f : nat -> B) (s : list nat) (l' : list A) (g : nat -> B) :
  length l' = length s -> (forall i j, nth_error s i = Some j -> nth_error l' i = nth_error l j /\ g i = f j) -> (forall j, In j s -> (j < length l)%nat) ->
  forall d, combine l' (map g (seq 0 (length l'))) = map (fun j => (nth j l d, f j)) s.
Proof.
  intros L H Hb d. apply nth_ext_all. intros i. rewrite nth_error_map. destruct (nth_error s i) as [j|] eqn:E.
  - destruct (H i j E) as (H1 & H2). pose proof (nth_some_lt _ _ _ E) as Hi. assert (Hj : (j < length l)%nat) by (apply Hb; eapply nth_error_In; eauto). cbn.
    rewrite (nth_error_nth' l d) in H1 by auto. apply combine_some; [exact H1|].
    rewrite nth_error_map, (nth_error_nth' _ 0%nat) by (rewrite seq_length; lia). rewrite seq_nth by lia. cbn. rewrite H2. reflexivity.
  - cbn. apply nth_error_None. apply nth_error_None in E. rewrite combine_length. lia.
Qed.
Lemma c82_order g g' edges pts pts' a a' axis k n_bins interp extrap : float_grid g 1 pts -> float_grid g' 1 pts' -> (2 <= length pts)%nat -> NoDup pts ->
  length edges = (n_bins + 1)%nat -> histograms_along (length pts) n_bins axis k a -> reordered pts pts' a a' ->
  edisp_init g' edges a' interp extrap axis = edisp_init g edges a interp extrap axis.
Proof.
  intros Hg Hg' Hp Hnd Le Ha (Hs & Lp & s & P & R).
  assert (Ls : length s = length pts) by (apply Permutation_length in P; rewrite seq_length in P; auto).
  assert (Ha' : histograms_along (length pts') n_bins axis k a').
  { destruct Ha as (H2 & H3 & H4 & H5 & H6 & H7). unfold histograms_along. rewrite Hs, Lp. split; [auto|]. split; [auto|]. split; [auto|]. split; [auto|]. split; [auto|]. intros ix Hix. destruct (ashape a) as [|s0 sh] eqn:Es; [cbn in H2; lia|]. inversion Hix as [|i ? ix' ? Hi Hix']; subst. cbn in H5.
    destruct (nth_some_ex s i) as (j & Hj); [lia|]. destruct (R i j Hj) as (_ & R'). rewrite R' by (cbn; auto). apply H7. constructor; auto.
    apply nth_error_In in Hj. eapply Permutation_in in Hj; [|exact P]. apply in_seq in Hj. lia. }
  unfold edisp_init. rewrite (init_shell edges g' pts' a' axis k n_bins), (init_shell edges g pts a axis k n_bins) by (auto; lia).
  assert (Esw : inner (sw a' k) = inner (sw a k)). { unfold inner, sw, swapped. cbn [ashape]. rewrite Hs. auto. }
  unfold count_slices. rewrite Esw. f_equal. symmetry. apply (c48_order g g' pts pts'); auto; try apply tms_length.
  assert (Hb : forall j, In j s -> (j < length pts)%nat). { intros j Hj. eapply Permutation_in in Hj; [|exact P]. apply in_seq in Hj. lia. }
  unfold tms. rewrite (combine_map_nth pts (point_slices (sw a k)) s pts' (point_slices (sw a' k)) ltac:(lia)) with (d := []); auto.
  - rewrite (combine_map_nth pts (point_slices (sw a k)) (seq 0 (length pts)) pts (point_slices (sw a k))) with (d := []).
    + apply Permutation_map. symmetry. exact P.
    + rewrite seq_length. auto.
    + intros i j Hij. pose proof (nth_some_lt _ _ _ Hij) as Hi. rewrite seq_length in Hi. rewrite (nth_error_nth' _ 0%nat), seq_nth in Hij by (rewrite ?seq_length; auto). injection Hij as <-. auto.
    + intros j Hj. apply in_seq in Hj. lia.
  - intros i j Hij. destruct (R i j Hij) as (R1 & R2). split; [auto|]. eapply (reordered_slices a a' axis k (length pts) n_bins); eauto. apply Hb. eapply nth_error_In; eauto.
Qed.

(** ** errors *)
Lemma axis_err n axis : (axis < - Z.of_nat n \/ Z.of_nat n <= axis)%Z -> axis_of n axis = Err ValueError.
Proof.
  intros H. unfold axis_of. destruct (Z.ltb_spec axis 0); destruct H; try lia.
  - replace (Z.ltb (axis + Z.of_nat n) 0) with true by (symmetry; apply Z.ltb_lt; lia). auto.
  - replace (Z.leb (Z.of_nat n) axis) with true by (symmetry; apply Z.leb_le; lia). rewrite orb_true_r. auto.
Qed.
Lemma make_methods_dim {T O} dim (x : list coords) (tm : list T) (i : method T O) e (o : estimator O) : make_methods dim x tm i e = Ok o -> grid_dim o = dim.
Proof.
  unfold make_methods. cbv zeta. destruct (is_interpolator i); [|discriminate]. destruct (create i _ _) as [f|]; [|discriminate]. cbn [rbind].
  destruct e as [e|]; [|intros X; injection X as <-; reflexivity]. destruct (is_extrapolator e); [|discriminate]. destruct (create e _ _) as [h|]; [|discriminate]. cbn [rbind]. intros X; injection X as <-; reflexivity.
Qed.
Lemma c82_errors g d edges pts a axis k interp extrap : float_grid g d pts -> (d + 1 <= length pts)%nat -> (2 <= length (ashape a))%nat ->
  ((axis < - Z.of_nat (length (ashape a)) \/ Z.of_nat (length (ashape a)) <= axis)%Z -> edisp_init g edges a interp extrap axis = Err ValueError) /\
  (axis_at (length (ashape a)) axis k -> (1 <= k)%nat ->
     (hd 0%nat (ashape a) <> length pts -> edisp_init g edges a interp extrap axis = Err ValueError) /\
     (length edges <> (nth k (ashape a) 0 + 1)%nat -> edisp_init g edges a interp extrap axis = Err ValueError)) /\
  (forall inside est t, pdf_call inside est TNotArray = Err TypeError /\ pdf_call inside est (TRows [t]) = pdf_call inside est (TFlat t) /\
     (forall l, length l <> 1%nat -> pdf_call inside est (TRows l) = Err ValueError)) /\
  (forall est, edisp_init g edges a interp extrap axis = Ok est -> forall inside t, length t <> d -> pdf_call inside est (TFlat t) = Err ValueError).
Proof.
  intros Hg Hp H2. unfold edisp_init. split; [|split; [|split]].
  - intros Hx. unfold pdf_init, swapaxes. rewrite axis_err by auto. auto.
  - intros Hax Hk. unfold pdf_init. rewrite (swapped_ok a axis k) by auto. cbn [rbind].
    rewrite (swapped_last a axis k), (swapped_hd a k) by auto.
    set (ic := interp (size (inner (swapped a k)))). match goal with |- context [discrete_init _ _ _ _ ?e] => set (ec := e) end.
    destruct (c48_templates g d pts (ic edges) None ic ec Hg Hp) as (_ & _ & T1 & T2 & _).
    assert (X : hd 0%nat (ashape a) <> length pts -> (do est <- discrete_init g (Some edges) (Some (nth k (ashape a) 0%nat, map (point_slices (swapped a k)) (seq 0 (hd 0%nat (ashape a))))) ic ec; Ok (mkPE est axis (inner (swapped a k)) (nth k (ashape a) 0%nat))) = Err ValueError).
    { intros Hn. destruct (T1 (map (point_slices (swapped a k)) (seq 0 (hd 0%nat (ashape a))))) as (_ & T). { rewrite map_length, seq_length. auto. } rewrite T. auto. }
    split; [exact X|]. intros Hn. destruct (Nat.eq_dec (hd 0%nat (ashape a)) (length pts)) as [E|E]; [|apply X; auto].
    destruct (T2 (map (point_slices (swapped a k)) (seq 0 (hd 0%nat (ashape a)))) (nth k (ashape a) 0%nat)) as (_ & T). { rewrite map_length, seq_length. auto. } rewrite T; auto.
  - intros inside est t. destruct (c48_target inside (pe_est est)) as (T1 & T2 & T3 & _). unfold pdf_call. rewrite T1, T2. split; [auto|]. split; [auto|]. intros l Hl. rewrite T3; auto.
  - intros est E inside t Ht. destruct (c48_target inside (pe_est est)) as (_ & _ & _ & T). unfold pdf_call. rewrite T; [auto|].
    unfold pdf_init in E. destruct (swapaxes a axis (-1)) as [s|]; [|discriminate]. cbn [rbind] in E.
    unfold discrete_init in E. destruct (base_ok g d pts Hg Hp) as (Eb & _). rewrite Eb in E. cbn [rbind fst snd] in E.
    destruct (Nat.eqb _ _); [|discriminate]. destruct (Z.eqb _ _); [|discriminate].
    match type of E with rbind ?x _ = _ => destruct x as [o|] eqn:Em; [|discriminate] end. cbn [rbind] in E. injection E as <-. cbn [pe_est]. rewrite (make_methods_dim _ _ _ _ _ _ Em). auto.
Qed.

(** ** PSFTableEstimator: units *)
Lemma left_out d : normalization_left_out d -> used_normalization (psf_kwargs d) = CONE_SOLID_ANGLE.
Proof.
  intros H. destruct d as [d|]; [|reflexivity]. cbn in H. assert (E : kwget "normalization" d = None).
  { clear -H. induction d as [|[k v] d IH]; auto. cbn [kwget]. destruct (String.eqb "normalization" k) eqn:Ek; [exfalso; apply String.eqb_eq in Ek; subst k; apply (H v); left; auto|]. apply IH. intros w Hw. apply (H w). right; auto. }
  apply (c59_shared d E).
Qed.
Lemma c82_psf g bins bu edges psf pu kwi ikls kwe ekls axis : in_radian bins bu edges -> qu_dim pu = per_solid_angle -> normalization_left_out kwi -> normalization_left_out kwe ->
  psf_init g bins (Some bu) psf (Some pu) kwi ikls kwe ekls axis =
  pdf_init g edges psf (ikls CONE_SOLID_ANGLE) match ekls with Some e => Some (e CONE_SOLID_ANGLE) | None => None end axis.
Proof.
  intros ((Hb & _) & ->) Hpu Hi He. unfold psf_init, input_unit. replace (deqb (qu_dim bu) (qu_dim deg)) with true by (symmetry; apply deqb_true; rewrite Hb; reflexivity). cbn [rbind].
  replace (deqb (qu_dim pu) (qu_dim (upow sr (-1)))) with true by (symmetry; apply deqb_true; rewrite Hpu; unfold per_solid_angle; dims). cbn [rbind].
  rewrite (left_out _ Hi), (left_out _ He). f_equal. apply map_ext. intros x. cbn. unfold Rdiv. rewrite Rinv_1, Rmult_1_r. reflexivity.
Qed.
Lemma c82_psf_units g bins bu psf pu kwi ikls kwe ekls axis :
  psf_init g bins None psf pu kwi ikls kwe ekls axis = Err TypeError /\
  (qu_dim bu <> angle_dim -> psf_init g bins (Some bu) psf pu kwi ikls kwe ekls axis = Err UnitsError) /\
  (qu_dim bu = angle_dim -> (pu = None -> psf_init g bins (Some bu) psf pu kwi ikls kwe ekls axis = Err TypeError) /\
     forall u, pu = Some u -> qu_dim u <> per_solid_angle -> psf_init g bins (Some bu) psf pu kwi ikls kwe ekls axis = Err UnitsError).
Proof.
  unfold psf_init, input_unit. split; [reflexivity|]. split.
  - intros H. replace (deqb (qu_dim bu) (qu_dim deg)) with false by (symmetry; apply deqb_false; exact H). reflexivity.
  - intros H. replace (deqb (qu_dim bu) (qu_dim deg)) with true by (symmetry; apply deqb_true; exact H). cbn [rbind]. split; [intros ->; reflexivity|].
    intros u -> Hu. replace (deqb (qu_dim u) (qu_dim (upow sr (-1)))) with false; [reflexivity|]. symmetry; apply deqb_false. intros E. apply Hu. rewrite E. unfold per_solid_angle. dims.
Qed.

(** ** PSFTableEstimator with moment morphing *)
Lemma c82_psf_morph g bins bu edges pts a pu kwi kwe axis k find tri inside : in_radian bins bu edges -> qu_dim pu = per_solid_angle -> normalization_left_out kwi -> normalization_left_out kwe ->
  usable_edges BySolidAngle edges -> float_grid g 1 pts -> (2 <= length pts)%nat -> NoDup pts -> histograms_along (length pts) (length edges - 1) axis k a ->
  exists est, psf_init g bins (Some bu) a (Some pu) kwi (fun n N e => morph_method find true N n e) kwe (Some (fun n N e => morph_extrapolator tri true N n e)) axis = Ok est /\
  (forall t p q c d, between pts t p q c d -> pdf_call inside est (TFlat [t]) = Err UnitConversionError) /\
  (forall t, outside pts t -> pdf_call inside est (TFlat [t]) = Err UnitConversionError).
Proof.
  intros Hb Hu Hi Hke He Hg Hp Hnd Ha. rewrite (c82_psf g bins bu edges a pu kwi _ kwe _ axis Hb Hu Hi Hke). clear Hb Hu Hi Hke.
  assert (HT : hull_test 1 pts inside) by (intros H; lia). assert (Le : length edges = (length edges - 1 + 1)%nat) by (pose proof (nz_edges _ _ He); lia).
  rewrite (init_shell edges g pts a axis k (length edges - 1)) by (auto; lia).
  cbv beta. set (interp := morph_method find true (count_slices a k) CONE_SOLID_ANGLE edges). set (ex := morph_extrapolator tri true (count_slices a k) CONE_SOLID_ANGLE edges).
  destruct (c48_dispatch inside g 1 pts (tms pts a k) interp HT Hg (le_n 1) Hp (tms_length pts a k) eq_refl) as (pts' & tm' & A & _ & B).
  pose proof (any_columns g pts a k Hg Hp Hnd pts' tm' A) as (C1 & D' & O' & L'). pose proof A as (Lt & _). pose proof (grid_dim1 g pts Hg Hp) as D.
  assert (Ec : create interp pts' tm' = Ok (fun t => do o <- morph_interpolate1D true (concat pts') edges (count_slices a k) tm' CONE_SOLID_ANGLE (hd 0 t); Ok ([1%nat], o))).
  { unfold interp, morph_method. cbn [create]. rewrite C1. auto. }
  assert (Ee : create ex pts' tm' = Ok (fun t => Err UnitConversionError)).
  { unfold ex, morph_extrapolator. cbn [create]. rewrite C1. auto. }
  destruct (B _ Ec) as (_ & _ & X). destruct (X ex _ eq_refl Ee) as (est & E & Q). clear X B. cbn [rbind] in *. match goal with |- context [rbind ?x _] => replace x with (Ok est) by (symmetry; exact E) end. cbn [rbind]. eexists. split; [reflexivity|].
  split.
  - intros t p q c d Hbt. pose proof (hull_between g pts Hg Hp t p q c d Hbt) as Hin. destruct (Q [t] eq_refl) as (Q1 & _). specialize (Q1 Hin). cbn [hd] in Q1.
    destruct Hbt as (H1 & H2 & Ht & Hno). pose proof (nth_some_lt _ _ _ H1) as Lp. pose proof (nth_some_lt _ _ _ H2) as Lq.
    destruct (two_next pts (tms pts a k) pts' tm' D (tms_length pts a k) Hnd A p q c d _ _ H1 H2 ltac:(lra) Hno (tms_nth pts a k p Lp) (tms_nth pts a k q Lq)) as (i & I1 & I2 & I3 & I4).
    apply call_error. 
    assert (Em : morph_interpolate1D true (concat pts') edges (count_slices a k) tm' CONE_SOLID_ANGLE t = Err UnitConversionError).
    { unfold morph_interpolate1D. rewrite (digitize_inside (concat pts') t i c d) by auto. cbn [rbind].
      replace (Z.of_nat (S i) - 1)%Z with (Z.of_nat i) by lia. rewrite (pyget_nat _ i c), (pyget_nat _ (S i) d) by auto. cbn [rbind]. rewrite c49_weights by lra. cbn [rbind].
      rewrite (pyget_nat _ i _ I3), (pyget_nat _ (S i) _ I4). reflexivity. }
    rewrite Em in Q1. exact Q1.
  - intros t Ho. apply call_error. destruct (Q [t] eq_refl) as (_ & Q2). specialize (Q2 (hull_outside g pts Hg Hp t Ho)). exact Q2.
Qed.
