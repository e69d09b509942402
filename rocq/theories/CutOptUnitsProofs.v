(** * CutOptUnitsProofs: the steps of the cut optimisation in any units *)
From Coq Require Import String Reals List Bool ZArith Arith Lia Lra.
From Verif Require Import Num Numpy Table Binning Percentile Cuts CutUnits Utils Sensitivity CutOptimization Quantities SpectralUnits SimulationUnits IRFUnits
  SensitivityUnits CutOptimizationUnits SpecUnits SpecIRFUnits SpecSensUnits SpecCutUnits SpecCutOptUnits IRFUnitsProofs CutUnitsProofs SensUnitsProofs SensUnitsProofs2 SensUnitsProofs3.
Import ListNotations.
Open Scope R_scope.
Notation sc := IRFUnitsProofs.sc.

(** ** units *)
Lemma energy_number u : unit_of energy_dim u -> as_unit u = mkUnit (qu_scale u) 1.
Proof.
  intros (D & P). unfold as_unit, dim_number. rewrite D. f_equal. unfold deqb, energy_dim, dnone. cbn.
  rewrite (proj2 (Reqb_false 2 0)) by lra. cbn. rewrite !(proj2 (Reqb_true _ _)) by lra. reflexivity.
Qed.
Lemma angle_number u : unit_of angle_dim u -> as_unit u = mkUnit (qu_scale u) 2.
Proof.
  intros (D & P). unfold as_unit, dim_number. rewrite D. f_equal. unfold deqb, angle_dim, dnone. cbn.
  rewrite (proj2 (Reqb_false 0 2)) by lra. rewrite (proj2 (Reqb_false 1 0)) by lra. rewrite (proj2 (Reqb_true 0 0)), (proj2 (Reqb_true 1 1)) by lra. reflexivity.
Qed.
Lemma tev_pos : 0 < tev. Proof. unfold tev. lra. Qed.
Definition tevu := mkUnit tev 1.
Definition radu := mkUnit 1 2.
Lemma base_num s k x : 0 < s -> 0 < k -> nmul (Fin s) x = nmul (Fin k) (nmul x (Fin (s / k))).
Proof.
  intros S K. assert (0 < s / k) by (apply Rdiv_lt_0_compat; lra).
  destruct x as [r| | |]; cbn; unfold inf_signed; rsolve; cbn; unfold inf_signed; rsolve; auto. f_equal. field. lra.
Qed.
Lemma energies_same l u l' : numbers energy_dim tev l u l' -> same_numbers (Some (as_unit u)) (Some tevu) l l'.
Proof.
  intros (U & ->). pose proof tev_pos as T. rewrite energy_number by auto. destruct U as (_ & P). split; [cbn; auto|].
  cbn. rewrite map_map. apply map_ext. intros x. apply base_num; auto.
Qed.
Lemma angles_same l u l' : numbers angle_dim 1 l u l' -> same_numbers (Some (as_unit u)) (Some radu) l l'.
Proof.
  intros (U & ->). rewrite angle_number by auto. destruct U as (_ & P). split; [cbn; repeat split; auto; lra|].
  cbn. rewrite map_map. apply map_ext. intros x. apply base_num; auto; lra.
Qed.
Lemma convert_same u x : 0 < u_scale u -> convert_val u u x = x.
Proof. intros H. unfold convert_val. replace (u_scale u / u_scale u) with 1 by (field; lra). apply IRFUnitsProofs.nmul_1 || (destruct x; cbn; unfold inf_signed; rsolve; auto; f_equal; ring). Qed.
Lemma convert_list u l : 0 < u_scale u -> map (convert_val u u) l = l.
Proof. intros H. rewrite <- (map_id l) at 2. apply map_ext. intros. apply convert_same; auto. Qed.
Lemma to_value_id u l : 0 < u_scale u -> Table.to_value l u u = Ok l.
Proof. intros H. unfold Table.to_value. now rewrite Nat.eqb_refl, convert_list. Qed.
(** the indices *)
Lemma indices_strip u d b : 0 < u_scale u -> calculate_bin_indices (mkArr d (Some u)) (mkArr b (Some u)) = calculate_bin_indices (mkArr d None) (mkArr b None).
Proof. intros H. unfold calculate_bin_indices. cbn. now rewrite !to_value_id by auto. Qed.
Lemma indices_num d u d' b v b' : numbers energy_dim tev d u d' -> numbers energy_dim tev b v b' ->
  calculate_bin_indices (as_arr (AQty (mkQA d u))) (as_arr (AQty (mkQA b v))) = calculate_bin_indices (mkArr d' None) (mkArr b' None).
Proof.
  intros D B. cbn [as_arr qa_val qa_unit]. rewrite (indices_same _ (mkArr d' (Some tevu)) _ (mkArr b' (Some tevu))).
  - apply indices_strip. apply tev_pos.
  - apply energies_same; auto.
  - apply energies_same; auto.
Qed.
(** evaluation of cuts without unit *)
Lemma evaluate_strip u q x d low high cut op : 0 < u_scale u ->
  evaluate_binned_cut q x (mkArr d (Some u)) low high (Some u) cut op = evaluate_binned_cut q x (mkArr d None) low high None cut op.
Proof. intros H. unfold evaluate_binned_cut. destruct q; auto. cbn [negb]. destruct (rev high); auto. now rewrite indices_strip. Qed.
Lemma evaluate_num x d u d' low high v low' high' cut op : numbers energy_dim tev d u d' -> numbers energy_dim tev low v low' -> numbers energy_dim tev high v high' ->
  evaluate_binned_cut true x (as_arr (AQty (mkQA d u))) low high (Some (as_unit v)) cut op = evaluate_binned_cut true x (mkArr d' None) low' high' None cut op.
Proof.
  intros D L H. rewrite <- (evaluate_strip tevu true x d' low' high' cut op tev_pos).
  rewrite <- (map_id x) at 2. rewrite <- (map_id cut) at 2. symmetry.
  apply (evaluate_map op op (fun x => x) (fun x => x)); auto.
  - apply (energies_same d u d'); auto.
  - apply energies_same; auto.
  - apply energies_same; auto.
Qed.
Lemma numbers_app d k l u l' m m' : numbers d k l u l' -> numbers d k m u m' -> numbers d k (l ++ m) u (l' ++ m').
Proof. intros (U & ->) (_ & ->). split; auto. now rewrite map_app. Qed.
Lemma numbers_convert d k l u l' v : 0 < k -> numbers d k l u l' -> unit_of d v -> numbers d k (map (fun x => nmul x (Fin (qu_scale u / qu_scale v))) l) v l'.
Proof.
  intros K ((D & P) & ->) (D' & P'). split; [split; auto|]. rewrite map_map. apply map_ext. intros x.
  change (sc (qu_scale u / k) x = sc (qu_scale v / k) (sc (qu_scale u / qu_scale v) x)). rewrite sc_sc by (apply Rdiv_lt_0_compat; lra). f_equal. field. lra.
Qed.
(** ... with units *)
Lemma evaluate_angle x ux x' d u d' c low high center cut op : comparison op -> numbers angle_dim 1 x ux x' -> numbers energy_dim tev d u d' ->
  cuts_in c low high center cut ->
  q_evaluate_binned_cut (AQty (mkQA x ux)) (AQty (mkQA d u)) c op = evaluate_binned_cut true x' (mkArr d' None) low high None cut op.
Proof.
  intros Ho X D (l & ul & h & uh & m & um & y & uy & -> & L & H & M & Y).
  unfold q_evaluate_binned_cut. cbn [qc_low qc_high qc_cut plain_unit qa_val qa_unit a_unit as_arr].
  pose proof (numbers_convert _ _ _ _ _ ul tev_pos H (proj1 L)) as H'.
  destruct h as [|h0 hs].
  - cbn [map]. destruct H as (_ & ->). reflexivity.
  - set (hh := map _ (h0 :: hs)) in *. destruct hh as [|h1 hs'] eqn:E; [discriminate|]. clear E hh.
    replace (deqb (qu_dim uh) (qu_dim ul)) with true.
    2:{ destruct H as ((D1 & _) & _), L as ((D2 & _) & _). rewrite D1, D2. symmetry. unfold deqb. rewrite !(proj2 (Reqb_true _ _)) by auto. reflexivity. }
    rewrite <- (evaluate_strip tevu true x' d' low high cut op tev_pos), <- (evaluate_common x' radu) by (cbn; lra). symmetry.
    apply evaluate_same; auto.
    + apply angles_same; auto.
    + apply (energies_same d u d'); auto.
    + apply energies_same; auto.
    + apply energies_same; auto.
    + apply angles_same; auto.
Qed.
(** ** percentile cuts *)
Definition with_edges (bins : arr) (t : cut_table) : cut_table :=
  mkCutTable (but_last (a_val bins)) (tl (a_val bins)) (bin_center (a_val bins)) (a_unit bins) (ct_n_events t) (ct_cut t) (ct_cut_unit t).
Lemma percentile_edges b values bv bv' bins bins' fill ps lo hi sm me :
  calculate_bin_indices bv bins = calculate_bin_indices bv' bins' -> List.length (a_val bv) = List.length (a_val bv') ->
  List.length (a_val bins) = List.length (a_val bins') ->
  calculate_percentile_cut b values bv bins fill ps lo hi sm me =
  (do t <- calculate_percentile_cut b values bv' bins' fill ps lo hi sm me; Ok (with_edges bins t)).
Proof.
  intros I L1 L2. unfold calculate_percentile_cut. rewrite I, L1, L2.
  destruct (match a_unit values with Some _ => _ | None => _ end) as [f|e]; cbn [rbind]; [|reflexivity].
  destruct (bound_to _ lo) as [l|e]; cbn [rbind]; [|reflexivity].
  destruct (bound_to _ hi) as [h|e]; cbn [rbind]; [|reflexivity].
  destruct (calculate_bin_indices bv' bins') as [iv|e]; cbn [rbind]; [|reflexivity].
  destruct (negb _); [reflexivity|]. destruct (negb _); [reflexivity|].
  destruct (cast b (fst f)) as [x|e]; cbn [rbind]; [|reflexivity].
  destruct (cut_loop _ _ _ _ _ _ _ _ _ _ _) as [nc|e]; cbn [rbind]; [|reflexivity].
  destruct (smooth _ _ _); reflexivity.
Qed.
Lemma with_edges_rows bins t : cut_rows (with_edges bins t) = cut_rows t.
Proof. reflexivity. Qed.
Lemma percentile_strip u v bv bins f ps lo hi me : 0 < u_scale u ->
  calculate_percentile_cut false (mkArr v (Some u)) bv bins (mkScalar f (Some u)) ps (Some (mkScalar lo (Some u))) (Some (mkScalar hi (Some u))) None me =
  (do t <- calculate_percentile_cut false (mkArr v None) bv bins (mkScalar f None) ps (Some (mkScalar lo None)) (Some (mkScalar hi None)) None me;
   Ok (mkCutTable (ct_low t) (ct_high t) (ct_center t) (ct_edge_unit t) (ct_n_events t) (ct_cut t) (Some u))).
Proof.
  intros U. unfold calculate_percentile_cut. cbn [a_unit a_val s_val s_unit bound_to quantity_to].
  unfold quantity_to. cbn [s_unit s_val]. rewrite Nat.eqb_refl, !convert_same by auto. cbn [rbind fst snd].
  destruct (calculate_bin_indices bv bins) as [iv|e]; cbn [rbind]; [|reflexivity].
  destruct (negb _); [reflexivity|]. destruct (negb _); [reflexivity|]. unfold cast. cbn [rbind].
  destruct (cut_loop _ _ _ _ _ _ _ _ _ _ _) as [nc|e]; cbn [rbind]; [|reflexivity]. reflexivity.
Qed.
Definition same_theta_cuts (k : R) (b b' : list num) (r r' : res cut_table) : Prop :=
  match r, r' with
  | Ok t, Ok t' => cut_rows t' = map (map (sc k)) (cut_rows t) /\ ct_center t = bin_center b /\ ct_center t' = bin_center b'
  | Err e, Err e' => e = e'
  | _, _ => False
  end.
Lemma center_field b values bv bins fill ps lo hi sm me t : calculate_percentile_cut b values bv bins fill ps lo hi sm me = Ok t -> ct_center t = bin_center (a_val bins).
Proof.
  unfold calculate_percentile_cut.
  destruct (match a_unit values with Some _ => _ | None => _ end) as [f|e]; cbn [rbind]; [|discriminate].
  destruct (bound_to _ lo) as [l|e]; cbn [rbind]; [|discriminate].
  destruct (bound_to _ hi) as [h|e]; cbn [rbind]; [|discriminate].
  destruct (calculate_bin_indices bv bins) as [iv|e]; cbn [rbind]; [|discriminate].
  destruct (negb _); [discriminate|]. destruct (negb _); [discriminate|].
  destruct (cast b (fst f)) as [x|e]; cbn [rbind]; [|discriminate].
  destruct (cut_loop _ _ _ _ _ _ _ _ _ _ _) as [nc|e]; cbn [rbind]; [|discriminate].
  destruct (smooth _ _ _); cbn [rbind]; [|discriminate]. intros E. inversion E. reflexivity.
Qed.
Lemma same_rows w rows rows' : 0 < u_scale w -> u_dim w = 2%nat -> Forall2 (same_numbers (Some w) (Some radu)) rows rows' -> rows' = map (map (sc (u_scale w))) rows.
Proof.
  intros W D H. induction H as [|r r' l l' (K & E) H IH]; [reflexivity|]. cbn [map]. f_equal; [|exact IH].
  assert (S : scaled (u_scale w) (Some w) (Some radu)) by (split; [auto|]; cbn; repeat split; auto; try lra; field).
  apply (proj1 (scaled_list _ _ _ _ _ S)) in E. rewrite E. apply map_ext. intros. symmetry. apply sc_cut.
Qed.
Lemma scalar_angle q y : in_radian q y -> same_scalar (as_scalar q) (mkScalar y (Some radu)).
Proof.
  intros (U & ->). unfold same_scalar, as_scalar. cbn [s_unit s_val]. apply angles_same. split; [exact U|]. cbn. replace (qu_scale (q_unit q) / 1) with (qu_scale (q_unit q)) by field. reflexivity.
Qed.
Lemma theta_cut_num x ux x' d u d' b v b' mn mx mn' mx' ps me : numbers angle_dim 1 x ux x' -> numbers energy_dim tev d u d' -> numbers energy_dim tev b v b' ->
  in_radian mn mn' -> in_radian mx mx' ->
  same_theta_cuts (qu_scale ux) b b'
    (calculate_percentile_cut false (as_arr (AQty (mkQA x ux))) (as_arr (AQty (mkQA d u))) (as_arr (AQty (mkQA b v))) (as_scalar mx) (PList ps)
       (Some (as_scalar mn)) (Some (as_scalar mx)) None me)
    (calculate_percentile_cut false (mkArr x' None) (mkArr d' None) (mkArr b' None) (mkScalar mx' None) (PList ps)
       (Some (mkScalar mn' None)) (Some (mkScalar mx' None)) None me).
Proof.
  intros X D B Mn Mx.
  pose proof (percentile_cut_same (as_arr (AQty (mkQA x ux))) (mkArr x' (Some radu)) (as_arr (AQty (mkQA d u))) (mkArr d' (Some tevu))
    (as_arr (AQty (mkQA b v))) (mkArr b' (Some tevu)) (as_scalar mx) (mkScalar mx' (Some radu)) (PList ps) (Some (as_scalar mn)) (Some (mkScalar mn' (Some radu)))
    (Some (as_scalar mx)) (Some (mkScalar mx' (Some radu))) None me) as P.
  assert (R : 0 < u_scale radu) by (cbn; lra).
  rewrite (percentile_strip radu) in P by auto.
  rewrite (percentile_edges false (mkArr x' None) (mkArr d' (Some tevu)) (mkArr d' None) (mkArr b' (Some tevu)) (mkArr b' None)) in P; [|apply indices_strip, tev_pos|reflexivity|reflexivity].
  lapply P; [clear P; intros P|apply angles_same; auto]. lapply P; [clear P; intros P|apply (energies_same d u d'); auto].
  lapply P; [clear P; intros P|apply (energies_same b v b'); auto]. lapply P; [clear P; intros P|apply scalar_angle; auto].
  lapply P; [clear P; intros P|apply scalar_angle; auto]. lapply P; [clear P; intros P|apply scalar_angle; auto].
  lapply P; [clear P; intros P|discriminate].
  destruct (calculate_percentile_cut false (as_arr (AQty (mkQA x ux))) _ _ _ _ _ _ _ _) as [t|e] eqn:E1;
  destruct (calculate_percentile_cut false (mkArr x' None) _ _ _ _ _ _ _ _) as [t'|e'] eqn:E2; cbn [rbind same_result same_theta_cuts] in *; auto.
  pose proof (center_field _ _ _ _ _ _ _ _ _ _ _ E1) as C1. pose proof (center_field _ _ _ _ _ _ _ _ _ _ _ E2) as C2.
  split; [|split; [exact C1|exact C2]].
  destruct P as (_ & _ & _ & _ & P). cbn [ct_cut ct_cut_unit with_edges] in P. apply cut_unit in E1. rewrite E1 in P. cbn [qa_unit] in P.
  rewrite (angle_number ux) in P by apply X. unfold cut_rows. unfold same_column in P.
  destruct (ct_cut t) as [l|rows], (ct_cut t') as [l'|rows']; try tauto.
  - destruct P as (K & P).
    assert (S : scaled (qu_scale ux) (Some (mkUnit (qu_scale ux) 2)) (Some radu)) by (pose proof (proj1 X) as (_ & W); split; [auto|]; cbn; repeat split; auto; try lra; field).
    apply (proj1 (scaled_list _ _ _ _ _ S)) in P. rewrite P, !map_map. apply map_ext. intros. cbn. now rewrite sc_cut.
  - destruct P as (K & P). apply (same_rows (mkUnit (qu_scale ux) 2)); cbn; auto. apply X.
Qed.
Lemma col_num k rows j : cut_col (map (map (sc k)) rows) j = map (sc k) (cut_col rows j).
Proof.
  unfold cut_col. rewrite !map_map. apply map_ext. intros r. change NaN with (sc k NaN) at 1. apply map_nth.
Qed.
(** ** selected rows *)
Lemma select_mask {A} mask (l : list A) : select mask l = mask_rows mask l.
Proof.
  unfold select, mask_rows. revert l. induction mask as [|b mask IH]; intros [|a l]; try reflexivity. cbn [combine filter fst snd]. destruct b; cbn [map fst snd]; rewrite IH; reflexivity.
Qed.
Lemma rows_mask t mask : has_rows t (List.length mask) -> has_rows (q_rows_where t mask) (List.length (filter (fun b => b) mask)).
Proof.
  intros (H1 & H2 & H3 & H4 & H5 & H6).
  unfold q_rows_where. split; [|split; [|split; [|split; [|split]]]]; cbn [qe_rows qe_columns qe_weight qe_ptype].
  - reflexivity.
  - rewrite map_map. cbn [fst]. exact H2.
  - intros name l I. apply in_map_iff in I as ([n c] & E & I). cbn [fst snd] in E. destruct c as [l0|a]; [|discriminate]. injection E as <- <-. apply mask_length. eauto.
  - intros name l u I. apply in_map_iff in I as ([n c] & E & I). cbn [fst snd] in E. destruct c as [l0|[a v]]; [discriminate|]. injection E as <- <- <-. apply mask_length. cbn [qa_val]. eauto.
  - intros w E. destruct (qe_weight t) as [w0|]; [|discriminate]. injection E as <-. apply mask_length. eauto.
  - intros w E. destruct (qe_ptype t) as [w0|]; [|discriminate]. injection E as <-. apply mask_length. eauto.
Qed.
Lemma column_mask t mask name d k l : has_column t name d k l -> has_column (q_rows_where t mask) name d k (mask_rows mask l).
Proof.
  intros (x & u & I & U & ->). exists (mask_rows mask x), u. split.
  - unfold q_rows_where. cbn [qe_columns]. apply in_map_iff. exists (name, AQty (mkQA x u)). split; [reflexivity|exact I].
  - split; [exact U|]. apply mask_map.
Qed.
Lemma len_mask {A} mask (l : list A) : List.length mask = List.length l -> List.length (mask_rows mask l) = List.length (filter (fun b => b) mask).
Proof. intros; apply mask_length; auto. Qed.
