(** * Proofs for C89: parametrised components, effective area, rad max, dispersion and psf tables *)
From Coq Require Import String Reals List Bool ZArith Arith Lia Lra Permutation.
From Verif Require Import Num Numpy Sort Lists Table Binning Utils Morph Geometry Quantile Tensor Quantities Estimators PDFEstimators GridMethods
  SpecIRF SpecInterp SpecEstimators SpecMoved MovedProofs MovedProofs2 MovedProofs3.
Import ListNotations.
Open Scope R_scope.

Lemma moved_not_float s v g : not_a_float_array g -> moved_grid s v g = g.
Proof. intros [-> |[-> | ->]]; reflexivity. Qed.

Section Final.
  Variable s : R.
  Variable v : nat -> R.
  Hypothesis Hs : 0 < s.
  Let mv : coords -> coords := moved s v.
  Variable d : nat.
  Hypothesis D : (1 <= d)%nat.
  Variable pts : list coords.
  Variable g : grid_arg.
  Hypothesis Hg : float_grid g d pts.
  Variable inside : list coords -> coords -> bool.
  Hypothesis Hi : hull_test d pts inside.
  Hypothesis Hi' : hull_test d (map mv pts) inside.

  Lemma grid_dimension : of_dimension d pts.
  Proof.
    destruct Hg as [(l & -> & -> & ->)|(-> & H)]; auto. intros p Hp. apply in_map_iff in Hp as (x & <- & _). reflexivity.
  Qed.
  Lemma base_init_mv : base_init g = (if Nat.ltb (List.length pts) (d + 1) then Err ValueError else Ok (d, pts)) /\
    base_init (moved_grid s v g) = (if Nat.ltb (List.length pts) (d + 1) then Err ValueError else Ok (d, map mv pts)).
  Proof.
    destruct Hg as [(l & -> & -> & ->)|(-> & H)]; unfold base_init; cbn [moved_grid rbind fst snd]; rewrite ?map_length; split; auto.
    rewrite !map_map. reflexivity.
  Qed.
  Definition est_rel' {O} : estimator O -> estimator O -> Prop := est_rel s v d pts.
  Lemma parametrized_mv {T O} (params : option (list T)) (m : method T O) e : indifferent s v d pts m -> indifferent_option s v d pts e ->
    res_rel (fun a b => est_rel' a b /\ pts <> []) (parametrized_init g params m e) (parametrized_init (moved_grid s v g) params m e).
  Proof.
    intros Hm He. unfold parametrized_init. destruct base_init_mv as (-> & ->). destruct (Nat.ltb_spec (List.length pts) (d + 1)); [reflexivity|].
    assert (N : pts <> []) by (intros ->; cbn in *; lia). cbn [rbind fst snd]. destruct params as [tm|]; [|reflexivity]. rewrite map_length.
    destruct (Nat.eqb_spec (List.length pts) (List.length tm)); [|reflexivity].
    pose proof (make_methods_mv s v Hs d pts grid_dimension tm m e e0 Hm He) as R. unfold res_rel in *.
    fold mv in R.
    destruct (make_methods d pts tm m e), (make_methods d (map mv pts) tm m e); auto.
  Qed.
  Lemma call_mv {O} (e e' : estimator O) tgt : est_rel' e e' -> pts <> [] -> estimator_call inside e' (moved_target s v tgt) = estimator_call inside e tgt.
  Proof. intros H N. apply (estimator_call_mv s v Hs d pts grid_dimension inside Hi Hi'); auto. lia. Qed.
  Lemma c89_parametrized {T O} (params : option (list T)) (m : method T O) e tgt : indifferent s v d pts m -> indifferent_option s v d pts e ->
    (do est <- parametrized_init (moved_grid s v g) params m e; estimator_call inside est (moved_target s v tgt)) =
    (do est <- parametrized_init g params m e; estimator_call inside est tgt).
  Proof.
    intros Hm He. pose proof (parametrized_mv params m e Hm He) as R.
    destruct (parametrized_init g params m e), (parametrized_init (moved_grid s v g) params m e); try (destruct R; fail); cbn [rbind].
    - destruct R. apply call_mv; auto.
    - rewrite R. auto.
  Qed.
  Lemma c89_effective_area areas mn m e tgt : indifferent s v d pts m -> indifferent_option s v d pts e ->
    (do est <- aeff_init (moved_grid s v g) areas mn m e; aeff_call inside est mn (moved_target s v tgt)) =
    (do est <- aeff_init g areas mn m e; aeff_call inside est mn tgt).
  Proof.
    intros Hm He. unfold aeff_init, aeff_call. set (p := Some _). pose proof (parametrized_mv p m e Hm He) as R.
    destruct (parametrized_init g p m e) as [a|], (parametrized_init (moved_grid s v g) p m e) as [b|]; try (destruct R; fail); cbn [rbind].
    - destruct R. rewrite (call_mv a b) by auto. auto.
    - rewrite R. auto.
  Qed.
  Lemma discrete_mv {T O} edges (pdf : option (nat * list T)) (m : list R -> method T O) e :
    (forall edges, indifferent s v d pts (m edges)) -> (forall e' edges, e = Some e' -> indifferent s v d pts (e' edges)) ->
    res_rel (fun a b => est_rel' a b /\ pts <> []) (discrete_init g edges pdf m e) (discrete_init (moved_grid s v g) edges pdf m e).
  Proof.
    intros Hm He. unfold discrete_init. destruct base_init_mv as (-> & ->). destruct (Nat.ltb_spec (List.length pts) (d + 1)); [reflexivity|].
    assert (N : pts <> []) by (intros ->; cbn in *; lia). cbn [rbind fst snd]. destruct pdf as [(nb, tm)|]; [|reflexivity]. rewrite map_length.
    destruct (Nat.eqb_spec (List.length pts) (List.length tm)); [|reflexivity]. destruct edges as [edges|]; [|reflexivity].
    destruct (Z.eqb _ _); [|reflexivity]. set (e' := match e with Some e => Some (e edges) | None => None end).
    assert (He' : indifferent_option s v d pts e') by (unfold e'; destruct e; cbn; auto).
    pose proof (make_methods_mv s v Hs d pts grid_dimension tm (m edges) e' e0 (Hm edges) He') as R. unfold res_rel in *. fold mv in R.
    destruct (make_methods d pts tm (m edges) e'), (make_methods d (map mv pts) tm (m edges) e'); auto.
  Qed.
  Lemma c89_pdf edges pdf m e axis tgt :
    (forall k edges, indifferent s v d pts (m k edges)) -> (forall e' k edges, e = Some e' -> indifferent s v d pts (e' k edges)) ->
    (do est <- pdf_init (moved_grid s v g) edges pdf m e axis; pdf_call inside est (moved_target s v tgt)) =
    (do est <- pdf_init g edges pdf m e axis; pdf_call inside est tgt).
  Proof.
    intros Hm He. unfold pdf_init. destruct (swapaxes pdf axis (-1)) as [sw|]; cbn [rbind]; auto.
    set (k := size (inner sw)). set (td := Some (last (ashape sw) 0%nat, _)).
    assert (F : forall e', (forall e2 ed, e' = Some e2 -> indifferent s v d pts (e2 ed)) ->
      (do est <- (do est <- discrete_init (moved_grid s v g) (Some edges) td (m k) e'; Ok (mkPE est axis (inner sw) (last (ashape sw) 0%nat)));
       pdf_call inside est (moved_target s v tgt)) =
      (do est <- (do est <- discrete_init g (Some edges) td (m k) e'; Ok (mkPE est axis (inner sw) (last (ashape sw) 0%nat)));
       pdf_call inside est tgt)).
    { intros e' He'. pose proof (discrete_mv (Some edges) td (m k) e' (Hm k) He') as R.
      destruct (discrete_init g (Some edges) td (m k) e') as [a|], (discrete_init (moved_grid s v g) (Some edges) td (m k) e') as [b|];
        try (destruct R; fail); cbn [rbind].
      - destruct R. unfold pdf_call. cbn [pe_est pe_axis pe_inner pe_bins]. rewrite (call_mv a b) by auto. auto.
      - rewrite R. auto. }
    apply F. intros e2 ed E. destruct e as [e|]; [|discriminate]. injection E as <-. apply (He e); auto.
  Qed.
  Lemma c89_psf edges eu pdf pu ik m ek e axis tgt :
    (forall n k edges, indifferent s v d pts (m n k edges)) -> (forall e' n k edges, e = Some e' -> indifferent s v d pts (e' n k edges)) ->
    (do est <- psf_init (moved_grid s v g) edges eu pdf pu ik m ek e axis; pdf_call inside est (moved_target s v tgt)) =
    (do est <- psf_init g edges eu pdf pu ik m ek e axis; pdf_call inside est tgt).
  Proof.
    intros Hm He. unfold psf_init. destruct (input_unit _ eu); cbn [rbind]; auto. destruct (input_unit _ pu); cbn [rbind]; auto.
    apply c89_pdf; auto. intros e2 k ed E. destruct e as [e|]; [|discriminate]. injection E as <-. apply (He e); auto.
  Qed.
  Lemma c89_rad_max rm fill m e two tri find find' tgt : indifferent s v d pts m -> indifferent_option s v d pts e ->
    (d = 2%nat -> good_mesh (points tri) (simplices tri) (hull tri)) ->
    (forall t, List.length t = d -> find' (mv t) = find t) ->
    (do est <- rad_max_init (moved_grid s v g) rm fill m e; rad_max_call inside (moved_triangulation s v tri) find' two est (moved_target s v tgt)) =
    (do est <- rad_max_init g rm fill m e; rad_max_call inside tri find two est tgt).
  Proof.
    intros Hm He Ht Hf. unfold rad_max_init. pose proof (parametrized_mv (Some rm) m e Hm He) as R.
    destruct (parametrized_init g (Some rm) m e) as [a|], (parametrized_init (moved_grid s v g) (Some rm) m e) as [b|]; try (destruct R; fail); cbn [rbind].
    2:{ rewrite R. auto. }
    destruct R as (R & N). pose proof R as (G1 & G2 & G3 & G4 & _). fold mv in G4.
    set (f := match fill with FillNone => None | FillInfer => _ | FillValue x => _ end).
    assert (C : forall fv ni ne, (forall x, active_fill fv = Some x -> (d < 3)%nat) ->
      rad_max_call inside (moved_triangulation s v tri) find' two (mkRM b rm fv ni ne) (moved_target s v tgt) =
      rad_max_call inside tri find two (mkRM a rm fv ni ne) tgt).
    { intros fv ni ne D3. unfold rad_max_call. cbn [rm_est rm_params fill_val interp_nearest extrap_nearest]. rewrite (call_mv a b) by auto.
      destruct (estimator_call inside a tgt) as [wo|]; cbn [rbind]; auto. rewrite G1, G2. pose proof (check_target_mv s v d tgt) as CT.
      destruct (check_target d tgt) as [t|]; [destruct CT as (L & ->)|rewrite CT]; cbn [rbind]; auto. fold mv.
      destruct (active_fill fv) as [x|] eqn:AF; auto. specialize (D3 x eq_refl). rewrite G4.
      destruct (Nat.eqb_spec d 1) as [E|E].
      - pose proof (passed_dim _ _ _ G3 grid_dimension) as H'. pose proof (passed_nonempty _ _ _ G3 N) as N'. rewrite E in H', L.
        unfold mv. rewrite moved_concat, moved_hd by auto. rewrite list_min_aff, list_max_aff, !aff_lt, rm_segment_aff by (auto using concat_nonempty). auto.
      - assert (E2 : d = 2%nat) by lia. rewrite Hf by auto. destruct (_ || ni); auto. destruct (find t); cbn [rbind]; auto.
        assert (P : (nth 0 (mv t) 0, nth 1 (mv t) 0) = moved_xy s v (nth 0 t 0, nth 1 t 0)).
        { unfold moved_xy, mv. cbn [fst snd]. rewrite !moved_nth by lia. auto. }
        destruct tgt; cbn [moved_target rbind]; auto. rewrite P, nearest_simplex_mv by auto. auto. }
    rewrite G1, G2. destruct (active_fill f) eqn:AF; [destruct (Nat.leb_spec 3 d); cbn [rbind]; auto|cbn [rbind]]; apply C; intros; try lia. congruence.
  Qed.
End Final.
