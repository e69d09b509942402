(** * CutOptUnitsProofs4: optimize_cuts does not depend on units *)
From Coq Require Import String Reals List Bool ZArith Arith Lia Lra.
From Verif Require Import Num Numpy Table Binning Percentile Cuts CutUnits Utils Sensitivity CutOptimization Quantities SpectralUnits SimulationUnits IRFUnits
  SensitivityUnits CutOptimizationUnits SpecUnits SpecIRFUnits SpecSensUnits SpecCutUnits SpecCutOptUnits IRFUnitsProofs CutUnitsProofs SensUnitsProofs SensUnitsProofs2 SensUnitsProofs3
  CutOptUnitsProofs CutOptUnitsProofs2 CutOptUnitsProofs3.
Import ListNotations.
Open Scope R_scope.
Notation sc := IRFUnitsProofs.sc.

Lemma numbers_mask d k l u l' mask : numbers d k l u l' -> numbers d k (mask_rows mask l) u (mask_rows mask l').
Proof. intros (U & ->). split; [exact U|]. apply mask_map. Qed.
Lemma sc_angle u : (fun x => nmul x (Fin (qu_scale u / 1))) = sc (qu_scale u).
Proof. unfold sc. replace (qu_scale u / 1) with (qu_scale u) by field. reflexivity. Qed.
Lemma index_scaled k x idx valid cut : 0 < k ->
  evaluate_binned_cut_by_index true (map (sc k) x) idx valid (map (sc k) cut) nle = evaluate_binned_cut_by_index true x idx valid cut nle.
Proof.
  intros K. unfold evaluate_binned_cut_by_index. cbn [negb]. rewrite map_length. destruct (negb _); [reflexivity|]. destruct (negb _); [reflexivity|].
  apply eval_rows_map. intros. apply SensUnitsProofs2.nle_sc; auto.
Qed.
Lemma nth_rows k rows i j : nth j (nth i (map (map (sc k)) rows) []) NaN = sc k (nth j (nth i rows []) NaN).
Proof. change (@nil num) with (map (sc k) []) at 1. rewrite map_nth. change NaN with (sc k NaN) at 1. apply map_nth. Qed.
Lemma Forall2_len {A B} (P : A -> B -> Prop) l l' : Forall2 P l l' -> List.length l = List.length l'.
Proof. intros H. induction H; cbn; congruence. Qed.
Lemma Forall2_cat {A B} (P : A -> B -> Prop) a a' : Forall2 P a a' -> forall c c', Forall2 P c c' -> Forall2 P (a ++ c) (a' ++ c').
Proof. intros H. induction H; intros; cbn; auto. Qed.
Lemma rmap_rel {A B C} (P : B -> C -> Prop) (f : A -> res B) (g : A -> res C) l :
  (forall x, match f x, g x with Ok y, Ok z => P y z | Err e, Err e' => e = e' | _, _ => False end) ->
  match rmap f l, rmap g l with Ok s, Ok s' => Forall2 P s s' | Err e, Err e' => e = e' | _, _ => False end.
Proof.
  intros H. induction l as [|a l IH]; cbn [rmap]; [constructor|]. specialize (H a). destruct (f a) as [t|e], (g a) as [t'|e']; try tauto; cbn [rbind]; auto.
  destruct (rmap f l) as [s|e], (rmap g l) as [s'|e']; try tauto; cbn [rbind]; auto.
Qed.

Section Same.
Variables (brentq : (R -> num) -> R -> R -> res R) (sf : num -> num -> num -> num) (sa : list num -> list num -> num -> res (list num)).
Variables (sw sp bw bp : bool) (signal background : list opt_event) (qs qb : qevents).
Variables (b : list num) (v : qunit) (b' : list num) (alpha : num) (mn mx : quantity) (mn' mx' ms me mb : num).
Hypothesis Hs : holds_events qs sw sp signal.
Hypothesis Hb : holds_events qb bw bp background.
Hypothesis Ho : has_offset qb background.
Hypothesis Hbins : numbers energy_dim tev b v b'.
Hypothesis Hmn : in_radian mn mn'.
Hypothesis Hmx : in_radian mx mx'.
Hypothesis Hms : has_multiplicity qs signal.
Hypothesis Hmb : has_multiplicity qb background.
Notation bins := (AQty (mkQA b v)).
Variables (th : list num) (ut : qunit).
Hypothesis Ht : In ("theta"%string, AQty (mkQA th ut)) (qe_columns qs).
Hypothesis Ht' : numbers angle_dim 1 th ut (map o_theta signal).
Notation k := (qu_scale ut).
Definition same_cuts (g g' t t' : cut_table) : Prop :=
  cut_rows g = cut_rows g' /\ cut_rows t' = map (map (sc k)) (cut_rows t) /\ ct_center t = bin_center b /\ ct_center t' = bin_center b'.
Lemma k_pos : 0 < k. Proof. apply Ht'. Qed.
Lemma cuts_scan_same idx_s idx_b mult g g' t t' gi ti : same_cuts g g' t t' ->
  scanrel v (q_cuts_scan brentq sf sa qs qb bins alpha mn mx ms me mb idx_s idx_b (map (fun e => nge (o_mult e) mult) signal)
      (map (fun e => nge (o_mult e) mult) background) th (fun l => AQty (mkQA l ut)) g t gi ti)
    (cuts_scan brentq sf sa sw sp bw bp signal background b' alpha mn' mx' ms me mb idx_s idx_b mult g' t' gi ti).
Proof.
  intros (G & T & C & C'). pose proof k_pos as K. unfold q_cuts_scan, cuts_scan. rewrite G, T, C, C', col_num.
  assert (E : map o_theta signal = map (sc k) th) by (rewrite (proj2 Ht'), sc_angle; reflexivity).
  rewrite E, (index_scaled k) by auto.
  pose proof Hs as (S1 & _ & S3 & _). pose proof Hb as (B1 & _ & B3 & _).
  rewrite (get_plain _ _ _ _ S1 S3), (get_plain _ _ _ _ B1 B3). cbn [rbind].
  destruct (evaluate_binned_cut_by_index true th _ _ _ nle) as [m|e] eqn:E1; cbn [rbind scanrel]; auto.
  destruct (evaluate_binned_cut_by_index true (map o_gh signal) _ _ _ nge) as [n|e] eqn:E2; cbn [rbind scanrel]; auto.
  destruct (evaluate_binned_cut_by_index true (map o_gh background) _ _ _ nge) as [w|e] eqn:E3; cbn [rbind scanrel]; auto.
  apply index_length in E1. apply index_length in E2. apply index_length in E3. rewrite map_length in E2, E3.
  assert (L : List.length th = List.length signal) by (rewrite <- (map_length o_theta signal), E, map_length; reflexivity).
  cbn [with_unit_of qa_unit]. apply selected_same; auto.
  - rewrite and_length; rewrite and_length; rewrite ?map_length; congruence.
  - rewrite and_length; rewrite ?map_length; congruence.
  - apply (edges_num b v b' Hbins).
  - split; [apply Ht'|]. now rewrite sc_angle.
Qed.
Definition same_point (p : scan_point * qtable) (p' : scan_point * table) : Prop :=
  fst p = fst p' /\ snd (snd p) = v /\ prel (qu_scale v / tev) (fst (snd p)) (snd p').
Definition same_grid (g : cut_table * cut_table * list (scan_point * qtable)) (g' : cut_table * cut_table * list (scan_point * table)) : Prop :=
  same_cuts (fst (fst g)) (fst (fst g')) (snd (fst g)) (snd (fst g')) /\ Forall2 same_point (snd g) (snd g').
Variables (tmn tmx : quantity) (tmn' tmx' : num).
Hypothesis Htmn : in_radian tmn tmn'.
Hypothesis Htmx : in_radian tmx tmx'.
Lemma mult_scan_same idx_s idx_b fill ge te mi mult :
  match q_mult_scan brentq sf sa qs qb bins alpha mn mx ms me mb idx_s idx_b fill ge te tmn tmx mi mult,
        mult_scan brentq sf sa sw sp bw bp signal background b' alpha mn' mx' ms me mb idx_s idx_b fill ge te tmn' tmx' mi mult with
  | Ok g, Ok g' => same_grid g g' | Err e, Err e' => e = e' | _, _ => False
  end.
Proof.
  unfold q_mult_scan, mult_scan.
  pose proof Hs as (S1 & (es & us & S2 & S2') & S3 & _). pose proof Hb as (B1 & _).
  rewrite (get_plain _ _ _ _ S1 Hms), (get_plain _ _ _ _ B1 Hmb), (get_plain _ _ _ _ S1 S3), (get_in _ _ _ _ S1 S2), (get_in _ _ _ _ S1 Ht). cbn [rbind].
  rewrite !map_map. set (ms_ := map (fun e => nge (o_mult e) mult) signal). set (mb_ := map (fun e => nge (o_mult e) mult) background).
  rewrite !select_mask, <- !mask_map.
  cbn [mask_column qa_val qa_unit].
  pose proof (numbers_mask _ _ _ _ _ ms_ S2') as N. pose proof (numbers_mask _ _ _ _ _ ms_ Ht') as T.
  rewrite (percentile_edges false (mkArr (mask_rows ms_ (map o_gh signal)) None) _ (mkArr (mask_rows ms_ (map o_energy signal)) None) _ (mkArr b' None)).
  2:{ apply indices_num; auto. }
  2:{ destruct N as (_ & ->). cbn. now rewrite map_length. }
  2:{ apply (bins_length b v b' Hbins). }
  destruct (calculate_percentile_cut false (mkArr (mask_rows ms_ (map o_gh signal)) None) _ _ _ _ _ _ _ _) as [g|e]; cbn [rbind]; auto.
  pose proof (theta_cut_num _ _ _ _ _ _ _ _ _ _ _ _ _ (map (fun e => 100 * e) te) 10 T N Hbins Htmn Htmx) as P.
  destruct (calculate_percentile_cut false (as_arr _) _ _ _ _ _ _ _ _) as [t|e],
    (calculate_percentile_cut false (mkArr (mask_rows ms_ (map o_theta signal)) None) _ _ _ _ _ _ _ _) as [t'|e']; cbn [same_theta_cuts] in P; try tauto; cbn [rbind]; auto.
  cbn [plain_unit fst qa_val qa_unit].
  match goal with |- context [rmap ?f (gh_theta_pairs ?a ?c)] => match goal with |- context [rbind (rmap ?h (gh_theta_pairs a c)) (fun s => Ok (g, t', s))] =>
    pose proof (rmap_rel same_point f h (gh_theta_pairs a c)) as R end end.
  lapply R; [clear R; intros R|].
  2:{ intros [gi ti]. cbn [fst snd]. assert (Q : same_cuts (with_edges (mkArr b (Some (as_unit v))) g) g t t') by (split; [reflexivity|exact P]).
      pose proof (cuts_scan_same idx_s idx_b mult _ _ _ _ gi ti Q) as C. cbn [as_arr qa_val qa_unit]. fold ms_ mb_ in C.
      destruct (q_cuts_scan _ _ _ _ _ _ _ _ _ _ _ _ _ _ _ _ _ _ _ _ _ _) as [[x u]|], (cuts_scan _ _ _ _ _ _ _ _ _ _ _ _ _ _ _ _ _ _ _ _ _ _ _) as [x'|]; cbn [scanrel] in C; try tauto; cbn [rbind]; auto.
      split; [reflexivity|]. exact C. }
  destruct (rmap _ _) as [s|e], (rmap _ (gh_theta_pairs _ _)) as [s'|e']; try tauto; cbn [rbind]; auto.
  split; cbn [fst snd]; [|exact R]. split; [reflexivity|exact P].
Qed.
Lemma flat_same grids grids' : Forall2 same_grid grids grids' -> Forall2 same_point (flat_map (fun g => snd g) grids) (flat_map (fun g => snd g) grids').
Proof. intros H. induction H as [|g g' l l' (_ & P) H IH]; cbn; [constructor|]. now apply Forall2_cat. Qed.
Lemma points_same s s' : Forall2 same_point s s' -> map fst s = map fst s'.
Proof. intros H. induction H as [|p p' l l' (P & _) H IH]; cbn; congruence. Qed.
Lemma tables_same s s' : Forall2 same_point s s' -> Forall2 (prel (qu_scale v / tev)) (map (fun p => fst (snd p)) s) (map snd s').
Proof. intros H. induction H as [|p p' l l' (_ & _ & P) H IH]; constructor; auto. Qed.
Lemma cuts_same mults ge te :
  same_optimum (q_optimize_cuts brentq sf sa qs qb bins alpha mn mx ms me mb mults ge te tmn tmx)
    (optimize_cuts brentq sf sa sw sp bw bp signal background b' alpha mn' mx' ms me mb mults ge te tmn' tmx').
Proof.
  unfold q_optimize_cuts, optimize_cuts.
  pose proof Hs as (S1 & (es & us & S2 & S2') & S3 & _). pose proof Hb as (B1 & (eb & ub & B2 & B2') & B3 & _).
  rewrite (get_plain _ _ _ _ S1 S3), (get_in _ _ _ _ S1 S2), (get_in _ _ _ _ B1 B2), (get_in _ _ _ _ S1 Ht). cbn [rbind].
  destruct (np_max _) as [fill|e]; cbn [rbind same_optimum]; auto.
  rewrite (indices_num _ _ _ _ _ _ S2' Hbins), (indices_num _ _ _ _ _ _ B2' Hbins).
  destruct (calculate_bin_indices (mkArr (map o_energy signal) None) _) as [idx_s|e]; cbn [rbind same_optimum]; auto.
  destruct (calculate_bin_indices (mkArr (map o_energy background) None) _) as [idx_b|e]; cbn [rbind same_optimum]; auto.
  match goal with |- same_optimum (rbind (rmap ?f ?l) _) (rbind (rmap ?h ?l) _) => pose proof (rmap_rel same_grid f h l) as R end.
  lapply R; [clear R; intros R|intros [mi mult]; apply mult_scan_same].
  destruct (rmap _ _) as [grids|e], (rmap _ (combine _ _)) as [grids'|e']; try tauto; cbn [rbind same_optimum]; auto.
  pose proof (flat_same _ _ R) as S. set (sc1 := flat_map _ grids) in *. set (sc2 := flat_map _ grids') in *.
  pose proof (tables_same _ _ S) as F. pose proof (points_same _ _ S) as PS. clearbody sc1 sc2.
  destruct S as [|p0 p0' sc1 sc2 (P1 & P2 & P3) S]; cbn [map same_optimum]; auto.
  cbn [map] in F, PS. rewrite (rmap_eq _ (best_of_bin (snd p0' :: map snd sc2)) _ (fun j => best_rel _ _ _ j F)).
  unfold arg_len. cbn [plain_unit fst qa_val]. rewrite (bins_length b v b' Hbins).
  destruct (rmap (best_of_bin _) _) as [best|e]; cbn [rbind same_optimum]; auto.
  pose proof (assemble_rel _ _ _ best F 0 _ _ P3) as A.
  destruct (assemble _ best 0 (fst (snd p0))) as [bt|e], (assemble _ best 0 (snd p0')) as [bt'|e']; cbn [prrel] in A; try tauto; cbn [rbind same_optimum]; auto.
  rewrite PS. destruct (rmap _ best) as [points|e]; cbn [rbind same_optimum]; auto.
  assert (RG : Forall2 (fun g g' => cut_rows g = cut_rows g') (map (fun g => fst (fst g)) grids) (map (fun g => fst (fst g)) grids')).
  { clear - R. induction R as [|g g' l l' ((G & _) & _) R IH]; constructor; auto. }
  assert (RT : Forall2 (fun g g' => cut_rows g' = map (map (sc k)) (cut_rows g)) (map (fun g => snd (fst g)) grids) (map (fun g => snd (fst g)) grids')).
  { clear - R. induction R as [|g g' l l' ((_ & G & _) & _) R IH]; constructor; auto. }
  pose proof (rmap_rel _ (fun p => np_index (map (fun g => fst (fst g)) grids) (Z.of_nat (p_mult p))) (fun p => np_index (map (fun g => fst (fst g)) grids') (Z.of_nat (p_mult p)))
    points (fun p => index_rel _ _ _ (Z.of_nat (p_mult p)) RG)) as IG.
  pose proof (rmap_rel _ (fun p => np_index (map (fun g => snd (fst g)) grids) (Z.of_nat (p_mult p))) (fun p => np_index (map (fun g => snd (fst g)) grids') (Z.of_nat (p_mult p)))
    points (fun p => index_rel _ _ _ (Z.of_nat (p_mult p)) RT)) as IT.
  destruct (rmap (fun p => np_index (map (fun g => fst (fst g)) grids) _) points) as [gt|e], (rmap (fun p => np_index (map (fun g => fst (fst g)) grids') _) points) as [gt'|e'];
    try tauto; cbn [rbind same_optimum]; auto.
  destruct (rmap (fun p => np_index (map (fun g => snd (fst g)) grids) _) points) as [tt|e], (rmap (fun p => np_index (map (fun g => snd (fst g)) grids') _) points) as [tt'|e'];
    try tauto; cbn [rbind same_optimum]; auto.
  destruct (edges_num b v b' Hbins) as (N1 & N2 & N3). cbn [unit_opt qa_unit].
  split; [apply same_rel; rewrite P2; split; [apply Hbins|now apply prel_rel]|]. split; [reflexivity|]. split; [now rewrite P2|].
  split; (split; [exists v; cbn [qo_edge_unit qo_table oc_low oc_center oc_high]; split; [reflexivity|split; [exact N1|split; [exact N3|exact N2]]]|]); (split; [|reflexivity]).
  - exists ut. cbn [qo_cut_unit qo_table oc_cut]. split; [reflexivity|]. split; [apply Ht'|]. rewrite sc_angle.
    generalize (seq 0 (List.length b' - 1)). clear - IT. revert tt tt' IT. induction points as [|p points IH]; intros tt tt' IT ids; [reflexivity|].
    destruct ids as [|i ids]; [reflexivity|]. destruct IT as [|x x' tt tt' X IT]; [reflexivity|]. cbn [combine zipwith map fst snd]. rewrite X, nth_rows. f_equal. apply IH; auto.
  - cbn [qo_cut_unit qo_table oc_cut]. split; [reflexivity|].
    generalize (seq 0 (List.length b' - 1)). clear - IG. revert gt gt' IG. induction points as [|p points IH]; intros gt gt' IG ids; [reflexivity|].
    destruct ids as [|i ids]; [reflexivity|]. destruct IG as [|x x' gt gt' X IG]; [reflexivity|]. cbn [combine zipwith map fst snd]. rewrite X. f_equal. apply IH; auto.
Qed.
End Same.
