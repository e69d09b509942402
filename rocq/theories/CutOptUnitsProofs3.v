(** * CutOptUnitsProofs3: the cut optimisation does not depend on units *)
From Coq Require Import String Reals List Bool ZArith Arith Lia Lra.
From Verif Require Import Num Numpy Table Binning Percentile Cuts CutUnits Utils Sensitivity CutOptimization Quantities SpectralUnits SimulationUnits IRFUnits
  SensitivityUnits CutOptimizationUnits SpecUnits SpecIRFUnits SpecSensUnits SpecCutUnits SpecCutOptUnits IRFUnitsProofs CutUnitsProofs SensUnitsProofs SensUnitsProofs2 SensUnitsProofs3
  CutOptUnitsProofs CutOptUnitsProofs2.
Import ListNotations.
Open Scope R_scope.
Notation sc := IRFUnitsProofs.sc.

Lemma get_in t n name a : has_rows t n -> In (name, a) (qe_columns t) -> IRFUnits.get_column t name = Ok a.
Proof.
  intros (_ & N & _) I. unfold IRFUnits.get_column. induction (qe_columns t) as [|[m b] l IH]; [destruct I|].
  cbn [find fst]. cbn in N. inversion N as [|? ? N1 N2]; subst. destruct (String.eqb_spec m name) as [E|E].
  - subst m. destruct I as [I|I]; [inversion I; reflexivity|]. exfalso. apply N1. now apply (in_map fst) in I.
  - destruct I as [I|I]; [inversion I; congruence|]. auto.
Qed.
Lemma get_plain t n name l : has_rows t n -> In (name, APlain l) (qe_columns t) -> plain_column t name = Ok l.
Proof. intros H I. unfold plain_column. now rewrite (get_in _ _ _ _ H I). Qed.
Lemma some_map {A} (f : A -> A) (o : option A) : o = None -> option_map f o = None.
Proof. intros ->. reflexivity. Qed.

Section Same.
Variables (brentq : (R -> num) -> R -> R -> res R) (sf : num -> num -> num -> num) (sa : list num -> list num -> num -> res (list num)).
Variables (sw sp bw bp : bool) (signal background : list opt_event) (qs qb : qevents).
Variables (b : list num) (v : qunit) (b' : list num) (alpha : num) (mn mx : quantity) (mn' mx' ms me mb : num).
Hypothesis Hs : holds_events qs sw sp signal.
Hypothesis Hb : holds_events qb bw bp background.
Hypothesis Ho : has_offset qb background.
Hypothesis Hbins : numbers energy_dim tev b v b'.
Hypothesis Hmn : in_radian mn mn'.
Hypothesis Hmx : in_radian mx mx'.
Notation bins := (AQty (mkQA b v)).
Notation qsel := (q_selected_sensitivity brentq sf sa qs qb bins alpha mn mx ms me mb).
Notation sel := (selected_sensitivity brentq sf sa sw sp bw bp b' alpha mn' mx' ms me mb).

Definition scanrel (r : res qtable) (r' : res table) : Prop :=
  match r, r' with Ok (t, u), Ok t' => u = v /\ prel (qu_scale v / tev) t t' | Err e, Err e' => e = e' | _, _ => False end.
Lemma selected_same m n ce vc ce' cut w cut' : List.length m = List.length signal -> List.length n = List.length background ->
  numbers energy_dim tev ce vc ce' -> numbers angle_dim 1 cut w cut' ->
  scanrel (qsel m n (AQty (mkQA ce vc)) (AQty (mkQA cut w))) (sel (select m signal) (select n background) ce' cut').
Proof.
  intros Lm Ln C K. destruct Hs as (S1 & S2 & S3 & S4 & S5), Hb as (B1 & B2 & B3 & B4 & B5).
  assert (E1 : map ev_x (map o_ev (select m signal)) = mask_rows m (map o_energy signal)) by (rewrite map_map, select_mask, mask_map; reflexivity).
  pose proof (chain_same brentq sf sa (q_rows_where qs m) (map o_ev (select m signal)) sw sp b v (q_rows_where qb n)
    (map (fun e => mkBg (o_ev e) (o_offset e)) (select n background)) bw bp b v b' ce vc ce' cut w cut' alpha mn mx mn' mx' ms me mb) as H.
  lapply H; [clear H; intros H|rewrite map_length, select_mask, len_mask by auto; apply rows_mask; now rewrite Lm].
  lapply H; [clear H; intros H|rewrite E1; apply column_mask; exact S2].
  lapply H; [clear H; intros H|unfold q_rows_where; cbn [qe_weight]; rewrite S4; destruct sw; cbn [option_map]; [rewrite mask_map, map_map, select_mask|]; reflexivity].
  lapply H; [clear H; intros H|unfold q_rows_where; cbn [qe_ptype]; rewrite S5; destruct sp; cbn [option_map]; [rewrite mask_map, map_map, select_mask|]; reflexivity].
  lapply H; [clear H; intros H|exact Hbins].
  lapply H; [clear H; intros H|rewrite map_length, select_mask, len_mask by auto; apply rows_mask; now rewrite Ln].
  lapply H; [clear H; intros H|rewrite map_map; cbn [bg_ev]; rewrite select_mask; change (fun x => ev_x (o_ev x)) with o_energy; rewrite <- mask_map; apply column_mask; exact B2].
  lapply H; [clear H; intros H|rewrite map_map; cbn [bg_offset]; rewrite select_mask, <- mask_map; apply column_mask; exact Ho].
  lapply H; [clear H; intros H|unfold q_rows_where; cbn [qe_weight]; rewrite B4; destruct bw; cbn [option_map]; [rewrite mask_map, map_map, select_mask|]; reflexivity].
  lapply H; [clear H; intros H|unfold q_rows_where; cbn [qe_ptype]; rewrite B5; destruct bp; cbn [option_map]; [rewrite mask_map, map_map, select_mask|]; reflexivity].
  specialize (H Hbins C K Hmn Hmx). unfold q_selected_sensitivity, selected_sensitivity.
  match goal with H : same_histogram ?a ?b |- scanrel ?a' ?b' => change (same_histogram a' b') in H; destruct a' as [[t u]|e] eqn:E, b' as [t'|e']; cbn [same_histogram] in H; cbn [scanrel]; auto end.
  apply same_rel in H. destruct H as (U & H).
  unfold q_create_histogram_table in E. destruct (q_histogram_table _ _ _) as [h|]; cbn [rbind plain_unit qa_val qa_unit] in E; [|discriminate].
  destruct (q_estimate_background _ _ _ _ _ _ _) as [[bh bu]|]; cbn [rbind] in E; [|discriminate].
  unfold q_calculate_sensitivity in E. destruct (deqb _ _).
  - destruct (calculate_sensitivity _ _ _ _ _ _ _ _ _) as [t0|] eqn:F; cbn [rbind] in E; [|discriminate]. inversion E; subst. split; [reflexivity|].
    apply rel_prel; auto. eapply laid_sens; eauto.
  - destruct (get_col _ _); cbn [rbind] in E; [|discriminate]. destruct (get_col bh _); cbn [rbind] in E; discriminate.
Qed.
(** lengths of masks *)
Lemma eval_length op cut x : forall idx valid m, eval_rows op cut x idx valid = Ok m -> List.length x = List.length idx -> List.length valid = List.length idx -> List.length m = List.length x.
Proof.
  induction x as [|a x IH]; intros [|z idx] [|w valid] m E L1 L2; try discriminate; cbn [eval_rows] in E; [inversion E; reflexivity|].
  destruct (if w then _ else _) as [k|]; cbn [rbind] in E; [|discriminate]. destruct (eval_rows op cut x idx valid) as [bs|] eqn:F; cbn [rbind] in E; [|discriminate].
  inversion E. cbn in *. f_equal. apply (IH idx valid); auto.
Qed.
Lemma index_length q x idx valid cut op m : evaluate_binned_cut_by_index q x idx valid cut op = Ok m -> List.length m = List.length x.
Proof.
  unfold evaluate_binned_cut_by_index. destruct (negb q); [discriminate|]. destruct (Nat.eqb_spec (List.length x) (List.length idx)) as [L|]; [|discriminate]. cbn [negb].
  destruct (Nat.eqb_spec (List.length valid) (List.length idx)) as [L'|]; [|discriminate]. cbn [negb]. intros E. eapply eval_length; eauto.
Qed.
Lemma binned_length q x d low high u cut op m : evaluate_binned_cut q x d low high u cut op = Ok m -> List.length m = List.length x.
Proof.
  unfold evaluate_binned_cut. destruct (negb q); [discriminate|]. destruct (rev high); [discriminate|]. destruct (calculate_bin_indices _ _); cbn [rbind]; [|discriminate]. apply index_length.
Qed.
Lemma and_length a : forall c, List.length a = List.length c -> List.length (mask_and a c) = List.length a.
Proof. induction a as [|x a IH]; intros [|y c] H; try discriminate; [reflexivity|]. cbn in *. f_equal. apply IH. now injection H. Qed.
(** scans *)
Definition scans (l : list qtable) (l' : list table) : Prop := Forall2 (fun p t => snd p = v /\ prel (qu_scale v / tev) (fst p) t) l l'.
Lemma rmap_scan {A} (f : A -> res qtable) (g : A -> res table) l : (forall x, scanrel (f x) (g x)) ->
  match rmap f l, rmap g l with Ok s, Ok s' => scans s s' | Err e, Err e' => e = e' | _, _ => False end.
Proof.
  intros H. induction l as [|a l IH]; cbn [rmap]; [constructor|]. specialize (H a). destruct (f a) as [[t u]|e], (g a) as [t'|e']; cbn [scanrel] in H; try tauto; cbn [rbind]; auto.
  destruct (rmap f l) as [s|e], (rmap g l) as [s'|e']; try tauto; cbn [rbind]; auto. constructor; auto.
Qed.
Lemma scans_tables s s' : scans s s' -> Forall2 (prel (qu_scale v / tev)) (map fst s) s'.
Proof. intros H. induction H as [|p t l l' (_ & P) H IH]; constructor; auto. Qed.
(** edges *)
Lemma edges_num : numbers energy_dim tev (but_last b) v (but_last b') /\ numbers energy_dim tev (tl b) v (tl b') /\ numbers energy_dim tev (bin_center b) v (bin_center b').
Proof.
  destruct Hbins as (U & ->). pose proof U as (_ & P). pose proof tev_pos.
  split; [|split]; (split; [exact U|]); change (fun x : num => nmul x (Fin (qu_scale v / tev))) with (sc (qu_scale v / tev)).
  - unfold but_last. generalize b. intros l. induction l as [|x [|y l] IH]; try reflexivity. cbn [map removelast] in *. now rewrite IH.
  - apply tl_map.
  - apply SensUnitsProofs.center_sc. apply Rdiv_lt_0_compat; auto.
Qed.
Lemma bins_length : List.length b = List.length b'.
Proof. destruct Hbins as (_ & ->). now rewrite map_length. Qed.
(** ** optimize_gh_cut *)
Section Gh.
Variable op : num -> num -> bool.
Variables (cuts : q_cuts) (low high center cut : list num).
Hypothesis Hcuts : cuts_in cuts low high center cut.
Hypothesis Ht : has_theta qs signal.
Lemma gh_scan_same sel_theta t t' col : List.length sel_theta = List.length signal ->
  cut_rows t = cut_rows t' -> ct_low t = but_last b -> ct_high t = tl b -> ct_edge_unit t = Some (as_unit v) -> ct_low t' = but_last b' -> ct_high t' = tl b' ->
  scanrel (q_gh_scan brentq sf sa qs qb bins alpha mn mx ms me mb op sel_theta cuts t col)
    (gh_scan brentq sf sa sw sp bw bp signal background b' alpha mn' mx' ms me mb op sel_theta center cut t' col).
Proof.
  intros Lt E T1 T2 T3 T1' T2'. unfold q_gh_scan, gh_scan. rewrite E, T1, T2, T3, T1', T2'.
  destruct Hs as (S1 & (es & us & S2 & S2') & S3 & _), Hb as (B1 & (eb & ub & B2 & B2') & B3 & _).
  rewrite (get_plain _ _ _ _ S1 S3), (get_plain _ _ _ _ B1 B3), (get_in _ _ _ _ S1 S2), (get_in _ _ _ _ B1 B2). cbn [rbind].
  destruct edges_num as (L & H & C).
  rewrite (evaluate_num _ _ _ _ _ _ _ _ _ _ _ S2' L H), (evaluate_num _ _ _ _ _ _ _ _ _ _ _ B2' L H).
  destruct (evaluate_binned_cut true (map o_gh signal) _ _ _ _ _ _) as [m|e] eqn:Em; cbn [rbind scanrel]; auto.
  destruct (evaluate_binned_cut true (map o_gh background) _ _ _ _ _ _) as [n|e] eqn:En; cbn [rbind scanrel]; auto.
  apply binned_length in Em. apply binned_length in En. rewrite map_length in Em, En.
  destruct Hcuts as (l & ul & h & uh & c & uc & x & ux & -> & Q1 & Q2 & Q3 & Q4). cbn [qc_center qc_cut].
  apply selected_same; auto. rewrite and_length; congruence.
Qed.
Lemma rmap_eq {A B} (f g : A -> res B) l : (forall x, f x = g x) -> rmap f l = rmap g l.
Proof. intros H. induction l as [|a l IH]; [reflexivity|]. cbn [rmap]. now rewrite H, IH. Qed.
Lemma low_high values bv bs fill ps lo hi sm k t : calculate_percentile_cut false values bv bs fill ps lo hi sm k = Ok t ->
  ct_low t = but_last (a_val bs) /\ ct_high t = tl (a_val bs).
Proof.
  unfold calculate_percentile_cut.
  destruct (match a_unit values with Some _ => _ | None => _ end) as [f|e]; cbn [rbind]; [|discriminate].
  destruct (bound_to _ lo) as [l|e]; cbn [rbind]; [|discriminate].
  destruct (bound_to _ hi) as [h|e]; cbn [rbind]; [|discriminate].
  destruct (calculate_bin_indices bv bs) as [iv|e]; cbn [rbind]; [|discriminate].
  destruct (negb _); [discriminate|]. destruct (negb _); [discriminate|].
  destruct (cast false (fst f)) as [x|e]; cbn [rbind]; [|discriminate].
  destruct (cut_loop _ _ _ _ _ _ _ _ _ _ _) as [nc|e]; cbn [rbind]; [|discriminate].
  destruct (smooth _ _ _); cbn [rbind]; [|discriminate]. intros E. inversion E. split; reflexivity.
Qed.
Lemma gh_same effs :
  same_gh_optimum (q_optimize_gh_cut brentq sf sa qs qb bins alpha mn mx ms me mb op effs cuts)
    (optimize_gh_cut brentq sf sa sw sp bw bp signal background b' alpha mn' mx' ms me mb op effs low high center cut).
Proof.
  unfold q_optimize_gh_cut, optimize_gh_cut.
  pose proof Hs as (S1 & (es & us & S2 & S2') & S3 & _). destruct Ht as (th & ut & T1 & T2).
  rewrite (get_in _ _ _ _ S1 T1), (get_in _ _ _ _ S1 S2), (get_plain _ _ _ _ S1 S3). cbn [rbind].
  assert (Hle : comparison nle) by (unfold comparison; cbn; tauto).
  rewrite (evaluate_angle _ _ _ _ _ _ _ _ _ _ _ _ Hle T2 S2' Hcuts).
  destruct (evaluate_binned_cut true (map o_theta signal) _ _ _ _ _ _) as [sel|e] eqn:Es; cbn [rbind same_gh_optimum]; auto.
  apply binned_length in Es. rewrite map_length in Es.
  destruct (if op (Fin (-1)) (Fin 1) then np_min _ else np_max _) as [fill|e]; cbn [rbind same_gh_optimum]; auto.
  set (ps := map (fun e => if op (Fin (-1)) (Fin 1) then 100 * e else 100 * (1 - e)) effs).
  rewrite (percentile_edges false _ _ (mkArr (map o_energy signal) None) _ (mkArr b' None)).
  2:{ apply indices_num; auto. }
  2:{ destruct S2' as (_ & ->). cbn. now rewrite map_length. }
  2:{ apply bins_length. }
  destruct (calculate_percentile_cut false (mkArr (map o_gh signal) None) _ _ _ _ _ _ _ _) as [t|e] eqn:Ec; cbn [rbind same_gh_optimum]; auto.
  destruct (low_high _ _ _ _ _ _ _ _ _ _ Ec) as (L1 & L2).
  pose proof (rmap_scan (q_gh_scan brentq sf sa qs qb bins alpha mn mx ms me mb op sel cuts (with_edges (as_arr bins) t))
    (gh_scan brentq sf sa sw sp bw bp signal background b' alpha mn' mx' ms me mb op sel center cut t) (seq 0 (List.length effs))) as R.
  lapply R; [clear R; intros R|intros col; apply gh_scan_same; auto].
  destruct (rmap (q_gh_scan _ _ _ _ _ _ _ _ _ _ _ _ _ _ _ _) _) as [ss|e], (rmap (gh_scan _ _ _ _ _ _ _ _ _ _ _ _ _ _ _ _ _ _ _ _ _) _) as [ss'|e']; try tauto; cbn [rbind same_gh_optimum]; auto.
  pose proof (scans_tables _ _ R) as F. destruct R as [|s0 s0' ss ss' (U & P) R]; cbn [same_gh_optimum]; auto.
  cbn [map] in F. cbn [map]. rewrite (rmap_eq _ (best_of_bin (s0' :: ss')) _ (fun k => best_rel _ _ _ k F)).
  unfold arg_len. cbn [plain_unit fst qa_val]. rewrite bins_length.
  destruct (rmap (best_of_bin _) _) as [best|e]; cbn [rbind same_gh_optimum]; auto.
  pose proof (assemble_rel _ _ _ best F 0 _ _ P) as A.
  destruct (assemble _ best 0 (fst s0)) as [bt|e], (assemble _ best 0 s0') as [bt'|e']; cbn [prrel] in A; try tauto; cbn [rbind same_gh_optimum]; auto.
  destruct edges_num as (N1 & N2 & N3). split.
  - apply same_rel. rewrite U. split; [apply Hbins|]. now apply prel_rel.
  - split; [|split; [split; reflexivity|reflexivity]]. exists v. repeat split; cbn [qo_table oc_low oc_center oc_high]; auto; try apply N1; try apply N2; try apply N3.
Qed.
End Gh.
End Same.
