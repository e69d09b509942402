(** * CutOptimizationProofs2: the three-dimensional scan of optimize_cuts (C28) *)
From Coq Require Import String Reals List Bool ZArith Lia Lra.
From Verif Require Import Num Numpy Table Binning SpecBinning BinningProofs HistProofs BinningProofs2 Percentile Cuts SpecCuts
  CutsProofs CutsProofs2 SpecSensitivity Sensitivity SensitivityProofs3 SensitivityProofs4 CutOptimization SpecCutOptimization CutOptimizationProofs.
Import ListNotations.
Open Scope R_scope.

Lemma but_last_snoc {A} (l : list A) h : but_last (l ++ [h]) = l.
Proof. induction l as [|a [|b l] IH]; auto. cbn [app] in *. cbn [but_last]. f_equal. exact IH. Qed.
Lemma bins_last (bins : list num) : (2 <= length bins)%nat -> exists h rest, rev (tl bins) = h :: rest /\ but_last bins ++ [h] = bins.
Proof.
  intros H. assert (Ht : tl bins <> []) by (destruct bins as [|a [|b l]]; simpl in *; try lia; discriminate).
  destruct (exists_last Ht) as (l & h & El). exists h, (rev l). rewrite El, rev_app_distr. split; auto.
  destruct bins as [|a bins]; [simpl in H; lia|]. cbn [tl] in El. subst bins.
  change (a :: l ++ [h]) with ((a :: l) ++ [h]). rewrite but_last_snoc. auto.
Qed.
(** a cut table on the bins of the histogram: evaluation = bin indices + lookup *)
Lemma eval_bins values xs bins cuts op idx : (2 <= length bins)%nat ->
  calculate_bin_indices (raw xs) (raw bins) = Ok idx ->
  evaluate_binned_cut true values (raw xs) (but_last bins) (tl bins) None cuts op =
  evaluate_binned_cut_by_index true values (fst idx) (snd idx) cuts op.
Proof.
  intros H E. destruct (bins_last bins H) as (h & rest & Hr & Hb).
  rewrite (c14_by_index _ _ _ _ _ _ _ h rest Hr), Hb, E. destruct idx; reflexivity.
Qed.

Lemma flat_map_map_fst {A B C} (g : A -> B) (h : B -> list C) l : flat_map h (map g l) = flat_map (fun a => h (g a)) l.
Proof. induction l; simpl; auto. f_equal; auto. Qed.
Lemma list_prod_flat {A B} (l : list A) (m : list B) : list_prod l m = flat_map (fun a => map (fun b => (a, b)) m) l.
Proof. induction l; simpl; auto. f_equal; auto. Qed.
Lemma list_prod_app {A B} (l1 l2 : list A) (m : list B) : list_prod (l1 ++ l2) m = list_prod l1 m ++ list_prod l2 m.
Proof. induction l1; simpl; auto. rewrite IHl1, app_assoc. auto. Qed.
Lemma prod3 (M G T : list nat) :
  map (fun p => mkPoint (fst (fst p)) (snd p) (snd (fst p))) (list_prod (list_prod M G) T) =
  flat_map (fun m => map (fun p => mkPoint m (snd p) (fst p)) (list_prod G T)) M.
Proof.
  induction M as [|m M IH]; simpl; auto. rewrite list_prod_app, map_app, IH. f_equal.
  clear. induction G as [|g G IH]; simpl; auto. rewrite !map_app, IH. f_equal. rewrite !map_map. auto.
Qed.
Lemma pairs_prod g t : gh_theta_pairs g t = list_prod (seq 0 g) (seq 0 t).
Proof. unfold gh_theta_pairs. rewrite list_prod_flat. auto. Qed.

Lemma nth_combine {A B} (l : list A) : forall (m : list B) k a b,
  nth_error l k = Some a -> nth_error m k = Some b -> nth_error (combine l m) k = Some (a, b).
Proof. induction l; intros [|] [|k]; cbn; intros; try discriminate; auto. congruence. Qed.

Section C28.
Variables (br : (R -> num) -> R -> R -> res R) (sf : num -> num -> num -> num)
  (sa : list num -> list num -> num -> res (list num)) (sw sp bw bp : bool)
  (signal background : list opt_event) (bins : list num) (alpha mn mx ms mse mex : num).
Hypothesis Hbins : (2 <= length bins)%nat.

Notation cscan := (cuts_scan br sf sa sw sp bw bp signal background bins alpha mn mx ms mse mex).
Notation mscan := (mult_scan br sf sa sw sp bw bp signal background bins alpha mn mx ms mse mex).

Lemma cuts_scan_spec idx_s idx_b mult ght tht gi ti s rg rt (gh_eff theta_eff : list R) :
  calculate_bin_indices (raw (map o_energy signal)) (raw bins) = Ok idx_s ->
  calculate_bin_indices (raw (map o_energy background)) (raw bins) = Ok idx_b ->
  ct_cut ght = Cut2 rg -> (forall r, In r rg -> length r = length gh_eff) -> (gi < length gh_eff)%nat ->
  ct_cut tht = Cut2 rt -> (forall r, In r rt -> length r = length theta_eff) -> (ti < length theta_eff)%nat ->
  ct_center tht = bin_center bins ->
  cscan idx_s idx_b mult ght tht gi ti = Ok s ->
  column_of rg gi (cut_col rg gi) /\ column_of rt ti (cut_col rt ti) /\
  sensitivity_of_all_cuts br sf sa sw sp bw bp signal background bins alpha mn mx ms mse mex
    (enough_telescopes mult signal) (enough_telescopes mult background) (cut_col rg gi) (cut_col rt ti) s.
Proof.
  intros His Hib Eg Hg Lg Et Ht Lt Ec H. split; [eapply cut_col_spec; eauto|]. split; [eapply cut_col_spec; eauto|].
  unfold cuts_scan, cut_rows in H. rewrite Eg, Et, Ec in H.
  apply rbind_ok in H as (mt & Hmt & H). apply rbind_ok in H as (mg & Hmg & H). apply rbind_ok in H as (bg & Hbg & H).
  unfold selected_sensitivity in H. apply rbind_ok in H as (sh & Hsh & H). apply rbind_ok in H as (bh & Hbh & H).
  rewrite <- (eval_bins _ _ _ _ _ _ Hbins His) in Hmt. rewrite <- (eval_bins _ _ _ _ _ _ Hbins His) in Hmg. rewrite <- (eval_bins _ _ _ _ _ _ Hbins Hib) in Hbg.
  pose proof (binned_length _ _ _ _ _ _ _ _ _ Hmt) as L1. pose proof (binned_length _ _ _ _ _ _ _ _ _ Hmg) as L2.
  pose proof (binned_length _ _ _ _ _ _ _ _ _ Hbg) as L3. rewrite map_length in L1, L2, L3.
  exists mg, mt, bg. split; [exact Hmg|]. split; [exact Hmt|]. split; [exact Hbg|].
  eexists _, _, sh, bh. split; [|split; [|split; [exact Hsh|split; [exact Hbh|exact H]]]].
  - apply select_kept. unfold mask_and. rewrite !zipwith_length, map_length. lia.
  - apply select_kept. unfold mask_and. rewrite !zipwith_length, map_length. lia.
Qed.

Lemma mult_scan_spec idx_s idx_b fill gh_eff theta_eff tmin tmax mi mult ght tht sc :
  calculate_bin_indices (raw (map o_energy signal)) (raw bins) = Ok idx_s ->
  calculate_bin_indices (raw (map o_energy background)) (raw bins) = Ok idx_b ->
  mscan idx_s idx_b fill gh_eff theta_eff tmin tmax mi mult = Ok (ght, tht, sc) ->
  map fst sc = map (fun p => mkPoint mi (snd p) (fst p)) (list_prod (seq 0 (length gh_eff)) (seq 0 (length theta_eff))) /\
  exists rg rt, percentile_grids signal bins fill gh_eff theta_eff tmin tmax mult ght tht rg rt /\
    length rg = (length bins - 1)%nat /\ length rt = (length bins - 1)%nat /\
    (forall r, In r rg -> length r = length gh_eff) /\ (forall r, In r rt -> length r = length theta_eff) /\
    forall p t, In (p, t) sc -> p_mult p = mi /\ (p_gh p < length gh_eff)%nat /\ (p_theta p < length theta_eff)%nat /\
      numeric t /\
      column_of rg (p_gh p) (cut_col rg (p_gh p)) /\ column_of rt (p_theta p) (cut_col rt (p_theta p)) /\
      sensitivity_of_all_cuts br sf sa sw sp bw bp signal background bins alpha mn mx ms mse mex
        (enough_telescopes mult signal) (enough_telescopes mult background) (cut_col rg (p_gh p)) (cut_col rt (p_theta p)) t.
Proof.
  intros His Hib H. unfold mult_scan in H. apply rbind_ok in H as (g & Hg & H). apply rbind_ok in H as (t & Ht & H).
  apply rbind_ok in H as (s & Hs & H). injection H as <- <- <-. rewrite pairs_prod in Hs. split.
  - clear -Hs. revert s Hs. generalize (list_prod (seq 0 (length gh_eff)) (seq 0 (length theta_eff))). intros l.
    induction l as [|p l IH]; intros s Hs; cbn [rmap] in Hs. { injection Hs as <-. auto. }
    apply rbind_ok in Hs as (x & Hx & Hs). apply rbind_ok in Hs as (xs & Hxs & Hs). injection Hs as <-.
    apply rbind_ok in Hx as (t' & _ & Hx). injection Hx as <-. cbn [map fst]. f_equal. auto.
  - destruct (percentile_cut_rows _ _ _ _ _ _ _ _ _ Hg) as (rg & Eg & Lg & Hrg). rewrite map_length in Hrg.
    destruct (percentile_cut_rows _ _ _ _ _ _ _ _ _ Ht) as (rt & Et & Lt & Hrt). rewrite map_length in Hrt.
    exists rg, rt. split.
    { eexists. split; [apply select_kept; unfold enough_telescopes; rewrite map_length; reflexivity|].
      split; [exact Hg|]. split; auto. }
    split; auto. split; auto. split; auto. split; auto. intros p tb Hin.
    apply In_nth_error in Hin as [i Hi]. destruct (rmap_nth _ _ _ Hs) as [Ls Ns].
    destruct (nth_error_ex (list_prod (seq 0 (length gh_eff)) (seq 0 (length theta_eff))) i) as [[gi ti] Hp].
    { apply nth_lt in Hi. lia. }
    destruct (Ns i _ Hp) as (x & Hx & Ex). rewrite Hi in Hx. injection Hx as <-.
    apply rbind_ok in Ex as (t' & Hcs & Ex). injection Ex as <- <-. cbn [p_mult p_gh p_theta fst snd] in *.
    apply nth_error_In in Hp. apply in_prod_iff in Hp as [Hgi Hti]. apply in_seq in Hgi. apply in_seq in Hti.
    split; auto. split; [lia|]. split; [lia|]. split.
    { clear -Hcs. unfold cuts_scan in Hcs. apply rbind_ok in Hcs as (? & _ & H). apply rbind_ok in H as (? & _ & H).
      apply rbind_ok in H as (? & _ & H). eapply selected_numeric; eauto. }
    destruct (percentile_cut_edges _ _ _ _ _ _ _ _ _ _ Ht) as (_ & _ & Ec).
    apply (cuts_scan_spec idx_s idx_b mult g t gi ti t' rg rt gh_eff theta_eff); auto; lia.
Qed.

Lemma c28 mults gh_eff theta_eff tmin tmax best mult_out tc gc :
  optimize_cuts br sf sa sw sp bw bp signal background bins alpha mn mx ms mse mex mults gh_eff theta_eff tmin tmax
    = Ok (best, mult_out, tc, gc) ->
  exists fill ghs ths combos sens,
    largest_of (map o_gh signal) fill /\
    combos = list_prod (list_prod (seq 0 (length mults)) (seq 0 (length gh_eff))) (seq 0 (length theta_eff)) /\
    length sens = length combos /\
    (exists s0, nth_error sens 0 = Some s0 /\ colnames best = colnames s0) /\
    (forall mi m, nth_error mults mi = Some m -> exists ght tht rg rt,
       nth_error ghs mi = Some rg /\ nth_error ths mi = Some rt /\
       percentile_grids signal bins fill gh_eff theta_eff tmin tmax m ght tht rg rt) /\
    (forall i mi gi ti s, nth_error combos i = Some (mi, gi, ti) -> nth_error sens i = Some s ->
       exists m rg rt gcut tcut, nth_error mults mi = Some m /\ nth_error ghs mi = Some rg /\ nth_error ths mi = Some rt /\
         column_of rg gi gcut /\ column_of rt ti tcut /\
         sensitivity_of_all_cuts br sf sa sw sp bw bp signal background bins alpha mn mx ms mse mex
           (enough_telescopes m signal) (enough_telescopes m background) gcut tcut s) /\
    oc_low tc = but_last bins /\ oc_high tc = tl bins /\ oc_center tc = bin_center bins /\
    oc_low gc = but_last bins /\ oc_high gc = tl bins /\ oc_center gc = bin_center bins /\
    length mult_out = (length bins - 1)%nat /\ length (oc_cut tc) = (length bins - 1)%nat /\
    length (oc_cut gc) = (length bins - 1)%nat /\
    forall k, (k < length bins - 1)%nat ->
      exists i mi gi ti vals s m rg rt grow trow geff teff gx tx,
        nth_error combos i = Some (mi, gi, ti) /\ nth_error sens i = Some s /\
        length vals = length sens /\
        (forall i' s' v, nth_error sens i' = Some s' -> nth_error vals i' = Some v -> cell s' "relative_sensitivity" k v) /\
        (best_choice vals i \/ nothing_finite vals i) /\
        same_row k best s /\
        nth_error mults mi = Some m /\ nth_error mult_out k = Some m /\
        nth_error ghs mi = Some rg /\ nth_error rg k = Some grow /\ nth_error grow gi = Some gx /\ nth_error (oc_cut gc) k = Some gx /\
        nth_error ths mi = Some rt /\ nth_error rt k = Some trow /\ nth_error trow ti = Some tx /\ nth_error (oc_cut tc) k = Some tx /\
        nth_error gh_eff gi = Some geff /\ nth_error (oc_efficiency gc) k = Some geff /\
        nth_error theta_eff ti = Some teff /\ nth_error (oc_efficiency tc) k = Some teff.
Proof.
  unfold optimize_cuts. intros H. apply rbind_ok in H as (fill & Hfill & H).
  apply rbind_ok in H as (idx_s & His & H). apply rbind_ok in H as (idx_b & Hib & H).
  apply rbind_ok in H as (grids & Hgrids & H).
  set (scanned := flat_map (fun g => snd g) grids) in *. 
  destruct (map snd scanned) as [|s0 rest] eqn:Es; [discriminate|]. rewrite <- Es in *. set (sens := map snd scanned) in *.
  apply rbind_ok in H as (bst & Hbst & H). apply rbind_ok in H as (bs & Hbs & H).
  apply rbind_ok in H as (pts & Hpts & H). apply rbind_ok in H as (gts & Hgts & H). apply rbind_ok in H as (tts & Htts & H).
  injection H as <- <- <- <-.
  destruct (rmap_nth _ _ _ Hgrids) as [Lgr Ngr]. rewrite combine_length, seq_length, Nat.min_id in Lgr.
  assert (Hgrid : forall mi m, nth_error mults mi = Some m -> exists ght tht sc, nth_error grids mi = Some (ght, tht, sc) /\
     mscan idx_s idx_b fill gh_eff theta_eff tmin tmax mi m = Ok (ght, tht, sc)).
  { intros mi m Hm. destruct (Ngr mi (mi, m)) as ([[ght tht] sc] & Hg & Eg).
    - assert (Lmi : (mi < length mults)%nat) by (apply nth_lt in Hm; auto).
      apply nth_combine; auto. apply seq_nth_error; auto.
    - exists ght, tht, sc. split; auto. }
  set (combos := list_prod (list_prod (seq 0 (length mults)) (seq 0 (length gh_eff))) (seq 0 (length theta_eff))).
  assert (Hfst : map fst scanned = map (fun p => mkPoint (fst (fst p)) (snd p) (snd (fst p))) combos).
  { unfold combos. rewrite prod3. unfold scanned.
    assert (G : forall ml l gs, length ml = length l -> rmap (fun p => mscan idx_s idx_b fill gh_eff theta_eff tmin tmax (fst p) (snd p)) (combine l ml) = Ok gs ->
      map fst (flat_map (fun g => snd g) gs) =
      flat_map (fun m => map (fun p => mkPoint m (snd p) (fst p)) (list_prod (seq 0 (length gh_eff)) (seq 0 (length theta_eff)))) l).
    { intros ml l; revert ml. induction l as [|x l IH]; intros [|m ml] gs L E; try discriminate; cbn [combine rmap] in E.
      - injection E as <-. auto.
      - apply rbind_ok in E as ([[g t] sc] & E1 & E). apply rbind_ok in E as (gs' & E2 & E). injection E as <-.
        cbn [flat_map snd]. rewrite map_app. destruct (mult_scan_spec _ _ _ _ _ _ _ _ _ _ _ _ His Hib E1) as [E3 _].
        rewrite E3. cbn [fst]. f_equal. apply (IH ml); auto. }
    apply (G mults). - rewrite seq_length; auto. - exact Hgrids. }
  assert (Lsens : length sens = length combos).
  { unfold sens. rewrite map_length, <- (map_length fst), Hfst, map_length. auto. }
  exists fill, (map (fun g => cut_rows (fst (fst g))) grids), (map (fun g => cut_rows (snd (fst g))) grids), combos, sens.
  split; [apply np_max_largest; auto|]. split; auto. split; auto.
  split. { exists s0. split; [rewrite Es; auto|]. destruct (assemble_spec _ _ _ _ _ Hbs) as (_ & Hn & _). exact Hn. }
  assert (HG : forall mi m, nth_error mults mi = Some m -> exists ght tht rg rt sc,
       nth_error grids mi = Some (ght, tht, sc) /\
       nth_error (map (fun g => cut_rows (fst (fst g))) grids) mi = Some rg /\
       nth_error (map (fun g => cut_rows (snd (fst g))) grids) mi = Some rt /\
       cut_rows ght = rg /\ cut_rows tht = rt /\
       percentile_grids signal bins fill gh_eff theta_eff tmin tmax m ght tht rg rt /\
       length rg = (length bins - 1)%nat /\ length rt = (length bins - 1)%nat /\
       (forall r, In r rg -> length r = length gh_eff) /\ (forall r, In r rt -> length r = length theta_eff) /\
       forall p t, In (p, t) sc -> p_mult p = mi /\ (p_gh p < length gh_eff)%nat /\ (p_theta p < length theta_eff)%nat /\
         numeric t /\
         column_of rg (p_gh p) (cut_col rg (p_gh p)) /\ column_of rt (p_theta p) (cut_col rt (p_theta p)) /\
         sensitivity_of_all_cuts br sf sa sw sp bw bp signal background bins alpha mn mx ms mse mex
           (enough_telescopes m signal) (enough_telescopes m background) (cut_col rg (p_gh p)) (cut_col rt (p_theta p)) t).
  { intros mi m Hm. destruct (Hgrid mi m Hm) as (ght & tht & sc & Hg & Eg).
    destruct (mult_scan_spec _ _ _ _ _ _ _ _ _ _ _ _ His Hib Eg) as (_ & rg & rt & Hp & L1 & L2 & H1 & H2 & H3).
    assert (E1 : cut_rows ght = rg) by (destruct Hp as (? & _ & _ & E & _); unfold cut_rows; rewrite E; auto).
    assert (E2 : cut_rows tht = rt) by (destruct Hp as (? & _ & _ & _ & _ & E); unfold cut_rows; rewrite E; auto).
    exists ght, tht, rg, rt, sc. split; auto. rewrite !nth_error_map, Hg. cbn [option_map fst snd]. rewrite E1, E2.
    repeat (split; [solve [auto]|]). auto. }
  assert (Hpt : forall p t, In (p, t) scanned -> exists ght tht sc, nth_error grids (p_mult p) = Some (ght, tht, sc) /\ In (p, t) sc).
  { intros p t Hin. unfold scanned in Hin. apply in_flat_map in Hin as ([[g tt] sc] & Hg & Hin). cbn [snd] in Hin.
    apply In_nth_error in Hg as [mi Hg].
    destruct (nth_error_ex mults mi) as [m Hm]. { apply nth_lt in Hg. lia. }
    destruct (HG mi m Hm) as (ght & tht & rg & rt & sc' & Hg' & HH). rewrite Hg in Hg'. injection Hg' as <- <- <-.
    destruct HH as (_ & _ & _ & _ & _ & _ & _ & _ & _ & HH). destruct (HH p t Hin) as (<- & _). eauto. }
  assert (Hat : forall i mi gi ti s, nth_error combos i = Some (mi, gi, ti) -> nth_error sens i = Some s ->
     nth_error scanned i = Some (mkPoint mi ti gi, s)).
  { intros i mi gi ti s Hc Hs. unfold sens in Hs. rewrite nth_error_map in Hs.
    destruct (nth_error scanned i) as [[p t]|] eqn:E; [|discriminate]. injection Hs as <-. cbn [snd]. f_equal. f_equal.
    assert (E2 : nth_error (map fst scanned) i = Some p) by (rewrite nth_error_map, E; auto).
    rewrite Hfst, nth_error_map, Hc in E2. injection E2 as <-. reflexivity. }
  assert (Hnum : forall s, In s sens -> numeric s).
  { intros s Hs. unfold sens in Hs. apply in_map_iff in Hs as ([p t] & <- & Hin). destruct (Hpt p t Hin) as (ght & tht & sc & Hg & Hin').
    destruct (nth_error_ex mults (p_mult p)) as [m Hm]. { apply nth_lt in Hg. lia. }
    destruct (HG _ m Hm) as (ght' & tht' & rg & rt & sc' & Hg' & HH). rewrite Hg in Hg'. injection Hg' as <- <- <-.
    destruct HH as (_ & _ & _ & _ & _ & _ & _ & _ & _ & HH). destruct (HH p t Hin') as (_ & _ & _ & Hn & _). auto. }
  split. { intros mi m Hm. destruct (HG mi m Hm) as (ght & tht & rg & rt & sc & _ & H1 & H2 & _ & _ & H3 & _). eauto 8. }
  split.
  { intros i mi gi ti s Hc Hs. pose proof (Hat i mi gi ti s Hc Hs) as Hi. apply nth_error_In in Hi.
    destruct (Hpt _ _ Hi) as (ght & tht & sc & Hg & Hin). cbn [p_mult] in Hg.
    destruct (nth_error_ex mults mi) as [m Hm]. { apply nth_lt in Hg. lia. }
    destruct (HG _ m Hm) as (ght' & tht' & rg & rt & sc' & Hg' & H1 & H2 & HH). rewrite Hg in Hg'. injection Hg' as <- <- <-.
    destruct HH as (_ & _ & _ & _ & _ & _ & _ & HH). destruct (HH _ _ Hin) as (_ & _ & _ & _ & C1 & C2 & C3).
    cbn [p_gh p_theta] in *. exists m, rg, rt, (cut_col rg gi), (cut_col rt ti). auto 10. }
  cbn [oc_low oc_high oc_center oc_cut oc_efficiency].
  destruct (rmap_nth _ _ _ Hbst) as [Lbst Nbst]. rewrite seq_length in Lbst.
  destruct (rmap_nth _ _ _ Hpts) as [Lpts Npts]. destruct (rmap_nth _ _ _ Hgts) as [Lgts Ngts]. destruct (rmap_nth _ _ _ Htts) as [Ltts Ntts].
  split; auto. split; auto. split; auto. split; auto. split; auto. split; auto.
  split; [rewrite map_length; lia|]. 
  split; [rewrite zipwith_length, combine_length, seq_length; lia|].
  split; [rewrite zipwith_length, combine_length, seq_length; lia|].
  destruct (assembled sens s0 rest bst bs Es Hnum Hbs) as [Hcn Hrow].
  intros k Hk. destruct (Nbst k k) as (j & Hj & Ej). { apply seq_nth_error; auto. }
  destruct (best_of_bin_spec _ _ _ Ej) as (vals & Lvals & Ec & Hvals).
  assert (Hvne : vals <> []). { intros ->. rewrite Es in Lvals. discriminate. }
  destruct (Hrow k j Hj) as (s & Hs & Hsame).
  assert (Hjl : (j < length combos)%nat) by (rewrite <- Lsens; apply nth_lt in Hs; auto).
  destruct (nth_error_ex combos j Hjl) as [[[mi gi] ti] Hco].
  pose proof (Hat j mi gi ti s Hco Hs) as Hsc.
  destruct (Npts k j Hj) as (pt & Hpk & Ept). apply np_index_inv in Ept. rewrite nth_error_map, Hsc in Ept. injection Ept as <-.
  destruct (Ngts k _ Hpk) as (gt & Hgk & Egt). apply np_index_inv in Egt. cbn [p_mult fst] in Egt.
  destruct (Ntts k _ Hpk) as (tt & Htk & Ett). apply np_index_inv in Ett. cbn [p_mult fst] in Ett.
  pose proof (nth_error_In _ _ Hsc) as Hin. destruct (Hpt _ _ Hin) as (ght & tht & sc & Hg & Hin'). cbn [p_mult] in Hg.
  destruct (nth_error_ex mults mi) as [m Hm]. { apply nth_lt in Hg. lia. }
  destruct (HG _ m Hm) as (ght' & tht' & rg & rt & sc' & Hg' & H1 & H2 & E1 & E2 & Hp & L1 & L2 & R1 & R2 & HH).
  rewrite Hg in Hg'. injection Hg' as <- <- <-. destruct (HH _ _ Hin') as (_ & B1 & B2 & _). cbn [p_gh p_theta] in B1, B2.
  rewrite nth_error_map, Hg in Egt, Ett. injection Egt as <-. injection Ett as <-.
  destruct (nth_error_ex rg k) as [grow Hgr]; [lia|]. destruct (nth_error_ex rt k) as [trow Htr]; [lia|].
  destruct (row_of_cut_col rg gi k grow _ R1 B1 Hgr) as [Hgx _]. destruct (row_of_cut_col rt ti k trow _ R2 B2 Htr) as [Htx _].
  destruct (nth_error_ex gh_eff gi B1) as [ge Hge]. destruct (nth_error_ex theta_eff ti B2) as [te Hte].
  assert (Hcomb : forall {X} (l : list X) (x : X), nth_error l k = Some x -> nth_error (combine (seq 0 (length bins - 1)) l) k = Some (k, x)).
  { intros X l x Hx. apply nth_combine; auto. apply seq_nth_error; auto. }
  exists j, mi, gi, ti, vals, s, m, rg, rt, grow, trow, ge, te, (nth gi grow NaN), (nth ti trow NaN).
  split; auto. split; auto. split; auto. split.
  { intros i s' v Hs' Hv. destruct (Hvals i s' Hs') as (v' & c' & Hv' & Gc & Hc'). rewrite Hv in Hv'. injection Hv' as <-.
    exists c'. split; auto. apply nums_entry; auto. eapply numeric_get; [apply (Hnum s'); eapply nth_error_In; eauto|eauto]. }
  split. { subst j. apply chosen_total; auto. }
  split; auto. split; auto.
  split. { rewrite nth_error_map, Hpk. cbn. f_equal. apply nth_error_nth; auto. }
  split; auto. split; auto. split; auto.
  split. { erewrite zipwith_nth; [|exact Hpk|apply Hcomb; exact Hgk]. cbn [p_gh fst snd]. rewrite E1, (nth_error_nth _ _ _ Hgr). auto. }
  split; auto. split; auto. split; auto.
  split. { erewrite zipwith_nth; [|exact Hpk|apply Hcomb; exact Htk]. cbn [p_theta fst snd]. rewrite E2, (nth_error_nth _ _ _ Htr). auto. }
  split; auto. split. { rewrite nth_error_map, Hpk. cbn. f_equal. apply nth_error_nth; auto. }
  split; auto. rewrite nth_error_map, Hpk. cbn. f_equal. apply nth_error_nth; auto.
Qed.
End C28.
