(** * ParticlesWitness: cut optimisation that mixes up particle types (C79) *)
From Coq Require Import String Reals List Bool ZArith Lia Lra Sorted.
From Verif Require Import Num Numpy Lists Table Binning SpecBinning BinningProofs BinningWitness HistProofs BinningProofs2 Utils Statistics SpecStatistics StatisticsProofs Percentile PercentileProofs Cuts SpecCuts CutsProofs CutsProofs2
  Sensitivity SpecSensitivity SensitivityProofs SensitivityProofs2 SensitivityProofs3 SensitivityProofs4 SensitivityProofs5
  CutOptimization SpecCutOptimization CutOptimizationProofs CutOptimizationProofs2 CutOptimizationProofs3 CutOptimizationProofs4 CutOptimizationProofs5 CutOptimizationProofs6
  SpecPipeline PipelineProofs PipelineProofs2 SpecParticles CutOptimizationProofs7 CutOptimizationProofs8 CutOptimizationProofs9.
Import ListNotations.
Open Scope R_scope.

(** ** extreme percentiles *)
Lemma count_full {A} (f : A -> bool) l : (length l <= count f l)%nat -> forall x, In x l -> f x = true.
Proof.
  induction l as [|a l IH]; intros H x Hx; [destruct Hx|]. rewrite count_cons in H. pose proof (count_bound f l). cbn [length] in H.
  destruct (f a) eqn:E; [|cbn in H; lia]. destruct Hx as [<-|Hx]; auto. apply IH; auto. cbn in H. lia.
Qed.
Lemma lp_max l r M : linear_percentile l 100 r -> In M l -> (forall v, In v l -> v <= M) -> r = M.
Proof.
  intros H HM Hb. destruct (lp_bounds _ _ _ H) as (lo & hi & _ & Hhi & Hr). pose proof (lp_count_le _ _ _ H) as Hc. specialize (Hb hi Hhi).
  assert (Hl : (length l <= count (fun v => Rleb v r) l)%nat).
  { destruct (le_lt_dec (length l) (count (fun v => Rleb v r) l)) as [|Hlt]; auto. exfalso.
    assert (E : (S (count (fun v => Rleb v r) l) <= length l)%nat) by lia. apply le_INR in E. rewrite S_INR in E. lra. }
  pose proof (count_full _ l Hl M HM) as Q. apply Rleb_true in Q. lra.
Qed.
Lemma lp_min l r M : linear_percentile l 0 r -> In M l -> (forall v, In v l -> M <= v) -> r = M.
Proof.
  intros H HM Hb. destruct (lp_bounds _ _ _ H) as (lo & hi & Hlo & _ & Hr). pose proof (lp_count_ge _ _ _ H) as Hc. specialize (Hb lo Hlo).
  assert (Hl : (length l <= count (fun v => Rleb r v) l)%nat).
  { destruct (le_lt_dec (length l) (count (fun v => Rleb r v) l)) as [|Hlt]; auto. exfalso.
    assert (E : (S (count (fun v => Rleb r v) l) <= length l)%nat) by lia. apply le_INR in E. rewrite S_INR in E. lra. }
  pose proof (count_full _ l Hl M HM) as Q. apply Rleb_true in Q. lra.
Qed.
Lemma scan_doc vs xs bins (fill : num) ps lo hi t rows : nondecreasing bins -> (2 <= length bins)%nat -> length vs = length xs ->
  (forall p, In p ps -> 0 <= p <= 100) -> ordered_bounds lo hi -> (exists x k, In x xs /\ in_bin bins k x) ->
  calculate_percentile_cut false (raw (map Fin vs)) (raw xs) (raw bins) (plain fill) (PList ps) (plaino (optn lo)) (plaino (optn hi)) None 10 = Ok t ->
  ct_cut t = Cut2 rows ->
  forall j p cut, nth_error ps j = Some p -> column_of rows j cut ->
    length cut = (length bins - 1)%nat /\
    forall k c sel, nth_error cut k = Some c -> picks (in_bin bins k) xs vs sel -> documented_cut fill p lo hi 10 (map Fin sel) c.
Proof.
  intros Hnd Hl Lv Hp Hob Hex Et Er j p cut Hpj Hcol.
  destruct (c12_list (map Fin vs) xs bins fill ps (optn lo) (optn hi) 10 Hnd Hl) as (t' & rows' & Et' & Er' & Lr & Hr & Hj); auto. { rewrite map_length; auto. }
  rewrite Et in Et'. injection Et' as <-. rewrite Er in Er'. injection Er' as <-.
  pose proof (column_of_length _ _ _ Hcol) as Lcol. split; [lia|]. intros k c sel Hc Hs.
  destruct (Hj j p Hpj) as (t1 & cuts & E1 & _ & Ec1 & Lc & Hrow).
  destruct (c12 (map Fin vs) xs bins fill p lo hi 10 Hnd Hl) as (t2 & cuts2 & E2 & Ec2 & _ & _ & _ & _ & HH); auto.
  { rewrite map_length; auto. } { apply Hp. eapply nth_error_In; eauto. }
  rewrite E1 in E2. injection E2 as <-. rewrite Ec1 in Ec2. injection Ec2 as <-.
  assert (Hk : (k < length bins - 1)%nat) by (apply nth_lt in Hc; lia).
  destruct (HH k (map Fin sel) Hk (picks_map Fin _ _ _ _ Hs)) as (_ & _ & _ & c' & Hc' & Hd).
  assert (c' = c); [|subst; auto].
  destruct (nth_error_ex rows k) as [row Hr']; [lia|]. specialize (Hrow k row Hr'). rewrite Hc' in Hrow.
  pose proof (column_of_nth _ _ _ _ _ _ Hcol Hr' Hrow) as Q. congruence.
Qed.

(** ** one bin of the table of given cuts *)
Section OneBin.
Variables (br : (R -> num) -> R -> R -> res R) (sw sp bw bp : bool) (bins : list num) (alpha mn mx s m e : R) (signal background : list opt_event).
Hypotheses (Hbs : brentq_sound br) (Hbc : brentq_converges br) (Hbg : brentq_checks_signs br)
  (Hris : rising bins) (Hlen : (2 <= length bins)%nat)
  (Hsl : sp = true -> forall o, In o signal -> ev_p (o_ev o) <> "weighted"%string) (Hbl : clean_labels bp background)
  (Hws : forall o, In o signal -> 0 <= ev_w (o_ev o)) (Hwb : forall o, In o background -> 0 <= ev_w (o_ev o))
  (Ha : 0 < alpha) (Hmn : 0 <= mn) (Hmx : mn < mx) (Hpi : mx <= PI) (Hs : 0 < s).
Let Hnd : nondecreasing bins := rising_nondecreasing bins Hris.

Lemma knot k tcut th : length tcut = (length bins - 1)%nat -> nth_error tcut k = Some (Fin th) -> np_interp1 (center bins k) (bin_center bins) tcut = Fin th.
Proof.
  intros Lt Ht. apply (interp1_knot (bin_center bins) tcut k); auto.
  - intros x Hx. apply (edges_not_nan bins Hnd Hlen (proj2 (proj2 Hris)) (bin_center bins)); auto.
  - apply rising_centers; auto.
  - rewrite center_len. lia.
  - apply center_at. apply nth_lt in Ht. lia.
Qed.
Lemma gh_bin (op : num -> num -> bool) cut thcut t k c th : length cut = (length bins - 1)%nat -> length thcut = (length bins - 1)%nat ->
  sensitivity_of_cuts br li_ma1 li_ma_array sw sp bw bp signal background bins (Fin alpha) (Fin mn) (Fin mx) (Fin s) (Fin m) (Fin e)
    op cut (but_last bins) (tl bins) (bin_center bins) thcut t ->
  nth_error cut k = Some c -> nth_error thcut k = Some (Fin th) ->
  exists W V rel,
    weight_of (fun o => weight_in sw (o_ev o)) (fun o => in_bin bins k (o_energy o) /\ op (o_gh o) c = true /\ nle (o_theta o) (Fin th) = true) signal W /\
    weight_of (fun o => weight_in bw (o_ev o)) (fun o => in_annulus mn mx (o_offset o) /\ in_bin bins k (o_energy o) /\ op (o_gh o) c = true) background V /\
    cell t "relative_sensitivity" k rel /\ smallest_detectable W (V * ring_ratio th mn mx / alpha) alpha s m e rel.
Proof.
  intros Lc Lt (m_gh & m_th & b_gh & E1 & E2 & E3 & Hsel) Hc Ht.
  assert (L1 := binned_length _ _ _ _ _ _ _ _ _ E1). assert (L2 := binned_length _ _ _ _ _ _ _ _ _ E2). assert (L3 := binned_length _ _ _ _ _ _ _ _ _ E3).
  rewrite map_length in L1, L2, L3. assert (Hk : (k < length bins - 1)%nat) by (apply nth_lt in Hc; lia).
  apply selection_select in Hsel; [|rewrite !zipwith_length; lia|auto].
  destruct (selection_bin br sw sp bw bp bins alpha mn mx s m e signal background Hbs Hbc Hbg Hnd Hlen (proj2 (proj2 Hris)) Hsl Hbl Hws Hwb Ha Hmn Hmx Hpi Hs
    _ _ _ _ _ k th Hsel Hk (knot k thcut th Lt Ht)) as (W & V & rel & HW & HV & C1 & C2 & C3 & Hsd).
  exists W, V, rel. split; [|split; [|auto]].
  - revert HW. apply select_weight; [rewrite !zipwith_length; lia|]. intros i o Ho. rewrite and_nth.
    pose proof (mask_true bins o_gh signal _ op m_gh k c Hnd Hlen Lc E1 Hc i o Ho) as G1.
    pose proof (mask_true bins o_theta signal _ nle m_th k (Fin th) Hnd Hlen Lt E2 Ht i o Ho) as G2. tauto.
  - revert HV. apply select_weight; [lia|]. intros i o Ho.
    pose proof (mask_true bins o_gh background _ op b_gh k c Hnd Hlen Lc E3 Hc i o Ho) as G1. tauto.
Qed.
Lemma all_bin mc gcut tcut t k g th : length gcut = (length bins - 1)%nat -> length tcut = (length bins - 1)%nat ->
  sensitivity_of_all_cuts br li_ma1 li_ma_array sw sp bw bp signal background bins (Fin alpha) (Fin mn) (Fin mx) (Fin s) (Fin m) (Fin e)
    (enough_telescopes mc signal) (enough_telescopes mc background) gcut tcut t ->
  nth_error gcut k = Some g -> nth_error tcut k = Some (Fin th) ->
  exists W V rel,
    weight_of (fun o => weight_in sw (o_ev o)) (fun o => in_bin bins k (o_energy o) /\ nle g (o_gh o) = true /\ nle (o_theta o) (Fin th) = true /\ nle mc (o_mult o) = true) signal W /\
    weight_of (fun o => weight_in bw (o_ev o)) (fun o => in_annulus mn mx (o_offset o) /\ in_bin bins k (o_energy o) /\ nle g (o_gh o) = true /\ nle mc (o_mult o) = true) background V /\
    cell t "relative_sensitivity" k rel /\ smallest_detectable W (V * ring_ratio th mn mx / alpha) alpha s m e rel.
Proof.
  intros Lc Lt (m_gh & m_th & b_gh & E1 & E2 & E3 & Hsel) Hc Ht.
  assert (L1 := binned_length _ _ _ _ _ _ _ _ _ E1). assert (L2 := binned_length _ _ _ _ _ _ _ _ _ E2). assert (L3 := binned_length _ _ _ _ _ _ _ _ _ E3).
  rewrite map_length in L1, L2, L3. assert (Hk : (k < length bins - 1)%nat) by (apply nth_lt in Hc; lia).
  assert (Lm : forall l, length (enough_telescopes mc l) = length l) by (intros; apply map_length).
  apply selection_select in Hsel; [|rewrite !zipwith_length, Lm; lia|rewrite zipwith_length, Lm; lia].
  destruct (selection_bin br sw sp bw bp bins alpha mn mx s m e signal background Hbs Hbc Hbg Hnd Hlen (proj2 (proj2 Hris)) Hsl Hbl Hws Hwb Ha Hmn Hmx Hpi Hs
    _ _ _ _ _ k th Hsel Hk (knot k tcut th Lt Ht)) as (W & V & rel & HW & HV & C1 & C2 & C3 & Hsd).
  assert (Hmc : forall l i o, nth_error l i = Some o -> (nth_error (enough_telescopes mc l) i = Some true <-> nle mc (o_mult o) = true)).
  { intros l i o Ho. unfold enough_telescopes. rewrite nth_error_map, Ho. cbn. split; intros H; [injection H as H; auto|congruence]. }
  exists W, V, rel. split; [|split; [|auto]].
  - revert HW. apply select_weight; [rewrite !zipwith_length, Lm; lia|]. intros i o Ho. rewrite !and_nth.
    pose proof (mask_true bins o_gh signal _ nge m_gh k g Hnd Hlen Lc E1 Hc i o Ho) as G1.
    pose proof (mask_true bins o_theta signal _ nle m_th k (Fin th) Hnd Hlen Lt E2 Ht i o Ho) as G2. pose proof (Hmc signal i o Ho) as G3. unfold nge in *. tauto.
  - revert HV. apply select_weight; [rewrite zipwith_length, Lm; lia|]. intros i o Ho. rewrite and_nth.
    pose proof (mask_true bins o_gh background _ nge b_gh k g Hnd Hlen Lc E3 Hc i o Ho) as G1. pose proof (Hmc background i o Ho) as G3. unfold nge in *. tauto.
Qed.
End OneBin.

(** ** concrete samples *)
Ltac cmp := cbn; repeat match goal with |- context [Rleb ?a ?b] => destruct (Rleb_spec a b) | |- context [Rltb ?a ?b] => destruct (Rltb_spec a b) end; try reflexivity; try discriminate; lra.
Lemma weight_repeat {A} (w : A -> R) (P : A -> Prop) a n l r : P a -> weight_of w P l r -> weight_of w P (repeat a n ++ l) (INR n * w a + r).
Proof.
  intros Ha H. induction n as [|n IH]; cbn [repeat app]. { replace (INR 0 * w a + r) with r by (cbn; lra). auto. }
  replace (INR (S n) * w a + r) with (w a + (INR n * w a + r)) by (rewrite S_INR; lra). apply (wo_yes w); auto.
Qed.
Lemma weight_repeat_no {A} (w : A -> R) (P : A -> Prop) a n l r : ~ P a -> weight_of w P l r -> weight_of w P (repeat a n ++ l) r.
Proof. intros Ha H. induction n as [|n IH]; cbn [repeat app]; auto. apply wo_no; auto. Qed.
Lemma picks_repeat {A} (P : num -> Prop) x (v : A) n xs vs sel : P x -> picks P xs vs sel -> picks P (repeat x n ++ xs) (repeat v n ++ vs) (repeat v n ++ sel).
Proof. intros Hx H. induction n; cbn; auto. constructor; auto. Qed.
Lemma map_repeat' {A B} (f : A -> B) a n : map f (repeat a n) = repeat (f a) n.
Proof. induction n; cbn; congruence. Qed.

Definition w79_bins : list num := [Fin 1; Fin 10].
Lemma w79_rising : rising w79_bins.
Proof.
  split; [|split].
  - intros e [<-|[<-|[]]]; reflexivity.
  - intros [|[|k]] a b Ha Hb; cbn in *; try discriminate; try (destruct k; discriminate). injection Ha as <-. injection Hb as <-. cmp.
  - intros [|[|k]] a b Ha Hb; cbn in *; try discriminate; try (destruct k; discriminate). injection Ha as <-. eauto.
Qed.
Lemma w79_in x : 1 <= x < 10 -> in_bin w79_bins 0 (Fin x).
Proof. intros H. exists (Fin 1), (Fin 10). split; [reflexivity|]. split; [reflexivity|]. split; cmp. Qed.
Lemma w79_bin0 k x : in_bin w79_bins k x -> k = 0%nat.
Proof. intros (lo & hi & _ & H & _). apply nth_lt in H. cbn in H. lia. Qed.
Lemma w79_ratio : 10 * ring_ratio (1/10) 0 (1/10) / (1/5) = 50.
Proof.
  unfold ring_ratio. assert (Hc : cos (1/10) < cos 0). { pose proof PI2_3_2; unfold PI2 in *; apply cos_decreasing_1; lra. } rewrite cos_0 in *.
  replace ((1 - cos (1/10)) / (1 - cos (1/10))) with 1 by (field; lra). lra.
Qed.
Lemma w79_found rel : smallest_detectable 100 50 (1/5) 5 10 (1/20) rel -> exists r, rel = Fin r.
Proof.
  intros [_ H]. destruct H as [Hf _]; [lra|]. destruct Hf as (r & -> & _); eauto. left. split; [lra|].
  destruct (c24_default bisect_solver (100 + 1/5*50) 50 (1/5) 10 (1/20) bisect_sound bisect_converges) as (r & Hr & _); try lra.
  apply (bracketed_of_found bisect_solver 100 50 (1/5) 5 10 (1/20) r); auto using bisect_sound, bisect_converges, bisect_signs; lra.
Qed.
(** the second of two scans is chosen *)
Lemma w79_second v0 v1 r j : v0 = PInf -> v1 = Fin r -> best_choice [v0; v1] j \/ nothing_finite [v0; v1] j -> j = 1%nat.
Proof.
  intros -> -> [H|H].
  - inversion H as [Hn|j' v Hv Hn Hall Hfirst]; subst.
    + specialize (Hn (Fin r) (or_intror (or_introl eq_refl))). discriminate.
    + destruct j as [|[|j]]; auto; cbn in Hv; [|destruct j; discriminate]. injection Hv as <-.
      specialize (Hall 1%nat (Fin r) eq_refl ltac:(discriminate)). discriminate Hall.
  - destruct H as (_ & H & _). discriminate.
Qed.

(** *** optimize_gh_cut *)
Definition w79_signal_a : opt_event := mkOpt (mkEvent (Fin 2) 1 "gamma") (Fin (1/5)) (Fin (9/10)) (Fin 0) (Fin 4).
Definition w79_signal_b : opt_event := mkOpt (mkEvent (Fin 2) 10 "gamma") (Fin (1/20)) (Fin (1/2)) (Fin 0) (Fin 4).
Definition w79_signal : list opt_event := repeat w79_signal_b 10 ++ [w79_signal_a].
Definition w79_proton : opt_event := mkOpt (mkEvent (Fin 3) 5 "proton") (Fin 0) (Fin (19/20)) (Fin (1/100)) (Fin 4).
Definition w79_electron : opt_event := mkOpt (mkEvent (Fin 3) 5 "electron") (Fin 0) (Fin (3/5)) (Fin (1/100)) (Fin 4).
Definition w79_background : list opt_event := [w79_proton; w79_electron].
Definition w79_optimize (bkg_ptype : bool) : res (table * opt_cut) :=
  optimize_gh_cut bisect_solver li_ma1 li_ma_array true true true bkg_ptype w79_signal w79_background w79_bins
    (Fin (1/5)) (Fin 0) (Fin (1/10)) (Fin 5) (Fin 10) (Fin (1/20)) nge [0; 1] [Fin 1] [Fin 10] (bin_center w79_bins) [Fin (1/10)].
Lemma in_w79 e : In e w79_signal -> e = w79_signal_a \/ e = w79_signal_b.
Proof. unfold w79_signal. rewrite in_app_iff. intros [H|[<-|[]]]; auto. apply repeat_spec in H. auto. Qed.
Lemma w79_good : good_labels w79_background.
Proof.
  split.
  - intros _ e [<-|[<-|[]]]; cbn; intuition discriminate.
  - intros a b [<-|[<-|[]]] [<-|[<-|[]]]; cbn; try tauto; intuition discriminate.
Qed.
Lemma w79_theta : exists sel, evaluate_binned_cut true (map o_theta w79_signal) (raw (map o_energy w79_signal)) [Fin 1] [Fin 10] None [Fin (1/10)] nle = Ok sel.
Proof. apply (mask_exists w79_bins); [apply rising_nondecreasing, w79_rising|cbn; lia|cbn; lia|rewrite !map_length; auto]. Qed.
Lemma w79_types c ps : (forall p, In p ps <-> exists e, (In e w79_background /\ exists k c', in_bin w79_bins k (o_energy e) /\ nth_error [Fin c] k = Some c' /\ nge (o_gh e) c' = true) /\
     in_ring (Fin 0) (Fin (1/10)) e /\ ev_p (o_ev e) = p) -> NoDup ps ->
  (c = 9/10 -> (length ps <= 1)%nat) /\ (c = 1/2 -> (2 <= length ps)%nat).
Proof.
  intros H Hnd.
  assert (Hring : forall e, In e w79_background -> in_ring (Fin 0) (Fin (1/10)) e) by (intros e [<-|[<-|[]]]; split; cmp).
  split; intros ->.
  - apply (NoDup_incl_length (l := ps) (l' := ["proton"%string])); auto. intros p Hp. apply H in Hp as (e & (He & k & c' & Hb & Hc & Hop) & _ & <-).
    apply w79_bin0 in Hb. subst k. cbn in Hc. injection Hc as <-. destruct He as [<-|[<-|[]]]; [left; auto|exfalso].
    unfold nge in Hop. cbn in Hop. apply Rleb_true in Hop. lra.
  - apply (NoDup_incl_length (l := ["electron"; "proton"]%string)).
    + repeat constructor; cbn; intuition discriminate.
    + intros p [<-|[<-|[]]]; apply H; [exists w79_electron|exists w79_proton].
      * split; [|split; [apply Hring; right; left|]; auto]. split; [right; left; auto|]. exists 0%nat, (Fin (1/2)). split; [apply w79_in; lra|]. split; auto. unfold nge. cmp.
      * split; [|split; [apply Hring; left|]; auto]. split; [left; auto|]. exists 0%nat, (Fin (1/2)). split; [apply w79_in; lra|]. split; auto. unfold nge. cmp.
Qed.
Lemma w79_raises : w79_optimize true = Err ValueError.
Proof.
  pose proof PI2_3_2 as Hpi. unfold PI2 in Hpi.
  assert (Hsl : true = true -> forall e, In e w79_signal -> ev_p (o_ev e) <> "weighted"%string).
  { intros _ e He. apply in_w79 in He as [-> | ->]; discriminate. }
  assert (Hws : forall e, In e w79_signal -> 0 <= ev_w (o_ev e)) by (intros e He; apply in_w79 in He as [-> | ->]; cbn; lra).
  assert (Hwb : forall e, In e w79_background -> 0 <= ev_w (o_ev e)) by (intros e [<-|[<-|[]]]; cbn; lra).
  assert (Hnd := rising_nondecreasing _ w79_rising).
  destruct (gh_outcome bisect_solver li_ma1 li_ma_array true true true true w79_signal w79_background w79_bins (1/5) 0 (1/10) (Fin 5) (Fin 10) (Fin (1/20))
    w79_rising ltac:(cbn; lia) bisect_exn (li_ma_array_elementwise _) Hsl (proj1 w79_good) Hws Hwb ltac:(lra) ltac:(lra) ltac:(lra) ltac:(lra)
    nge [0; 1] [Fin 1] [Fin 10] (bin_center w79_bins) [Fin (1/10)]) as (fill & t & rows & sens & choice & Hfill & Ht & Erows & Ls & Hscan & Hch & Hout).
  { discriminate. } { reflexivity. } { exact w79_theta. } { discriminate. } { intros e [<-|[<-|[]]]; lra. }
  { exists w79_signal_a, 0%nat. split; [unfold w79_signal; apply in_or_app; right; left; auto|]. apply w79_in. lra. }
  destruct Hout as [[Hw _]|[_ E]]; [exfalso|exact E].
  replace (nge (Fin (-1)) (Fin 1)) with false in Ht by (symmetry; unfold nge; cmp).
  destruct sens as [|s0 [|s1 [|]]]; try discriminate Ls.
  set (vs := repeat (1/2) 10 ++ [9/10]).
  assert (Evs : map o_gh w79_signal = map Fin vs) by reflexivity.
  rewrite Evs in Ht.
  assert (Hcut : forall j s, nth_error [s0; s1] j = Some s -> exists c ts B, (j = 0%nat -> c = 9/10) /\ (j = 1%nat -> c = 1/2) /\
     sensitivity_of_cuts bisect_solver li_ma1 li_ma_array true true true true w79_signal w79_background w79_bins (Fin (1/5)) (Fin 0) (Fin (1/10)) (Fin 5) (Fin 10) (Fin (1/20))
       nge [Fin c] [Fin 1] [Fin 10] (bin_center w79_bins) [Fin (1/10)] s /\
     colnames s = sensitivity_columns ts /\ particle_types (Fin 0) (Fin (1/10)) B ts /\
     (forall e, In e B <-> In e w79_background /\ exists k c', in_bin w79_bins k (o_energy e) /\ nth_error [Fin c] k = Some c' /\ nge (o_gh e) c' = true)).
  { intros j s Hj. destruct (Hscan j s Hj) as (cut & Hcol & Hs).
    assert (Hjp : exists p, nth_error (map (fun e : R => 100 * (1 - e)) [0; 1]) j = Some p /\ (j = 0%nat -> p = 100) /\ (j = 1%nat -> p = 0)).
    { destruct j as [|[|j]]; cbn in Hj; [| |destruct j; discriminate]; eexists; (split; [reflexivity|]); split; intros; try discriminate; lra. }
    destruct Hjp as (p & Hp & Hp0 & Hp1).
    destruct (scan_cut vs (map o_energy w79_signal) w79_bins fill (map (fun e : R => 100 * (1 - e)) [0; 1]) t rows Hnd ltac:(cbn; lia) eq_refl) as [Lr Hc]; auto.
    { intros q [<-|[<-|[]]]; lra. }
    { exists (Fin 2), 0%nat. split; [cbn; auto|apply w79_in; lra]. }
    pose proof (column_of_length _ _ _ Hcol) as Lc. cbn in Lr. destruct cut as [|c [|]]; cbn in Lc; try lia.
    destruct (Hc j p [c] Hp Hcol 0%nat c eq_refl) as (sel & Hsel & V).
    assert (Esel : sel = vs).
    { eapply picks_fun; [exact Hsel|]. change (map o_energy w79_signal) with (repeat (Fin 2) 10 ++ [Fin 2]). unfold vs.
      apply picks_repeat; [apply w79_in; lra|]. constructor; [apply w79_in; lra|constructor]. }
    subst sel. change (Z.of_nat (length vs) <? 10)%Z with false in V. destruct V as (r & -> & Hlp).
    assert (Hbd : forall v, In v vs -> v = 1/2 \/ v = 9/10) by (intros v Hv; unfold vs in Hv; apply in_app_or in Hv as [Hv|[<-|[]]]; auto; apply repeat_spec in Hv; auto).
    destruct (scan_types bisect_solver li_ma1 li_ma_array true true true w79_signal w79_background w79_bins (Fin (1/5)) (Fin 0) (Fin (1/10)) (Fin 5) (Fin 10) (Fin (1/20))
      Hnd ltac:(cbn; lia) w79_good nge [Fin r] [Fin 1] [Fin 10] (bin_center w79_bins) [Fin (1/10)] s eq_refl Hs) as (B & ts & HB & Hts & Hcol').
    exists r, ts, B. split; [|split; [|auto]].
    - intros ->. rewrite (Hp0 eq_refl) in Hlp. eapply lp_max; [exact Hlp|unfold vs; apply in_or_app; right; left; auto|]. intros v Hv. destruct (Hbd v Hv); lra.
    - intros ->. rewrite (Hp1 eq_refl) in Hlp. eapply lp_min; [exact Hlp|unfold vs; left; auto|]. intros v Hv. destruct (Hbd v Hv); lra. }
  destruct (Hcut 0%nat s0 eq_refl) as (c0 & ts0 & B0 & Ec0 & _ & Hs0 & Hn0 & Ht0 & HB0). rewrite (Ec0 eq_refl) in *. clear Ec0 c0.
  destruct (Hcut 1%nat s1 eq_refl) as (c1 & ts1 & B1 & _ & Ec1 & Hs1 & Hn1 & Ht1 & HB1). rewrite (Ec1 eq_refl) in *. clear Ec1 c1.
  assert (L0 : (length ts0 <= 1)%nat).
  { refine (proj1 (w79_types (9/10) ts0 _ _) eq_refl); [|apply sorted_nodup, Ht0]. intros p. rewrite (proj2 Ht0 p). split; intros (e & He & Hr); exists e; (split; [apply HB0; auto|auto]). }
  assert (L1 : (2 <= length ts1)%nat).
  { refine (proj2 (w79_types (1/2) ts1 _ _) eq_refl); [|apply sorted_nodup, Ht1]. intros p. rewrite (proj2 Ht1 p). split; intros (e & He & Hr); exists e; (split; [apply HB1; auto|auto]). }
  destruct (gh_bin bisect_solver true true true true w79_bins (1/5) 0 (1/10) 5 10 (1/20) w79_signal w79_background bisect_sound bisect_converges bisect_signs
    w79_rising ltac:(cbn; lia) Hsl (proj1 w79_good) Hws Hwb ltac:(lra) ltac:(lra) ltac:(lra) ltac:(lra) ltac:(lra) nge [Fin (9/10)] [Fin (1/10)] s0 0%nat (Fin (9/10)) (1/10) eq_refl eq_refl Hs0 eq_refl eq_refl)
    as (W0 & V0 & r0 & HW0 & _ & C0 & [D0 _]).
  assert (EW0 : W0 = 0).
  { eapply weight_unique; [exact HW0|]. unfold w79_signal. apply weight_repeat_no; [|apply wo_no; [|constructor]].
    - intros (_ & H & _). unfold nge in H. cbn in H. apply Rleb_true in H. lra.
    - intros (_ & _ & H). cbn in H. apply Rleb_true in H. lra. }
  specialize (D0 EW0).
  destruct (gh_bin bisect_solver true true true true w79_bins (1/5) 0 (1/10) 5 10 (1/20) w79_signal w79_background bisect_sound bisect_converges bisect_signs
    w79_rising ltac:(cbn; lia) Hsl (proj1 w79_good) Hws Hwb ltac:(lra) ltac:(lra) ltac:(lra) ltac:(lra) ltac:(lra) nge [Fin (1/2)] [Fin (1/10)] s1 0%nat (Fin (1/2)) (1/10) eq_refl eq_refl Hs1 eq_refl eq_refl)
    as (W1 & V1 & r1 & HW1 & HV1 & C1 & D1).
  assert (EW1 : W1 = 100).
  { transitivity (INR 10 * 10 + 0); [|cbn; lra]. eapply weight_unique; [exact HW1|]. unfold w79_signal.
    apply (weight_repeat (fun o => weight_in true (o_ev o)) _ w79_signal_b 10 [w79_signal_a] 0); [|apply wo_no; [|constructor]].
    - split; [apply w79_in; lra|]. split; unfold nge; cmp.
    - intros (_ & _ & H). cbn in H. apply Rleb_true in H. lra. }
  assert (EV1 : V1 = 10).
  { transitivity (5 + (5 + 0)); [|lra]. eapply weight_unique; [exact HV1|].
    apply (wo_yes (fun o => weight_in true (o_ev o)) _ w79_proton); [|apply (wo_yes (fun o => weight_in true (o_ev o)) _ w79_electron); [|constructor]].
    - split; [split; cmp|]. split; [apply w79_in; lra|unfold nge; cmp].
    - split; [split; cmp|]. split; [apply w79_in; lra|unfold nge; cmp]. }
  rewrite EW1, EV1, w79_ratio in D1. destruct (w79_found r1 D1) as [r Er].
  destruct Hch as [Lch Hch]. destruct choice as [|j [|]]; try discriminate Lch.
  destruct (Hch 0%nat j eq_refl) as (Hjl & vals & Lv & Hv & Hbest). destruct vals as [|v0 [|v1 [|]]]; try discriminate Lv.
  pose proof (cell_fun _ _ _ _ _ (Hv 0%nat s0 v0 eq_refl eq_refl) C0) as E0. pose proof (cell_fun _ _ _ _ _ (Hv 1%nat s1 v1 eq_refl eq_refl) C1) as E1.
  assert (j = 1%nat) by (eapply (w79_second v0 v1 r); eauto; congruence). subst j.
  specialize (Hw 0%nat 1%nat s1 s0 eq_refl eq_refl eq_refl). rewrite Hn0, Hn1 in Hw. apply columns_inj in Hw. lia.
Qed.

(** *** optimize_cuts *)
Lemma one_cut vs xs (fill : num) p lo hi t rows cut : length vs = length xs -> (10 <= length vs)%nat -> (forall x, In x xs -> in_bin w79_bins 0 x) ->
  0 <= p <= 100 -> ordered_bounds lo hi ->
  calculate_percentile_cut false (raw (map Fin vs)) (raw xs) (raw w79_bins) (plain fill) (PList [p]) (plaino (optn lo)) (plaino (optn hi)) None 10 = Ok t ->
  ct_cut t = Cut2 rows -> column_of rows 0 cut ->
  exists r c, cut = [c] /\ linear_percentile vs p r /\ is_clipped lo hi (Fin r) c.
Proof.
  intros Lv Hl Hx Hp Hob Et Er Hcol.
  destruct (scan_doc vs xs w79_bins fill [p] lo hi t rows (rising_nondecreasing _ w79_rising) ltac:(cbn; lia) Lv ltac:(intros q [<-|[]]; auto) Hob) with (j := 0%nat) (p := p) (cut := cut) as [Lc Hc]; auto.
  { destruct xs as [|x xs]; [cbn in Lv; lia|]. exists x, 0%nat. split; [left; auto|apply Hx; left; auto]. }
  cbn in Lc. destruct cut as [|c [|]]; try discriminate Lc. 
  assert (Hpk : picks (in_bin w79_bins 0) xs vs vs).
  { clear -Lv Hx. revert xs Lv Hx. induction vs as [|v vs IH]; intros [|x xs] Lv Hx; try discriminate Lv; constructor; [apply Hx; left; auto|].
    apply IH; [cbn in Lv; lia|intros y Hy; apply Hx; right; auto]. }
  specialize (Hc 0%nat c vs eq_refl Hpk). unfold documented_cut in Hc. rewrite map_length in Hc.
  destruct (Z.ltb_spec (Z.of_nat (length vs)) 10) as [Hlt|_]; [lia|].
  destruct vs as [|v vs]; [cbn in Hl; lia|]. cbn [map] in Hc.
  destruct (Hc (v :: vs) (finite_part_map (v :: vs))) as (rw & Hcl & r & -> & Hlp). eauto.
Qed.
Lemma one_type ps x : StronglySorted (fun a b => String.ltb a b = true) ps -> (forall p, In p ps <-> p = x) -> ps = [x].
Proof.
  intros Hs H. destruct ps as [|a [|b l]].
  - destruct (proj2 (H x) eq_refl).
  - f_equal. apply H. left; auto.
  - assert (a = x) by (apply H; left; auto). assert (b = x) by (apply H; right; left; auto). subst. inversion Hs as [|? ? ? HF]; subst. inversion HF; subst.
    exfalso. assert (Hn := sorted_nodup _ Hs). inversion Hn as [|? ? Hni]; subst. apply Hni. left; auto.
Qed.
Definition wm_signal_a : opt_event := mkOpt (mkEvent (Fin 2) 1 "gamma") (Fin (1/5)) (Fin 0) (Fin 0) (Fin 3).
Definition wm_signal_b : opt_event := mkOpt (mkEvent (Fin 2) 100 "gamma") (Fin (1/20)) (Fin (9/10)) (Fin 0) (Fin 2).
Definition wm_signal : list opt_event := repeat wm_signal_a 10 ++ [wm_signal_b].
Definition wm_proton : opt_event := mkOpt (mkEvent (Fin 3) 5 "proton") (Fin 0) (Fin (1/10)) (Fin (1/100)) (Fin 3).
Definition wm_electron : opt_event := mkOpt (mkEvent (Fin 3) 10 "electron") (Fin 0) (Fin (19/20)) (Fin (1/100)) (Fin 2).
Definition wm_background : list opt_event := [wm_proton; wm_electron].
Definition wm_optimize : res (table * list num * opt_cut * opt_cut) :=
  optimize_cuts bisect_solver li_ma1 li_ma_array true true true true wm_signal wm_background w79_bins
    (Fin (1/5)) (Fin 0) (Fin (1/10)) (Fin 5) (Fin 10) (Fin (1/20)) [Fin 3; Fin 2] [0] [1] (Fin 0) (Fin (1/10)).
Lemma in_wm e : In e wm_signal -> e = wm_signal_a \/ e = wm_signal_b.
Proof. unfold wm_signal. rewrite in_app_iff. intros [H|[<-|[]]]; auto. apply repeat_spec in H. auto. Qed.
Lemma wm_good : good_labels wm_background.
Proof.
  split.
  - intros _ e [<-|[<-|[]]]; cbn; intuition discriminate.
  - intros a b [<-|[<-|[]]] [<-|[<-|[]]]; cbn; try tauto; intuition discriminate.
Qed.
Lemma wm_kept m sel : kept (enough_telescopes (Fin m) wm_signal) wm_signal sel -> (m = 3 -> sel = repeat wm_signal_a 10) /\ (m = 2 -> sel = wm_signal).
Proof.
  intros H. apply kept_select in H. subst sel.
  assert (E : enough_telescopes (Fin m) wm_signal = repeat (Rleb m 3) 10 ++ [Rleb m 2]) by reflexivity. rewrite E.
  split; intros ->.
  - destruct (Rleb_spec 3 3); [|lra]. destruct (Rleb_spec 3 2); [lra|]. reflexivity.
  - destruct (Rleb_spec 2 3); [|lra]. destruct (Rleb_spec 2 2); [|lra]. reflexivity.
Qed.
Lemma wm_grid m fill ght tht rg rt gcut tcut :
  percentile_grids wm_signal w79_bins fill [0] [1] (Fin 0) (Fin (1/10)) (Fin m) ght tht rg rt -> column_of rg 0 gcut -> column_of rt 0 tcut ->
  (m = 3 -> gcut = [Fin 0] /\ tcut = [Fin (1/10)]) /\ (m = 2 -> gcut = [Fin (9/10)] /\ tcut = [Fin (1/10)]).
Proof.
  intros (sel & Hk & Eg & Erg & Et & Ert) Hg Ht. apply wm_kept in Hk as [K3 K2]. cbn [map] in Eg, Et.
  assert (Hgen : forall gs ts G, map o_gh sel = map Fin gs -> map o_theta sel = map Fin ts -> length gs = length sel -> length ts = length sel -> (10 <= length sel)%nat ->
     (forall x, In x (map o_energy sel) -> in_bin w79_bins 0 x) -> In G gs -> (forall v, In v gs -> v <= G) -> In (1/5) ts -> (forall v, In v ts -> v <= 1/5) ->
     gcut = [Fin G] /\ tcut = [Fin (1/10)]).
  { intros gs ts G E1 E2 L1 L2 Hl Hx HG HG' HT HT'. rewrite E1 in Eg. rewrite E2 in Et.
    destruct (one_cut gs (map o_energy sel) fill (100 * (1 - 0)) None None ght rg gcut) as (r & c & -> & Hlp & Hcl); auto; try (rewrite map_length; lia); try lia; try lra; [intros ? ?; discriminate|].
    destruct (one_cut ts (map o_energy sel) (Fin (1/10)) (100 * 1) (Some 0) (Some (1/10)) tht rt tcut) as (r2 & c2 & -> & Hlp2 & Hcl2); auto; try (rewrite map_length; lia); try lia; try lra.
    { intros a b Ha Hb. injection Ha as <-. injection Hb as <-. lra. }
    replace (100 * (1 - 0)) with 100 in Hlp by lra. replace (100 * 1) with 100 in Hlp2 by lra.
    rewrite (lp_max _ _ G Hlp) in Hcl by auto. rewrite (lp_max _ _ (1/5) Hlp2) in Hcl2 by auto.
    destruct Hcl as (r' & -> & _ & _ & Hr'). destruct Hcl2 as (r2' & -> & _ & Hr2' & _).
    rewrite Hr' by (intros ? ?; discriminate). rewrite (Hr2' (1/10) eq_refl) by lra. auto. }
  split; intros ->.
  - specialize (K3 eq_refl). subst sel. apply (Hgen (repeat 0 10) (repeat (1/5) 10)); try reflexivity; try (cbn; lia); try (left; reflexivity);
      try (intros v Hv; apply repeat_spec in Hv; subst; lra).
    intros x Hx. rewrite map_repeat' in Hx. apply repeat_spec in Hx. subst. apply w79_in. lra.
  - specialize (K2 eq_refl). subst sel. apply (Hgen (repeat 0 10 ++ [9/10]) (repeat (1/5) 10 ++ [1/20])); try reflexivity; try (cbn; lia).
    + intros x Hx. apply in_map_iff in Hx as (e & <- & He). apply in_wm in He as [-> | ->]; apply w79_in; lra.
    + apply in_or_app. right. left. auto.
    + intros v Hv. apply in_app_or in Hv as [Hv|[<-|[]]]; [apply repeat_spec in Hv; subst|]; lra.
    + left; auto.
    + intros v Hv. apply in_app_or in Hv as [Hv|[<-|[]]]; [apply repeat_spec in Hv; subst|]; lra.
Qed.
Definition wm_table (m g th : R) (s : table) : Prop :=
  sensitivity_of_all_cuts bisect_solver li_ma1 li_ma_array true true true true wm_signal wm_background w79_bins (Fin (1/5)) (Fin 0) (Fin (1/10)) (Fin 5) (Fin 10) (Fin (1/20))
    (enough_telescopes (Fin m) wm_signal) (enough_telescopes (Fin m) wm_background) [Fin g] [Fin th] s.
Lemma wm_types m g th s x : wm_table m g th s -> (x = wm_proton \/ x = wm_electron) ->
  (forall e, In e wm_background -> (nle (Fin m) (o_mult e) = true /\ nge (o_gh e) (Fin g) = true <-> e = x)) ->
  exists S B, selected_sensitivity bisect_solver li_ma1 li_ma_array true true true true w79_bins (Fin (1/5)) (Fin 0) (Fin (1/10)) (Fin 5) (Fin 10) (Fin (1/20)) S B (bin_center w79_bins) [Fin th] = Ok s /\
    B = [x] /\ particle_types (Fin 0) (Fin (1/10)) B [ev_p (o_ev x)] /\ colnames s = sensitivity_columns [ev_p (o_ev x)].
Proof.
  intros (mg & mt & b & E1 & E2 & E3 & Hs) Hx Hiff. assert (Hnd := rising_nondecreasing _ w79_rising).
  assert (L1 := binned_length _ _ _ _ _ _ _ _ _ E1). assert (L2 := binned_length _ _ _ _ _ _ _ _ _ E2). assert (L3 := binned_length _ _ _ _ _ _ _ _ _ E3).
  rewrite map_length in L1, L2, L3. assert (Lt : forall l, length (enough_telescopes (Fin m) l) = length l) by (intros; apply map_length).
  apply selection_select in Hs; [|rewrite !zipwith_length, Lt; lia|rewrite zipwith_length, Lt; lia].
  assert (HB := passed_mult w79_bins wm_background [Fin g] b (Fin m) Hnd ltac:(cbn; lia) ltac:(cbn; lia) E3).
  set (Bs := select (zipwith andb b (enough_telescopes (Fin m) wm_background)) wm_background) in *.
  assert (Hring : forall e, In e wm_background -> in_ring (Fin 0) (Fin (1/10)) e) by (intros e [<-|[<-|[]]]; split; cmp).
  assert (HBx : forall e, In e Bs <-> e = x).
  { intros e. rewrite HB. split.
    - intros (He & Hm & k & c & Hb & Hc & Hg). apply w79_bin0 in Hb. subst k. injection Hc as <-. apply Hiff; auto.
    - intros ->. assert (He : In x wm_background) by (destruct Hx as [-> | ->]; [left|right; left]; auto). destruct (proj2 (Hiff x He) eq_refl) as [Hm Hg].
      split; auto. split; auto. exists 0%nat, (Fin g). split; auto. destruct Hx as [-> | ->]; apply w79_in; lra. }
  assert (EB : Bs = [x]).
  { assert (Hn : NoDup Bs).
    { assert (Hw : NoDup wm_background). { constructor; [|constructor; [intros []|constructor]]. intros [H|[]]. discriminate H. }
      unfold Bs. clear -Hw. revert Hw. generalize (zipwith andb b (enough_telescopes (Fin m) wm_background)). generalize wm_background.
      induction l as [|a l IH]; intros fl Hw; [destruct fl; constructor|]. destruct fl as [|f fl]; [constructor|]. inversion Hw; subst. rewrite select_cons.
      destruct f; cbn [app]; auto. constructor; auto. intros H. apply in_select in H. auto. }
    destruct Bs as [|a [|a' l]].
    - destruct (proj2 (HBx x) eq_refl).
    - f_equal. apply HBx. left; auto.
    - exfalso. assert (a = x) by (apply HBx; left; auto). assert (a' = x) by (apply HBx; right; left; auto). subst. inversion Hn as [|? ? H]; apply H; left; auto. }
  eexists _, Bs. split; [exact Hs|]. split; auto.
  assert (Hpt : particle_types (Fin 0) (Fin (1/10)) Bs [ev_p (o_ev x)]).
  { split; [repeat constructor|]. intros p. rewrite EB. split.
    - intros [<-|[]]. exists x. split; [left; auto|]. split; auto. apply Hring. destruct Hx as [-> | ->]; [left|right; left]; auto.
    - intros (e & [<-|[]] & _ & <-). left; auto. }
  split; auto. eapply selected_columns; [exact Hnd|cbn; lia| |exact Hpt|exact Hs].
  apply (good_sub _ wm_background); [|exact wm_good]. intros e; apply in_select.
Qed.
Lemma wm_mislabels : exists best tc gc, wm_optimize = Ok (best, [Fin 2], tc, gc) /\ oc_cut gc = [Fin (9/10)] /\
  In "n_proton_weighted"%string (colnames best) /\ ~ In "n_electron_weighted"%string (colnames best) /\
  cell best "n_proton_weighted" 0 (Fin 50).
Proof.
  pose proof PI2_3_2 as Hpi. unfold PI2 in Hpi.
  assert (Hsl : true = true -> forall e, In e wm_signal -> ev_p (o_ev e) <> "weighted"%string).
  { intros _ e He. apply in_wm in He as [-> | ->]; discriminate. }
  assert (Hws : forall e, In e wm_signal -> 0 <= ev_w (o_ev e)) by (intros e He; apply in_wm in He as [-> | ->]; cbn; lra).
  assert (Hwb : forall e, In e wm_background -> 0 <= ev_w (o_ev e)) by (intros e [<-|[<-|[]]]; cbn; lra).
  assert (Hnd := rising_nondecreasing _ w79_rising).
  assert (HT0 : forall s, wm_table 3 0 (1/10) s -> colnames s = sensitivity_columns ["proton"%string] /\ cell s "relative_sensitivity" 0 PInf).
  { intros s Hs. split.
    - destruct (wm_types 3 0 (1/10) s wm_proton Hs) as (? & ? & _ & _ & _ & H); auto.
      intros e [<-|[<-|[]]]; unfold nge; split; intros H; try discriminate H; auto; try (split; cmp). destruct H as [H _]. cbn in H. apply Rleb_true in H. lra.
    - destruct (all_bin bisect_solver true true true true w79_bins (1/5) 0 (1/10) 5 10 (1/20) wm_signal wm_background bisect_sound bisect_converges bisect_signs
        w79_rising ltac:(cbn; lia) Hsl (proj1 wm_good) Hws Hwb ltac:(lra) ltac:(lra) ltac:(lra) ltac:(lra) ltac:(lra) (Fin 3) [Fin 0] [Fin (1/10)] s 0%nat (Fin 0) (1/10) eq_refl eq_refl Hs eq_refl eq_refl)
        as (W & V & rel & HW & _ & C & [D _]).
      assert (EW : W = 0).
      { eapply weight_unique; [exact HW|]. unfold wm_signal. apply weight_repeat_no; [|apply wo_no; [|constructor]].
        - intros (_ & _ & H & _). cbn in H. apply Rleb_true in H. lra.
        - intros (_ & _ & _ & H). cbn in H. apply Rleb_true in H. lra. }
      rewrite (D EW) in C. exact C. }
  assert (HT1 : forall s, wm_table 2 (9/10) (1/10) s -> colnames s = sensitivity_columns ["electron"%string] /\ (exists r, cell s "relative_sensitivity" 0 (Fin r)) /\
     cell s "n_electron_weighted" 0 (Fin 50)).
  { intros s Hs.
    destruct (wm_types 2 (9/10) (1/10) s wm_electron Hs) as (Ss & B & Hsel & EB & Hpt & Hcol); auto.
    { intros e [<-|[<-|[]]]; unfold nge; split; intros H; try discriminate H; auto; try (split; cmp). destruct H as [_ H]. cbn in H. apply Rleb_true in H. lra. }
    split; [exact Hcol|]. split.
    - destruct (all_bin bisect_solver true true true true w79_bins (1/5) 0 (1/10) 5 10 (1/20) wm_signal wm_background bisect_sound bisect_converges bisect_signs
        w79_rising ltac:(cbn; lia) Hsl (proj1 wm_good) Hws Hwb ltac:(lra) ltac:(lra) ltac:(lra) ltac:(lra) ltac:(lra) (Fin 2) [Fin (9/10)] [Fin (1/10)] s 0%nat (Fin (9/10)) (1/10) eq_refl eq_refl Hs eq_refl eq_refl)
        as (W & V & rel & HW & HV & C & D).
      assert (EW : W = 100).
      { transitivity (100 + 0); [|lra]. eapply weight_unique; [exact HW|]. unfold wm_signal. apply weight_repeat_no; [|apply (wo_yes (fun o => weight_in true (o_ev o)) _ wm_signal_b); [|constructor]].
        - intros (_ & _ & H & _). cbn in H. apply Rleb_true in H. lra.
        - split; [apply w79_in; lra|]. split; [cmp|]. split; cmp. }
      assert (EV : V = 10).
      { transitivity (10 + 0); [|lra]. eapply weight_unique; [exact HV|].
        apply wo_no; [|apply (wo_yes (fun o => weight_in true (o_ev o)) _ wm_electron); [|constructor]].
        - intros (_ & _ & H & _). cbn in H. apply Rleb_true in H. lra.
        - split; [split; cmp|]. split; [apply w79_in; lra|]. split; cmp. }
      rewrite EW, EV, w79_ratio in D. destruct (w79_found rel D) as [r ->]. eauto.
    - assert (Hc : bin_center w79_bins = map Fin [11/2]). { assert (E : 1 / 2 * (1 + 10) = 11/2) by lra. unfold w79_bins, bin_center. cbn. rewrite E. reflexivity. }
      rewrite Hc in Hsel.
      destruct (species_cell bisect_solver li_ma1 li_ma_array true true w79_bins (1/5) 0 (1/10) (Fin 5) (Fin 10) (Fin (1/20)) w79_rising ltac:(cbn; lia) ltac:(lra) ltac:(lra) ltac:(lra) ltac:(lra)
        Ss B [11/2] [1/10] s ["electron"%string] "electron"%string 0%nat (Fin 1) (Fin 10)) as (theta & w & Hth & Hw & Hcell); auto; try discriminate; try (left; reflexivity).
      { rewrite EB. apply (good_sub _ wm_background); [|exact wm_good]. intros e [<-|[]]. right; left; auto. }
      { intros [|i] a b _ Hb; [discriminate Hb|destruct i; discriminate Hb]. }
      assert (Eth : theta = 1/10).
      { inversion Hth as [lo hi th Hi| |]; subst. inversion Hi as [x0 y0 _ Hy _|xn yn _ Hy _|i x0 x1 y0 y1 _ Hx1 _ _ _ _]; subst; [cbn in Hy; congruence|cbn in Hy; congruence|destruct i; discriminate Hx1]. }
      assert (Ew : w = 10).
      { rewrite EB in Hw. transitivity (10 + 0); [|lra]. eapply weight_unique; [exact Hw|].
        apply (wo_yes (fun o => ev_w (o_ev o)) _ wm_electron); [|constructor]. split; [split; cmp|]. split; auto. left. apply w79_in. lra. }
      rewrite Eth, Ew, w79_ratio in Hcell. exact Hcell. }
  destruct (cuts_outcome bisect_solver li_ma1 li_ma_array true true true true wm_signal wm_background w79_bins (1/5) 0 (1/10) (Fin 5) (Fin 10) (Fin (1/20))
    w79_rising ltac:(cbn; lia) bisect_exn (li_ma_array_elementwise _) Hsl (proj1 wm_good) Hws Hwb ltac:(lra) ltac:(lra) ltac:(lra) ltac:(lra)
    [Fin 3; Fin 2] [0] [1] (Fin 0) (Fin (1/10))) as (fill & combos & sens & choice & Hfill & Ecom & Ls & Hscan & Hch & Hout); try discriminate.
  { intros e [<-|[]]; lra. } { intros e [<-|[]]; lra. }
  { intros m Hm. exists wm_signal_a, 0%nat. split; [left; auto|]. split; [destruct Hm as [<-|[<-|[]]]; cmp|apply w79_in; lra]. }
  assert (Hok : exists best mo tc gc, wm_optimize = Ok (best, mo, tc, gc)).
  { destruct Hout as [[_ H]|[Hnw _]]; [exact H|exfalso]. apply Hnw. subst combos. cbn in Ls.
    destruct sens as [|s0 [|s1 [|]]]; try discriminate Ls.
    destruct (Hscan 0%nat 0%nat 0%nat 0%nat s0 eq_refl eq_refl) as (m0 & ght0 & tht0 & rg0 & rt0 & g0 & t0 & Em0 & P0 & G0 & T0 & S0).
    destruct (Hscan 1%nat 1%nat 0%nat 0%nat s1 eq_refl eq_refl) as (m1 & ght1 & tht1 & rg1 & rt1 & g1 & t1 & Em1 & P1 & G1 & T1 & S1).
    injection Em0 as <-. injection Em1 as <-.
    destruct (proj1 (wm_grid _ _ _ _ _ _ _ _ P0 G0 T0) eq_refl) as [-> ->]. destruct (proj2 (wm_grid _ _ _ _ _ _ _ _ P1 G1 T1) eq_refl) as [-> ->].
    destruct (HT0 s0 S0) as [C0 _]. destruct (HT1 s1 S1) as [C1 _].
    intros k j s s' _ Hs H0. injection H0 as <-. destruct j as [|[|j]]; cbn in Hs; try (injection Hs as <-); [reflexivity|rewrite C0, C1; reflexivity|destruct j; discriminate]. }
  clear fill combos sens choice Hfill Ecom Ls Hscan Hch Hout.
  destruct Hok as (best & mo & tc & gc & E).
  destruct (c28 _ _ _ _ _ _ _ _ _ _ _ _ _ _ _ _ (le_n 2 : (2 <= length w79_bins)%nat) _ _ _ _ _ _ _ _ _ E)
    as (fill & ghs & ths & combos & sens & Hfill & Ecom & Ls & (sf0 & Hsf0 & Hcn) & Hgrid & Hscan & _ & _ & _ & _ & _ & _ & Lmo & _ & Lgc & Hbin).
  subst combos. cbn in Ls. destruct sens as [|s0 [|s1 [|]]]; try discriminate Ls. injection Hsf0 as <-.
  destruct (Hscan 0%nat 0%nat 0%nat 0%nat s0 eq_refl eq_refl) as (m0 & rg0 & rt0 & g0 & t0 & Em0 & R0 & Q0 & G0 & T0 & S0).
  destruct (Hscan 1%nat 1%nat 0%nat 0%nat s1 eq_refl eq_refl) as (m1 & rg1 & rt1 & g1 & t1 & Em1 & R1 & Q1 & G1 & T1 & S1).
  injection Em0 as <-. injection Em1 as <-.
  destruct (Hgrid 0%nat (Fin 3) eq_refl) as (ght0 & tht0 & rg0' & rt0' & R0' & Q0' & P0). rewrite R0 in R0'. injection R0' as <-. rewrite Q0 in Q0'. injection Q0' as <-.
  destruct (Hgrid 1%nat (Fin 2) eq_refl) as (ght1 & tht1 & rg1' & rt1' & R1' & Q1' & P1). rewrite R1 in R1'. injection R1' as <-. rewrite Q1 in Q1'. injection Q1' as <-.
  destruct (proj1 (wm_grid _ _ _ _ _ _ _ _ P0 G0 T0) eq_refl) as [-> ->]. destruct (proj2 (wm_grid _ _ _ _ _ _ _ _ P1 G1 T1) eq_refl) as [-> ->].
  destruct (HT0 s0 S0) as [C0 V0]. destruct (HT1 s1 S1) as (C1 & (r & V1) & N1).
  destruct (Hbin 0%nat ltac:(cbn; lia)) as (i & mi & gi & ti & vals & s & m & rg & rt & grow & trow & geff & teff & gx & tx & Hc & Hi & Lv & Hv & Hbest & Hrow & Hmi & Hmo & Hg1 & Hgr & Hgx & Hgc & _).
  destruct vals as [|v0 [|v1 [|]]]; try discriminate Lv.
  pose proof (cell_fun _ _ _ _ _ (Hv 0%nat s0 v0 eq_refl eq_refl) V0) as E0. pose proof (cell_fun _ _ _ _ _ (Hv 1%nat s1 v1 eq_refl eq_refl) V1) as E1.
  assert (i = 1%nat) by (eapply (w79_second v0 v1 r); eauto). subst i.
  cbn in Hc. injection Hc as <- <- <-. cbn in Hi. injection Hi as <-. cbn in Hmi. injection Hmi as <-. rewrite R1 in Hg1. injection Hg1 as <-.
  destruct mo as [|mm [|]]; try discriminate Lmo. cbn in Hmo. injection Hmo as ->.
  exists best, tc, gc. split; [exact E|].
  pose proof (column_of_nth _ _ _ _ _ _ G1 Hgr Hgx) as Hgx'. cbn in Hgx'. injection Hgx' as <-.
  split. { destruct (oc_cut gc) as [|a [|]]; try discriminate Lgc. cbn in Hgc. congruence. }
  rewrite Hcn, C0. split; [cbn; tauto|]. split; [cbn; intuition discriminate|].
  assert (Hsp : forall l1 l2, same_row 0 l1 l2 -> forall i p q, nth_error l1 i = Some p -> nth_error l2 i = Some q -> exists v, entry (snd p) 0 v /\ entry (snd q) 0 v).
  { intros l1 l2 H. induction H as [|a b l1 l2 Hab H IH]; intros [|i] p q Hp Hq; try discriminate; cbn in Hp, Hq; eauto. injection Hp as <-. injection Hq as <-. auto. }
  assert (Hcell : forall (t : table) (ps : string) (p : string * col) (i : nat), colnames t = sensitivity_columns [ps] -> nth_error t 8 = Some p -> i = 8%nat -> NoDup (sensitivity_columns [ps]) -> getitem t (("n_" ++ ps) ++ "_weighted") = Some (snd p)).
  { intros t ps [n c] i Hcs Hp _ Hnd'. apply nodup_get; [rewrite Hcs; auto|]. apply nth_error_In in Hp as Hin.
    assert (Hn : nth_error (colnames t) 8 = Some n) by (unfold colnames; rewrite nth_error_map, Hp; auto). rewrite Hcs in Hn. cbn in Hn. injection Hn as <-. exact Hin. }
  assert (Lb : length (colnames best) = 11%nat) by (rewrite Hcn, C0; auto). assert (L1 : length (colnames s1) = 11%nat) by (rewrite C1; auto).
  rewrite colnames_length in Lb, L1.
  destruct (nth_error_ex best 8) as [pb Hpb]; [lia|]. destruct (nth_error_ex s1 8) as [p1 Hp1]; [lia|].
  destruct (Hsp _ _ Hrow 8%nat pb p1 Hpb Hp1) as (v & W1 & W2).
  assert (Hv50 : v = Fin 50).
  { apply (cell_fun s1 "n_electron_weighted" 0%nat); auto. exists (snd p1). split; auto.
    apply (Hcell s1 "electron"%string p1 8%nat); auto. repeat (constructor; [cbn; intuition discriminate|]). constructor. }
  subst v. exists (snd pb). split; auto.
  apply (Hcell best "proton"%string pb 8%nat); auto; [rewrite Hcn; auto|]. repeat (constructor; [cbn; intuition discriminate|]). constructor.
Qed.
(** without the labels the optimisation of the first sample succeeds *)
Lemma w79_unlabelled : exists best c, w79_optimize false = Ok (best, c).
Proof.
  pose proof PI2_3_2 as Hpi. unfold PI2 in Hpi. unfold w79_optimize.
  destruct (gh_total bisect_solver li_ma1 li_ma_array true true true w79_signal w79_background w79_bins (1/5) 0 (1/10) (Fin 5) (Fin 10) (Fin (1/20))
    w79_rising ltac:(cbn; lia) bisect_exn (li_ma_array_elementwise _)) with (op := nge) (effs := [0; 1]) (thl := [Fin 1]) (thh := [Fin 10]) (thc := bin_center w79_bins) (thcut := [Fin (1/10)])
    as [[best c] E]; try discriminate; try lra; auto.
  - intros _ e He. apply in_w79 in He as [-> | ->]; discriminate.
  - intros e He; apply in_w79 in He as [-> | ->]; cbn; lra.
  - intros e [<-|[<-|[]]]; cbn; lra.
  - exact w79_theta.
  - intros e [<-|[<-|[]]]; lra.
  - exists w79_signal_a, 0%nat. split; [unfold w79_signal; apply in_or_app; right; left; auto|]. apply w79_in. lra.
  - eauto.
Qed.
