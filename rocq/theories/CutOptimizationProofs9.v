(** * CutOptimizationProofs9: particle types that survive every scanned cut (C79) *)
From Coq Require Import String Reals List Bool ZArith Lia Lra Sorted Permutation.
From Verif Require Import Num Numpy Lists Sort Table Binning Utils Statistics SpecBinning BinningProofs HistProofs BinningProofs2 Percentile PercentileProofs Cuts SpecCuts UtilsProofs
  CutsProofs CutsProofs2 SpecSensitivity Sensitivity SensitivityProofs3 SensitivityProofs4 CutOptimization SpecCutOptimization
  CutOptimizationProofs CutOptimizationProofs2 CutOptimizationProofs3 CutOptimizationProofs4 CutOptimizationProofs5 CutOptimizationProofs6 SpecParticles CutOptimizationProofs7 CutOptimizationProofs8
  SpecPipeline PipelineProofs PipelineProofs2.
Import ListNotations.
Open Scope R_scope.

(** ** the events that pass a cut table *)
Lemma in_select_iff {A} (m : list bool) : forall (l : list A) x, In x (select m l) <-> exists i, nth_error l i = Some x /\ nth_error m i = Some true.
Proof.
  induction m as [|b m IH]; intros [|a l] x.
  - cbn. split; [intros []|intros ([|i] & H & _); discriminate].
  - split; [intros H; unfold select in H; cbn in H; destruct H|intros ([|i] & _ & H); discriminate].
  - cbn. split; [intros []|intros ([|i] & H & _); discriminate].
  - rewrite select_cons, in_app_iff, IH. split.
    + intros [H|(i & H1 & H2)]; [|exists (S i); auto]. destruct b; [|destruct H]. destruct H as [<-|[]]. exists 0%nat; auto.
    + intros ([|i] & H1 & H2); cbn in H1, H2; [|right; eauto]. injection H1 as ->. injection H2 as ->. left; left; auto.
Qed.
Lemma in_bin_some bins k x (cut : list num) : in_bin bins k x -> (length bins - 1 <= length cut)%nat -> exists c, nth_error cut k = Some c.
Proof. intros (lo & hi & _ & Hh & _) H. apply nth_error_ex. apply nth_lt in Hh. lia. Qed.
Lemma mask_iff bins v x cut (op : num -> num -> bool) m : nondecreasing bins -> (2 <= length bins)%nat -> (length bins - 1 <= length cut)%nat ->
  length v = length x ->
  evaluate_binned_cut true v (raw x) (but_last bins) (tl bins) None cut op = Ok m ->
  forall i vi xi, nth_error v i = Some vi -> nth_error x i = Some xi ->
    (nth_error m i = Some true <-> exists k c, in_bin bins k xi /\ nth_error cut k = Some c /\ op vi c = true).
Proof.
  intros Hnd Hl Hc Lv E i vi xi Hv Hx.
  destruct (bin_indices_inc x bins Hnd) as (idx & valid & Ei & L1 & L2 & Ho). { intros ->. cbn in Hl. lia. }
  destruct (eval_rows_ok op cut bins Hnd Hc v x idx valid Lv L1 L2 Ho) as (out & Eo & Lo & H).
  rewrite (eval_bins _ _ _ _ _ (idx, valid) Hl Ei) in E. cbn [fst snd] in E.
  unfold evaluate_binned_cut_by_index in E. cbn [negb] in E. rewrite Lv, L1, Nat.eqb_refl, L2, Nat.eqb_refl in E. cbn [negb] in E.
  rewrite Eo in E. injection E as <-. destruct (H i vi xi Hv Hx) as [H1 H2]. split.
  - intros Ht. destruct (Ho i xi Hx) as (z & w & _ & _ & Hout).
    assert (Hno : (forall k, ~ in_bin bins k xi) -> False) by (intros N; rewrite (H2 N) in Ht; discriminate).
    destruct Hout as [k Hk|e He Hlt|e He Hlt].
    + destruct (in_bin_some _ _ _ cut Hk Hc) as [c Hcc]. exists k, c. split; auto. split; auto. rewrite (H1 k c Hk Hcc) in Ht. congruence.
    + exfalso. apply Hno. intros k (lo & hi & Hlo & Hhi & B1 & B2).
      assert (Hle : nle e lo = true).
      { unfold first_edge in He. assert (G : forall d a, nth_error bins d = Some a -> nle e a = true).
        { induction d as [|d IH]; intros a Ha.
          - rewrite He in Ha. injection Ha as <-. apply nle_refl. apply (proj1 Hnd). eapply nth_error_In; eauto.
          - destruct (nth_error_ex bins d) as [b Hb]. { apply nth_lt in Ha. lia. } eapply nle_trans; [exact (IH b Hb)|]. apply (proj2 Hnd d); auto. }
        eauto. }
      pose proof (nlt_le_trans _ _ _ Hlt (nle_trans _ _ _ Hle B1)) as Q. destruct xi; cbn in Q; try discriminate. rcmp. lra.
    + exfalso. apply Hno. intros k (lo & hi & Hlo & Hhi & B1 & B2). destruct Hlt as [Hlt| ->]; [|destruct lo; discriminate].
      unfold last_edge in He. pose proof (nth_lt _ _ _ Hhi) as Hk.
      assert (Hle : nle hi e = true).
      { assert (G : forall d a b, nth_error bins (S k) = Some a -> nth_error bins (S k + d) = Some b -> nle a b = true).
        { induction d as [|d IH]; intros a b Ha Hb.
          - rewrite Nat.add_0_r, Ha in Hb. injection Hb as <-. apply nle_refl. apply (proj1 Hnd). eapply nth_error_In; eauto.
          - destruct (nth_error_ex bins (S k + d)) as [c Hcc]. { apply nth_lt in Hb. lia. }
            eapply nle_trans; [exact (IH a c Ha Hcc)|]. apply (proj2 Hnd (S k + d)%nat); auto. rewrite <- Hb. f_equal. lia. }
        apply (G (length bins - 1 - S k)%nat); auto. rewrite <- He. f_equal. lia. }
      pose proof (nlt_le_trans _ _ _ B2 (nle_trans _ _ _ Hle Hlt)) as Q. destruct xi; cbn in Q; try discriminate. rcmp. lra.
  - intros (k & c & Hb & Hk & Ho'). rewrite (H1 k c Hb Hk), Ho'. reflexivity.
Qed.
(** the background events passing a gamma/hadron cut *)
Lemma passed bins B cut (op : num -> num -> bool) m : nondecreasing bins -> (2 <= length bins)%nat -> (length bins - 1 <= length cut)%nat ->
  evaluate_binned_cut true (map o_gh B) (raw (map o_energy B)) (but_last bins) (tl bins) None cut op = Ok m ->
  forall e, In e (select m B) <-> In e B /\ exists k c, in_bin bins k (o_energy e) /\ nth_error cut k = Some c /\ op (o_gh e) c = true.
Proof.
  intros Hnd Hl Hc E e. rewrite in_select_iff.
  assert (Hm := mask_iff bins (map o_gh B) (map o_energy B) cut op m Hnd Hl Hc ltac:(rewrite !map_length; auto) E). split.
  - intros (i & Hi & Ht). split; [eapply nth_error_In; eauto|]. apply (Hm i); auto; rewrite nth_error_map, Hi; auto.
  - intros [Hi He]. apply In_nth_error in Hi as [i Hi]. exists i. split; auto. apply (Hm i (o_gh e) (o_energy e)); auto; rewrite nth_error_map, Hi; auto.
Qed.
(** ... and, with a multiplicity cut, the flags of both *)
Lemma passed_mult bins B cut m mc : nondecreasing bins -> (2 <= length bins)%nat -> (length bins - 1 <= length cut)%nat ->
  evaluate_binned_cut true (map o_gh B) (raw (map o_energy B)) (but_last bins) (tl bins) None cut nge = Ok m ->
  forall e, In e (select (zipwith andb m (enough_telescopes mc B)) B) <->
    In e B /\ nle mc (o_mult e) = true /\ exists k c, in_bin bins k (o_energy e) /\ nth_error cut k = Some c /\ nge (o_gh e) c = true.
Proof.
  intros Hnd Hl Hc E e. rewrite in_select_iff.
  assert (Hm := mask_iff bins (map o_gh B) (map o_energy B) cut nge m Hnd Hl Hc ltac:(rewrite !map_length; auto) E).
  assert (Lm := binned_length _ _ _ _ _ _ _ _ _ E). rewrite map_length in Lm.
  assert (Z : forall i x, nth_error B i = Some x -> (nth_error (zipwith andb m (enough_telescopes mc B)) i = Some true <-> nth_error m i = Some true /\ nle mc (o_mult x) = true)).
  { intros i x Hi. destruct (nth_error_ex m i) as [b Hb]. { apply nth_lt in Hi. lia. }
    assert (Ht : nth_error (enough_telescopes mc B) i = Some (nle mc (o_mult x))) by (unfold enough_telescopes; rewrite nth_error_map, Hi; auto).
    rewrite (zipwith_nth _ _ _ i b (nle mc (o_mult x))); auto. rewrite Hb. split.
    - intros H. injection H as H. apply andb_true_iff in H as [-> ->]. auto.
    - intros [H ->]. injection H as ->. auto. }
  split.
  - intros (i & Hi & Ht). apply (Z i e Hi) in Ht as [Ht Hmc]. split; [eapply nth_error_In; eauto|]. split; auto. apply (Hm i); auto; rewrite nth_error_map, Hi; auto.
  - intros (Hi & Hmc & He). apply In_nth_error in Hi as [i Hi]. exists i. split; auto. apply (Z i e Hi). split; auto.
    apply (Hm i (o_gh e) (o_energy e)); auto; rewrite nth_error_map, Hi; auto.
Qed.

(** ** the percentile cuts of one bin are ordered and bounded by the scores *)
Lemma finite_scores (l : list num) : (forall x, In x l -> exists r, x = Fin r) -> exists rs, l = map Fin rs.
Proof.
  induction l as [|x l IH]; intros H; [exists []; auto|]. destruct IH as [rs ->]; [intros; apply H; right; auto|].
  destruct (H x (or_introl eq_refl)) as [r ->]. exists (r :: rs); auto.
Qed.
Lemma picks_sub {A} P xs (vs sel : list A) : picks P xs vs sel -> forall v, In v sel -> In v vs.
Proof. induction 1; intros w Hw; [destruct Hw|destruct Hw; [left; auto|right; auto]|right; auto]. Qed.
Lemma scan_cut vs xs bins (fill : num) ps t rows : nondecreasing bins -> (2 <= length bins)%nat -> length vs = length xs ->
  (forall p, In p ps -> 0 <= p <= 100) -> (exists x k, In x xs /\ in_bin bins k x) ->
  calculate_percentile_cut false (raw (map Fin vs)) (raw xs) (raw bins) (plain fill) (PList ps) None None None 10 = Ok t ->
  ct_cut t = Cut2 rows ->
  length rows = (length bins - 1)%nat /\
  forall j p cut, nth_error ps j = Some p -> column_of rows j cut ->
    forall k c, nth_error cut k = Some c -> exists sel, picks (in_bin bins k) xs vs sel /\
      if (Z.of_nat (length sel) <? 10)%Z then c = fill else exists r, c = Fin r /\ linear_percentile sel p r.
Proof.
  intros Hnd Hl Lv Hp Hex Et Er.
  destruct (c12_list (map Fin vs) xs bins fill ps None None 10 Hnd Hl) as (t' & rows' & Et' & Er' & Lr & Hr & Hj); auto. { rewrite map_length; auto. }
  unfold plaino in Et'. rewrite Et in Et'. injection Et' as <-. rewrite Er in Er'. injection Er' as <-. split; auto.
  intros j p cut Hpj Hcol k c Hc.
  destruct (Hj j p Hpj) as (t1 & cuts & E1 & _ & Ec1 & Lc & Hrow).
  destruct (c12 (map Fin vs) xs bins fill p None None 10 Hnd Hl) as (t2 & cuts2 & E2 & Ec2 & _ & _ & _ & _ & HH); auto.
  { rewrite map_length; auto. } { apply Hp. eapply nth_error_In; eauto. } { intros ? ? ?; discriminate. }
  unfold optn in E2. rewrite E1 in E2. injection E2 as <-. rewrite Ec1 in Ec2. injection Ec2 as <-.
  pose proof (column_of_length _ _ _ Hcol) as Lcol. assert (Hk : (k < length bins - 1)%nat) by (apply nth_lt in Hc; lia).
  destruct (picks_ex bins k xs vs) as [sel Hs]; auto. exists sel. split; auto.
  destruct (HH k (map Fin sel) Hk (picks_map Fin _ _ _ _ Hs)) as (_ & _ & _ & c' & Hc' & Hd).
  assert (c' = c).
  { destruct (nth_error_ex rows k) as [row Hr']; [lia|]. specialize (Hrow k row Hr'). rewrite Hc' in Hrow.
    pose proof (column_of_nth _ _ _ _ _ _ Hcol Hr' Hrow) as Q. congruence. } subst c'.
  destruct (Z.ltb_spec (Z.of_nat (length sel)) 10) as [Hlt|Hge].
  - unfold documented_cut in Hd. rewrite map_length in Hd. destruct (Z.ltb_spec (Z.of_nat (length sel)) 10); [auto|lia].
  - apply (documented_unclipped fill p 10 sel c); auto. intros ->. cbn in Hge. lia.
Qed.
Lemma scan_cut_mono vs xs bins fill ps t rows : nondecreasing bins -> (2 <= length bins)%nat -> length vs = length xs ->
  (forall p, In p ps -> 0 <= p <= 100) -> (exists x k, In x xs /\ in_bin bins k x) ->
  calculate_percentile_cut false (raw (map Fin vs)) (raw xs) (raw bins) (plain fill) (PList ps) None None None 10 = Ok t ->
  ct_cut t = Cut2 rows ->
  forall i j p q ci cj, nth_error ps i = Some p -> nth_error ps j = Some q -> p <= q -> column_of rows i ci -> column_of rows j cj ->
    forall k a b, nth_error ci k = Some a -> nth_error cj k = Some b -> a = b \/ nle a b = true.
Proof.
  intros Hnd Hl Lv Hp Hex Et Er i j p q ci cj Hi Hj Hpq Ci Cj k a b Ha Hb.
  destruct (scan_cut vs xs bins fill ps t rows Hnd Hl Lv Hp Hex Et Er) as [_ H].
  destruct (H i p ci Hi Ci k a Ha) as (sel & Hs & Va). destruct (H j q cj Hj Cj k b Hb) as (sel' & Hs' & Vb).
  pose proof (picks_fun _ _ _ _ _ Hs Hs'). subst sel'.
  destruct (Z.ltb _ _). { left. congruence. }
  right. destruct Va as (ra & -> & La), Vb as (rb & -> & Lb). cbn. apply Rleb_true. eapply lp_mono; eauto.
  apply (Hp p). eapply nth_error_In; eauto.
Qed.
(** a cut lies between the scores, or is the fill value *)
Lemma scan_cut_bound vs xs bins fill ps t rows : nondecreasing bins -> (2 <= length bins)%nat -> length vs = length xs ->
  (forall p, In p ps -> 0 <= p <= 100) -> (exists x k, In x xs /\ in_bin bins k x) ->
  calculate_percentile_cut false (raw (map Fin vs)) (raw xs) (raw bins) (plain fill) (PList ps) None None None 10 = Ok t ->
  ct_cut t = Cut2 rows ->
  forall j p cut, nth_error ps j = Some p -> column_of rows j cut -> forall k c, nth_error cut k = Some c ->
    c = fill \/ exists r lo hi, c = Fin r /\ In lo vs /\ In hi vs /\ lo <= r <= hi.
Proof.
  intros Hnd Hl Lv Hp Hex Et Er j p cut Hj Hc k c Hk.
  destruct (scan_cut vs xs bins fill ps t rows Hnd Hl Lv Hp Hex Et Er) as [_ H].
  destruct (H j p cut Hj Hc k c Hk) as (sel & Hs & V). destruct (Z.ltb _ _); [left; auto|]. destruct V as (r & -> & Hlp).
  right. destruct (lp_bounds sel p r Hlp) as (lo & hi & H1 & H2 & H3). exists r, lo, hi. repeat split; try lra; eapply picks_sub; eauto.
Qed.

(** ** nested selections with the same number of types have the same types *)
Lemma sorted_nodup l : StronglySorted slt l -> NoDup l.
Proof.
  induction 1 as [|a l H IH Ha]; constructor; auto. intros Hi. rewrite Forall_forall in Ha. exact (slt_irrefl a (Ha a Hi)).
Qed.
Lemma types_nested mn mx B B' ps ps' : (forall e, In e B -> In e B') -> particle_types mn mx B ps -> particle_types mn mx B' ps' ->
  length ps = length ps' -> ps = ps'.
Proof.
  intros HB [S H] [S' H'] L. apply strict_unique; auto.
  assert (I : incl ps ps'). { intros p Hp. apply H in Hp as (e & He & Hr & Hq). apply H'. exists e; auto. }
  intros p. split; [apply I|]. apply (NoDup_length_incl (sorted_nodup _ S)); auto. lia.
Qed.
Lemma types_same mn mx B B' ps ps' :
  (forall e, In e B -> in_ring mn mx e -> exists e', In e' B' /\ in_ring mn mx e' /\ ev_p (o_ev e') = ev_p (o_ev e)) ->
  (forall e, In e B' -> in_ring mn mx e -> exists e', In e' B /\ in_ring mn mx e' /\ ev_p (o_ev e') = ev_p (o_ev e)) ->
  particle_types mn mx B ps -> particle_types mn mx B' ps' -> ps = ps'.
Proof.
  intros H1 H2 [S H] [S' H']. apply strict_unique; auto. intros p. rewrite H, H'. split; intros (e & He & Hr & <-).
  - destruct (H1 e He Hr) as (e' & A & B0 & C). exists e'; auto.
  - destruct (H2 e He Hr) as (e' & A & B0 & C). exists e'; auto.
Qed.
Lemma row_cells k t1 t2 : same_row k t1 t2 -> colnames t1 = colnames t2 ->
  forall name, In name (colnames t1) -> exists v, cell t1 name k v /\ cell t2 name k v.
Proof.
  intros H. induction H as [|[n c] [n' c'] t1 t2 (v & V1 & V2) H IH]; intros E name Hn; [destruct Hn|].
  cbn [colnames map fst] in E. injection E as <- E. fold (colnames t1) (colnames t2) in E. cbn [snd] in V1, V2.
  unfold cell. cbn [getitem]. destruct (String.eqb_spec name n) as [->|Hne].
  - exists v. split; eexists; split; eauto.
  - destruct Hn as [Hn|Hn]; [cbn in Hn; congruence|]. destruct (IH E name Hn) as (w & W1 & W2).
    exists w. split; auto.
Qed.
Lemma same_row_length k t1 t2 : same_row k t1 t2 -> length t1 = length t2.
Proof. unfold same_row. intros H. induction H; cbn; auto. Qed.
Lemma good_sub B B' : (forall e, In e B -> In e B') -> good_labels B' -> good_labels B.
Proof.
  intros H [H1 H2]. split.
  - intros E e He. apply H1; auto.
  - intros a b Ha Hb. apply in_map_iff in Ha as (x & <- & Hx). apply in_map_iff in Hb as (y & <- & Hy).
    apply H2; apply in_map_iff; [exists x|exists y]; auto.
Qed.
Lemma columns_inj ps ps' : length (sensitivity_columns ps) = length (sensitivity_columns ps') -> length ps = length ps'.
Proof. unfold sensitivity_columns. rewrite !app_length, !particle_columns_length. lia. Qed.

Section Labels.
Variables (br : (R -> num) -> R -> R -> res R) (sf : num -> num -> num -> num)
  (sa : list num -> list num -> num -> res (list num)) (sw sp bw : bool)
  (signal background : list opt_event) (bins : list num) (alpha mn mx ms mse mex : num).
Hypotheses (Hnd : nondecreasing bins) (Hlen : (2 <= length bins)%nat) (Hgood : good_labels background)
  (Hgh : forall e, In e signal -> exists r, o_gh e = Fin r).

Lemma scores_finite l : (forall e, In e l -> In e signal) -> exists vs, map o_gh l = map Fin vs.
Proof. intros H. apply finite_scores. intros x Hx. apply in_map_iff in Hx as (e & <- & He). auto. Qed.

(** the species of a table of the scan are those of the background events that pass its cut *)
Lemma scan_types (op : num -> num -> bool) cut thl thh thc thcut s : length cut = (length bins - 1)%nat ->
  sensitivity_of_cuts br sf sa sw sp bw true signal background bins alpha mn mx ms mse mex op cut thl thh thc thcut s ->
  exists B ps, (forall e, In e B <-> In e background /\ exists k c, in_bin bins k (o_energy e) /\ nth_error cut k = Some c /\ op (o_gh e) c = true) /\
    particle_types mn mx B ps /\ colnames s = sensitivity_columns ps.
Proof.
  intros Lc (m & mt & b & E1 & E2 & E3 & Hs).
  assert (L1 := binned_length _ _ _ _ _ _ _ _ _ E1). assert (L2 := binned_length _ _ _ _ _ _ _ _ _ E2). assert (L3 := binned_length _ _ _ _ _ _ _ _ _ E3).
  rewrite map_length in L1, L2, L3. apply selection_select in Hs; [|rewrite zipwith_length; lia|auto].
  exists (select b background). destruct (types_exist mn mx (select b background)) as [ps Hps]. exists ps.
  split; [apply passed; auto; lia|]. split; auto.
  eapply selected_columns with (B := select b background); eauto. apply (good_sub _ background); auto. intros e. apply in_select.
Qed.
Lemma gh_labels (op : num -> num -> bool) effs thl thh thc thcut best c : op = nge \/ op = nle ->
  (forall e, In e effs -> 0 <= e <= 1) -> (exists e k, In e signal /\ in_bin bins k (o_energy e)) ->
  optimize_gh_cut br sf sa sw sp bw true signal background bins alpha mn mx ms mse mex op effs thl thh thc thcut = Ok (best, c) ->
  exists ps, colnames best = sensitivity_columns ps /\
    forall k, (k < length bins - 1)%nat -> exists cut s x,
      nth_error (oc_cut c) k = Some x /\ nth_error cut k = Some x /\ length cut = (length bins - 1)%nat /\
      sensitivity_of_cuts br sf sa sw sp bw true signal background bins alpha mn mx ms mse mex op cut thl thh thc thcut s /\
      colnames s = sensitivity_columns ps /\
      forall name, In name (sensitivity_columns ps) -> exists v, cell best name k v /\ cell s name k v.
Proof.
  intros Hop Heff Hex H.
  destruct (c27 _ _ _ _ _ _ _ _ _ _ _ _ _ _ _ _ _ _ _ _ _ _ _ _ H)
    as (fill & t & rows & sens & _ & Ht & Erows & _ & _ & _ & Lcut & _ & Lsens & (s0 & Hs0 & Hcn) & Hscan & Hbin).
  destruct (scores_finite signal) as [vs Evs]; auto.
  set (ps := map (fun e => if op (Fin (-1)) (Fin 1) then 100 * e else 100 * (1 - e)) effs) in *.
  assert (Hps : forall p, In p ps -> 0 <= p <= 100).
  { intros p Hp. unfold ps in Hp. apply in_map_iff in Hp as (e & <- & He). pose proof (Heff e He). destruct (op _ _); lra. }
  assert (Hex' : exists x k, In x (map o_energy signal) /\ in_bin bins k x).
  { destruct Hex as (e & k & He & Hb). exists (o_energy e), k. split; auto. apply in_map; auto. }
  assert (Lv : length vs = length (map o_energy signal)) by (rewrite map_length, <- (map_length o_gh), Evs, map_length; auto).
  rewrite Evs in Ht.
  destruct (scan_cut vs (map o_energy signal) bins fill ps t rows Hnd Hlen Lv Hps Hex' Ht Erows) as [Lrows _].
  assert (Lps : length ps = length effs) by (unfold ps; apply map_length).
  assert (Hall : forall j s, nth_error sens j = Some s -> exists cut B ts, column_of rows j cut /\ length cut = (length bins - 1)%nat /\
     sensitivity_of_cuts br sf sa sw sp bw true signal background bins alpha mn mx ms mse mex op cut thl thh thc thcut s /\
     (forall e, In e B <-> In e background /\ exists k c, in_bin bins k (o_energy e) /\ nth_error cut k = Some c /\ op (o_gh e) c = true) /\
     particle_types mn mx B ts /\ colnames s = sensitivity_columns ts).
  { intros j s Hj. destruct (Hscan j s Hj) as (cut & Hcol & Hs). pose proof (column_of_length _ _ _ Hcol).
    destruct (scan_types op cut thl thh thc thcut s) as (B & ts & HB & Hts & Hc); auto; [lia|]. exists cut, B, ts. repeat (split; auto); lia. }
  destruct (Hall 0%nat s0 Hs0) as (cut0 & B0 & ts0 & Hcol0 & L0 & _ & HB0 & Hts0 & Hc0).
  exists ts0. split; [congruence|]. intros k Hk.
  destruct (Hbin k Hk) as (j & vals & s & eff & row & x & Hj & _ & _ & _ & Hrow & _ & _ & Hr & Hx & Hcx).
  destruct (Hall j s Hj) as (cut & B & ts & Hcol & Lc & Hs & HB & Hts & Hc).
  pose proof (column_of_nth _ _ _ _ _ _ Hcol Hr Hx) as Hck.
  assert (Hlen' : length ts = length ts0).
  { apply columns_inj. rewrite <- Hc, <- Hc0, <- Hcn, !colnames_length. symmetry. eapply same_row_length; eauto. }
  assert (Ets : ts = ts0).
  { destruct (nth_error_ex ps j) as [p Hp]. { apply nth_lt in Hj. unfold table in *. lia. } destruct (nth_error_ex ps 0) as [p0 Hp0]. { apply nth_lt in Hj. unfold table in *. lia. }
    assert (Hmono := scan_cut_mono vs (map o_energy signal) bins fill ps t rows Hnd Hlen Lv Hps Hex' Ht Erows).
    assert (Hsub : forall ca cb Ba Bb, (forall k a b, nth_error ca k = Some a -> nth_error cb k = Some b -> a = b \/ nle a b = true) ->
      length ca = length cb ->
      (forall e, In e Ba <-> In e background /\ exists k c, in_bin bins k (o_energy e) /\ nth_error ca k = Some c /\ op (o_gh e) c = true) ->
      (forall e, In e Bb <-> In e background /\ exists k c, in_bin bins k (o_energy e) /\ nth_error cb k = Some c /\ op (o_gh e) c = true) ->
      if op (Fin (-1)) (Fin 1) then (forall e, In e Ba -> In e Bb) else (forall e, In e Bb -> In e Ba)).
    { intros ca cb Ba Bb Hm Lab Ha Hb. destruct Hop as [-> | ->].
      - replace (nge (Fin (-1)) (Fin 1)) with false by (symmetry; cbn; apply Rleb_false; lra).
        intros e He. apply Hb in He as (He & k' & y & B1 & B2 & B3). apply Ha. split; auto. destruct (nth_error_ex ca k') as [z Hz]. { apply nth_lt in B2. lia. }
        exists k', z. split; auto. split; auto. destruct (Hm k' z y Hz B2) as [->|Hle]; auto. unfold nge in *. eapply nle_trans; eauto.
      - replace (nle (Fin (-1)) (Fin 1)) with true by (symmetry; cbn; apply Rleb_true; lra).
        intros e He. apply Ha in He as (He & k' & y & B1 & B2 & B3). apply Hb. split; auto. destruct (nth_error_ex cb k') as [z Hz]. { apply nth_lt in B2. lia. }
        exists k', z. split; auto. split; auto. destruct (Hm k' y z B2 Hz) as [<-|Hle]; auto. eapply nle_trans; eauto. }
    destruct (Rle_dec p0 p) as [Hle|Hle].
    - specialize (Hsub cut0 cut B0 B (Hmono 0%nat j p0 p cut0 cut Hp0 Hp Hle Hcol0 Hcol) ltac:(lia) HB0 HB).
      destruct (op _ _); [symmetry; eapply types_nested|eapply types_nested]; eauto.
    - specialize (Hsub cut cut0 B B0 (Hmono j 0%nat p p0 cut cut0 Hp Hp0 ltac:(lra) Hcol Hcol0) ltac:(lia) HB HB0).
      destruct (op _ _); [eapply types_nested|symmetry; eapply types_nested]; eauto. }
  exists cut, s, x. split; auto. split; auto. split; auto. split; auto. split; [congruence|].
  intros name Hn. apply row_cells; auto; [congruence|rewrite Hcn, Hc0; auto].
Qed.
End Labels.

(** ** the weighted number of events of one particle type *)
Lemma cell_fun t name k v w : cell t name k v -> cell t name k w -> v = w.
Proof.
  intros (c & Hc & Hv) (c' & Hc' & Hw). rewrite Hc in Hc'. injection Hc' as <-. destruct c; cbn in Hv, Hw; try tauto; try congruence.
  destruct Hv as (z & Hz & ->), Hw as (z' & Hz' & ->). congruence.
Qed.
Section Species.
Variables (br : (R -> num) -> R -> R -> res R) (sf : num -> num -> num -> num)
  (sa : list num -> list num -> num -> res (list num)) (sw sp : bool)
  (signal background : list opt_event) (bins : list num) (alpha mn mx : R) (ms mse mex : num).
Hypotheses (Hris : rising bins) (Hlen : (2 <= length bins)%nat) (Hgood : good_labels background)
  (Ha : alpha <> 0) (Hmn : 0 <= mn) (Hmx : mn < mx) (Hpi : mx <= PI).
Let Hnd : nondecreasing bins := rising_nondecreasing bins Hris.

Lemma species_cell S B centers cuts s ps p k lo hi : good_labels B -> particle_types (Fin mn) (Fin mx) B ps ->
  increasing centers -> length centers = length cuts -> centers <> [] ->
  selected_sensitivity br sf sa sw sp true true bins (Fin alpha) (Fin mn) (Fin mx) ms mse mex S B (map Fin centers) (map Fin cuts) = Ok s ->
  In p ps -> nth_error bins k = Some lo -> nth_error bins (Datatypes.S k) = Some hi ->
  exists theta w, cut_for_bin centers cuts lo hi theta /\
    weight_of (fun e => ev_w (o_ev e)) (fun e => in_annulus mn mx (o_offset e) /\ in_hist_bin bins k (o_energy e) /\ ev_p (o_ev e) = p) B w /\
    cell s (("n_" ++ p) ++ "_weighted") k (Fin (w * ring_ratio theta mn mx / alpha)).
Proof.
  intros Hg Hps Hinc Hcl Hne Hs Hp Hlo Hhi.
  set (evs := map (fun e => mkBg (o_ev e) (o_offset e)) B).
  destruct (c26_particles evs bins centers cuts alpha mn mx p) as (t & n & Et & Hc & Ln & Hn); auto.
  { unfold evs. rewrite map_map. exact (proj2 Hg). }
  { apply (proj2 Hps) in Hp as (e & He & Hr & <-). exists (mkBg (o_ev e) (o_offset e)). split; [unfold evs; apply in_map_iff; eauto|]. split; auto. }
  assert (Hs' := Hs). unfold selected_sensitivity in Hs'. apply rbind_ok in Hs' as (sh & _ & Hs'). apply rbind_ok in Hs' as (bh & Hbh & Hs').
  fold evs in Hbh. rewrite Et in Hbh. injection Hbh as <-.
  pose proof (selected_columns _ _ _ _ _ _ _ _ _ _ _ _ _ Hnd Hlen _ _ _ _ _ _ Hg Hps Hs) as Hcols.
  assert (Hin : In (("n_" ++ p) ++ "_weighted")%string (colnames s)).
  { rewrite Hcols. unfold sensitivity_columns, particle_columns. rewrite !in_app_iff. right. left. apply in_flat_map. exists p. split; auto. right; left; auto. }
  apply in_map_iff in Hin as ([nm c] & Enm & Hin). cbn [fst] in Enm. subst nm.
  pose proof (nodup_get s _ c (selected_nodup _ _ _ _ _ _ _ _ _ _ _ _ _ _ _ _ _ _ _ Hs) Hin) as Hget.
  destruct (nth_error_ex n k) as [v Hv]. { apply nth_lt in Hhi. lia. }
  destruct (Hn k lo hi v Hlo Hhi (proj2 (proj2 Hris) k lo hi Hlo Hhi) Hv) as (theta & w & H1 & H2 & ->).
  exists theta, w. split; auto. split; [apply (weight_of_inv (fun e => mkBg (o_ev e) (o_offset e)) (fun e => ev_w (bg_ev e))) in H2; exact H2|].
  destruct (calc_get _ _ _ _ _ _ _ _ _ _ Hs' _ _ Hget) as [Hcore|Hb].
  - exfalso. apply (proj2 Hps) in Hp as (e & He & _ & E). subst p. apply (proj1 Hg eq_refl e He).
    assert (Hr : In (("n_" ++ ev_p (o_ev e)) ++ "_weighted")%string reserved).
    { unfold core_columns in Hcore. unfold reserved. cbn [In] in Hcore |- *. repeat (destruct Hcore as [Hcore|Hcore]; [try discriminate Hcore; try (rewrite <- Hcore; tauto)|]); try tauto. }
    eapply res_group; [exact Hr|right; left; auto].
  - exists c. split; auto. destruct Hc as [Hc|(z & Hc & ->)]; rewrite Hb in Hc; injection Hc as ->; cbn [entry]; auto.
    rewrite nth_error_map in Hv. destruct (nth_error z k) as [x|]; [|discriminate]. exists x. split; auto. cbn in Hv. congruence.
Qed.

(** the columns of the table returned by optimize_gh_cut hold the particle types they are named after *)
Lemma gh_species (op : num -> num -> bool) effs thl thh centers cuts best c :
  (forall e, In e signal -> exists r, o_gh e = Fin r) -> op = nge \/ op = nle ->
  (forall e, In e effs -> 0 <= e <= 1) -> (exists e k, In e signal /\ in_bin bins k (o_energy e)) ->
  increasing centers -> length centers = length cuts -> centers <> [] ->
  optimize_gh_cut br sf sa sw sp true true signal background bins (Fin alpha) (Fin mn) (Fin mx) ms mse mex op effs thl thh (map Fin centers) (map Fin cuts) = Ok (best, c) ->
  exists ps, colnames best = sensitivity_columns ps /\
    forall p k lo hi, In p ps -> nth_error bins k = Some lo -> nth_error bins (Datatypes.S k) = Some hi ->
      exists x theta w, nth_error (oc_cut c) k = Some x /\ cut_for_bin centers cuts lo hi theta /\
        weight_of (fun e => ev_w (o_ev e))
          (fun e => in_annulus mn mx (o_offset e) /\ in_bin bins k (o_energy e) /\ op (o_gh e) x = true /\ ev_p (o_ev e) = p) background w /\
        cell best (("n_" ++ p) ++ "_weighted") k (Fin (w * ring_ratio theta mn mx / alpha)).
Proof.
  intros Hgh Hop Heff Hex Hinc Hcl Hne H.
  destruct (gh_labels br sf sa sw sp true signal background bins (Fin alpha) (Fin mn) (Fin mx) ms mse mex Hnd Hlen Hgood Hgh op effs _ _ _ _ best c Hop Heff Hex H)
    as (ps & Hcn & Hk). exists ps. split; auto.
  intros p k lo hi Hp Hlo Hhi. destruct (Hk k) as (cut & s & x & Hcx & Hx & Lc & Hs & Hcs & Hcells). { apply nth_lt in Hhi. lia. }
  exists x. destruct Hs as (m & mt & b & E1 & E2 & E3 & Hs).
  assert (L1 := binned_length _ _ _ _ _ _ _ _ _ E1). assert (L2 := binned_length _ _ _ _ _ _ _ _ _ E2). assert (L3 := binned_length _ _ _ _ _ _ _ _ _ E3).
  rewrite map_length in L1, L2, L3. apply selection_select in Hs; [|rewrite zipwith_length; lia|auto].
  assert (Hg : good_labels (select b background)) by (apply (good_sub _ background); auto; intros e; apply in_select).
  destruct (types_exist (Fin mn) (Fin mx) (select b background)) as [ps' Hps'].
  assert (Eps : ps' = ps).
  { pose proof (selected_columns _ _ _ _ _ _ _ _ _ _ _ _ _ Hnd Hlen _ _ _ _ _ _ Hg Hps' Hs) as Hc'. rewrite Hcs in Hc'.
    unfold sensitivity_columns in Hc'. apply app_inv_head in Hc'. apply app_inv_tail in Hc'.
    clear -Hc'. revert ps Hc'. induction ps' as [|q ps' IH]; intros [|r ps] H; cbn in H; try discriminate; auto.
    injection H as H1 _ H2. subst q. f_equal; auto. }
  subst ps'.
  destruct (species_cell _ _ centers cuts s ps p k lo hi Hg Hps' Hinc Hcl Hne Hs Hp Hlo Hhi) as (theta & w & Hth & Hw & Hcell).
  exists theta, w. split; auto. split; auto. split.
  - eapply select_weight; [exact L3| |exact Hw]. intros i a Hi. cbn beta.
    pose proof (mask_true bins o_gh background cut op b k x Hnd Hlen Lc E3 Hx i a Hi) as Hm. tauto.
  - destruct (Hcells (("n_" ++ p) ++ "_weighted")%string) as (v & V1 & V2).
    { unfold sensitivity_columns, particle_columns. rewrite !in_app_iff. right. left. apply in_flat_map. exists p. split; auto. right; left; auto. }
    replace (Fin (w * ring_ratio theta mn mx / alpha)) with v; auto. eapply cell_fun; eauto.
Qed.
End Species.

(** ** every particle type survives every cut *)
Lemma range_same bins mn mx background B ps qs :
  (forall e, In e B -> In e background /\ exists k, in_bin bins k (o_energy e)) ->
  (forall e, In e background -> in_range bins mn mx e -> exists e', In e' B /\ in_ring mn mx e' /\ ev_p (o_ev e') = ev_p (o_ev e)) ->
  particle_types mn mx B ps -> types_in_range bins mn mx background qs -> ps = qs.
Proof.
  intros H1 H2 [S H] [S' H']. apply strict_unique; auto. intros p. rewrite H, H'. split; intros (e & He & Hr & <-).
  - destruct (H1 e He) as [Hb Hk]. exists e. repeat split; auto; apply Hr.
  - destruct (H2 e He Hr) as (e' & A & B0 & C). exists e'; auto.
Qed.
Lemma largest_bound l m x : largest_of l m -> (exists y, In y l /\ nle x y = true) -> (forall y, In y l -> exists r, y = Fin r) -> nle x m = true.
Proof.
  intros [[H _]|(_ & _ & H)] (y & Hy & Hxy) Hf; [destruct (Hf _ H); discriminate|]. eapply nle_trans; eauto.
Qed.
Lemma extreme_in (b : bool) l m : (if b then smallest_of l m else largest_of l m) -> (forall y, In y l -> exists r, y = Fin r) -> In m l.
Proof. intros H Hf. destruct b; destruct H as [[H _]|(_ & H & _)]; auto; destruct (Hf _ H); discriminate. Qed.
(** a cut of the scan lies between the scores *)
Lemma cut_passed (op : num -> num -> bool) (sel signal : list opt_event) bins fill ps t rows j p cut k c g : op = nge \/ op = nle ->
  (forall e, In e sel -> In e signal) -> (forall e, In e signal -> exists r, o_gh e = Fin r) ->
  nondecreasing bins -> (2 <= length bins)%nat -> (forall p, In p ps -> 0 <= p <= 100) ->
  (exists e k, In e sel /\ in_bin bins k (o_energy e)) -> In fill (map o_gh signal) ->
  calculate_percentile_cut false (raw (map o_gh sel)) (raw (map o_energy sel)) (raw bins) (plain fill) (PList ps) None None None 10 = Ok t ->
  ct_cut t = Cut2 rows -> nth_error ps j = Some p -> column_of rows j cut -> nth_error cut k = Some c ->
  (forall s, In s signal -> op g (o_gh s) = true) -> op g c = true.
Proof.
  intros Hop Hsel Hgh Hnd Hlen Hps Hex Hfill Ht Erows Hp Hcol Hc Hg.
  destruct (finite_scores (map o_gh sel)) as [vs Evs]. { intros x Hx. apply in_map_iff in Hx as (e & <- & He). auto. }
  assert (Hex' : exists x k, In x (map o_energy sel) /\ in_bin bins k x).
  { destruct Hex as (e & k' & He & Hb). exists (o_energy e), k'. split; auto. apply in_map; auto. }
  assert (Lv : length vs = length (map o_energy sel)) by (rewrite map_length, <- (map_length o_gh), Evs, map_length; auto).
  rewrite Evs in Ht.
  assert (Hsc : forall x, In x (map o_gh signal) -> op g x = true) by (intros x Hx; apply in_map_iff in Hx as (e & <- & He); auto).
  assert (Hvs : forall v, In v vs -> op g (Fin v) = true).
  { intros v Hv. apply Hsc. apply (in_map Fin) in Hv. rewrite <- Evs in Hv. apply in_map_iff in Hv as (e & <- & He). apply in_map; auto. }
  destruct (scan_cut_bound vs (map o_energy sel) bins fill ps t rows Hnd Hlen Lv Hps Hex' Ht Erows j p cut Hp Hcol k c Hc) as [->|(r & lo & hi & -> & Hlo & Hhi & Hb)].
  - auto.
  - destruct Hop as [-> | ->].
    + unfold nge. eapply nle_trans; [|exact (Hvs hi Hhi)]. cbn. apply Rleb_true. lra.
    + eapply nle_trans; [exact (Hvs lo Hlo)|]. cbn. apply Rleb_true. lra.
Qed.

Section Succeeds.
Variables (br : (R -> num) -> R -> R -> res R) (sf : num -> num -> num -> num)
  (sa : list num -> list num -> num -> res (list num)) (sw sp bw : bool)
  (signal background : list opt_event) (bins : list num) (alpha mn mx : R) (ms mse mex : num).
Hypotheses (Hris : rising bins) (Hlen : (2 <= length bins)%nat)
  (Hbr : forall f x y ex, br f x y = Err ex -> ex = ValueError \/ ex = RuntimeError)
  (Hsa : forall on off, length on = length off -> sa on off (Fin alpha) = Ok (zipwith (fun x y => sf x y (Fin alpha)) on off))
  (Hsl : sp = true -> forall e, In e signal -> ev_p (o_ev e) <> "weighted"%string) (Hgood : good_labels background)
  (Hws : forall e, In e signal -> 0 <= ev_w (o_ev e)) (Hwb : forall e, In e background -> 0 <= ev_w (o_ev e))
  (Ha : 0 < alpha) (Hmn : 0 <= mn) (Hmx : mn < mx) (Hpi : mx <= PI)
  (Hgh : forall e, In e signal -> exists r, o_gh e = Fin r).
Let Hnd : nondecreasing bins := rising_nondecreasing bins Hris.

Lemma gh_succeeds (op : num -> num -> bool) effs thl thh thc thcut ps : op = nge \/ op = nle ->
  thc <> [] -> length thc = length thcut ->
  (exists sel, evaluate_binned_cut true (map o_theta signal) (raw (map o_energy signal)) thl thh None thcut nle = Ok sel) ->
  effs <> [] -> (forall e, In e effs -> 0 <= e <= 1) ->
  (exists e k, In e signal /\ in_bin bins k (o_energy e)) ->
  every_type_survives op bins (Fin mn) (Fin mx) signal background [] ->
  types_in_range bins (Fin mn) (Fin mx) background ps ->
  exists best c, optimize_gh_cut br sf sa sw sp bw true signal background bins (Fin alpha) (Fin mn) (Fin mx) ms mse mex
    op effs thl thh thc thcut = Ok (best, c) /\ colnames best = sensitivity_columns ps.
Proof.
  intros Hop Hne Hl Hsel Heffs Heff Hex Hsur Hps.
  destruct (gh_outcome br sf sa sw sp bw true signal background bins alpha mn mx ms mse mex Hris Hlen Hbr Hsa Hsl (proj1 Hgood) Hws Hwb Ha Hmn Hmx Hpi
    op effs thl thh thc thcut Hne Hl Hsel Heffs Heff Hex) as (fill & t & rows & sens & choice & Hfill & Ht & Erows & Ls & Hscan & Hch & Hout).
  set (pcs := map (fun e => if op (Fin (-1)) (Fin 1) then 100 * e else 100 * (1 - e)) effs) in *.
  assert (Hpcs : forall p, In p pcs -> 0 <= p <= 100).
  { intros p Hp. unfold pcs in Hp. apply in_map_iff in Hp as (e & <- & He). pose proof (Heff e He). destruct (op _ _); lra. }
  assert (Hfin : forall y, In y (map o_gh signal) -> exists r, y = Fin r) by (intros y Hy; apply in_map_iff in Hy as (e & <- & He); auto).
  destruct (percentile_cut_rows _ _ _ _ _ _ _ _ _ Ht) as (rows' & Erows' & Lrows & _).
  rewrite Erows in Erows'. injection Erows' as <-.
  assert (Hall : forall j s, nth_error sens j = Some s -> colnames s = sensitivity_columns ps).
  { intros j s Hj. destruct (Hscan j s Hj) as (cut & Hcol & Hs). pose proof (column_of_length _ _ _ Hcol) as Lc. cbn [a_val] in Lrows.
    destruct (scan_types br sf sa sw sp bw signal background bins (Fin alpha) (Fin mn) (Fin mx) ms mse mex Hnd Hlen Hgood op cut thl thh thc thcut s)
      as (B & ts & HB & Hts & Hc); auto; [cbn in *; lia|].
    rewrite Hc. f_equal. eapply range_same; [| |exact Hts|exact Hps].
    - intros e He. apply HB in He as (He & k & c & Hb & _). eauto.
    - intros e He Hr. destruct (Hsur e He Hr) as (e' & He' & [Hr' (k & Hk)] & Hty & Hsc & _). exists e'. split; [|auto].
      apply HB. split; auto. destruct (in_bin_some _ _ _ cut Hk ltac:(cbn in *; lia)) as [c Hcc]. exists k, c. split; auto. split; auto.
      destruct (nth_error_ex pcs j) as [p Hp]. { unfold pcs. rewrite map_length. apply nth_lt in Hj. unfold table in *. lia. }
      apply (cut_passed op signal signal bins fill pcs t rows j p cut k c); auto.
      eapply extreme_in; eauto. }
  destruct Hout as [[_ (best & c & E)]|[Hnw _]].
  - exists best, c. split; auto. destruct (c27 _ _ _ _ _ _ _ _ _ _ _ _ _ _ _ _ _ _ _ _ _ _ _ _ E)
      as (fill' & t' & rows' & sens' & Hfill' & Ht' & Erows' & _ & _ & _ & _ & _ & Ls' & (s0 & Hs0 & Hcn) & Hscan' & _).
    rewrite Hcn. destruct (Hscan' _ _ Hs0) as (cut & Hcol & Hs). pose proof (column_of_length _ _ _ Hcol) as Lc.
    destruct (percentile_cut_rows _ _ _ _ _ _ _ _ _ Ht') as (rows2 & Erows2 & Lrows' & _). rewrite Erows' in Erows2. injection Erows2 as <-. 
    fold pcs in Ht'.
    destruct (scan_types br sf sa sw sp bw signal background bins (Fin alpha) (Fin mn) (Fin mx) ms mse mex Hnd Hlen Hgood op cut thl thh thc thcut s0)
      as (B & ts & HB & Hts & Hc); auto; [cbn in *; lia|].
    rewrite Hc. f_equal. eapply range_same; [| |exact Hts|exact Hps].
    + intros e He. apply HB in He as (He & k & c' & Hb & _). eauto.
    + intros e He Hr. destruct (Hsur e He Hr) as (e' & He' & [Hr' (k & Hk)] & Hty & Hsc & _). exists e'. split; [|auto].
      apply HB. split; auto. destruct (in_bin_some _ _ _ cut Hk ltac:(cbn in *; lia)) as [c' Hcc]. exists k, c'. split; auto. split; auto.
      destruct (nth_error_ex pcs 0) as [p Hp]. { unfold pcs. rewrite map_length. destruct effs; [congruence|cbn; lia]. }
      apply (cut_passed op signal signal bins fill' pcs t' rows' 0%nat p cut k c'); auto.
      eapply extreme_in; eauto.
  - exfalso. apply Hnw. intros k j s s0 _ Hs H0. rewrite (Hall j s Hs), (Hall _ s0 H0). auto.
Qed.

Lemma all_cuts_types mults gh_eff theta_eff tmin tmax fill m ght tht rg rt gi gcut tcut s ps :
  (forall e, In e gh_eff -> 0 <= e <= 1) ->
  (exists e k, In e signal /\ nle m (o_mult e) = true /\ in_bin bins k (o_energy e)) ->
  every_type_survives nge bins (Fin mn) (Fin mx) signal background mults -> In m mults ->
  types_in_range bins (Fin mn) (Fin mx) background ps ->
  largest_of (map o_gh signal) fill -> (gi < length gh_eff)%nat ->
  percentile_grids signal bins fill gh_eff theta_eff tmin tmax m ght tht rg rt -> column_of rg gi gcut ->
  sensitivity_of_all_cuts br sf sa sw sp bw true signal background bins (Fin alpha) (Fin mn) (Fin mx) ms mse mex
     (enough_telescopes m signal) (enough_telescopes m background) gcut tcut s ->
  colnames s = sensitivity_columns ps.
Proof.
  intros Heff (e0 & k0 & He0 & Hm0 & Hb0) Hsur Him Hps Hfill Hgi (sel & Hk & Eg & Erg & _ & _) Hcol (mg & mt & b & E1 & E2 & E3 & Hs).
  apply kept_select in Hk.
  set (pcs := map (fun e => 100 * (1 - e)) gh_eff) in *.
  assert (Hpcs : forall p, In p pcs -> 0 <= p <= 100).
  { intros p Hp. unfold pcs in Hp. apply in_map_iff in Hp as (e & <- & He). pose proof (Heff e He). lra. }
  assert (Hfin : forall y, In y (map o_gh signal) -> exists r, y = Fin r) by (intros y Hy; apply in_map_iff in Hy as (e & <- & He); auto).
  destruct (percentile_cut_rows _ _ _ _ _ _ _ _ _ Eg) as (rg' & Erg' & Lrg & _). rewrite Erg in Erg'. injection Erg' as <-.
  pose proof (column_of_length _ _ _ Hcol) as Lc. cbn [a_val raw] in Lrg.
  assert (L1 := binned_length _ _ _ _ _ _ _ _ _ E1). assert (L2 := binned_length _ _ _ _ _ _ _ _ _ E2). assert (L3 := binned_length _ _ _ _ _ _ _ _ _ E3).
  rewrite map_length in L1, L2, L3. assert (Lt : forall l, length (enough_telescopes m l) = length l) by (intros; apply map_length).
  apply selection_select in Hs; [|rewrite !zipwith_length, Lt; lia|rewrite zipwith_length, Lt; lia].
  set (Bs := select (zipwith andb b (enough_telescopes m background)) background) in *.
  destruct (types_exist (Fin mn) (Fin mx) Bs) as [ts Hts].
  assert (Hgs : good_labels Bs) by (apply (good_sub _ background); auto; intros e; apply in_select).
  rewrite (selected_columns _ _ _ _ _ _ _ _ _ _ _ _ _ Hnd Hlen _ _ _ _ _ _ Hgs Hts Hs). f_equal.
  assert (HB := passed_mult bins background gcut b m Hnd Hlen ltac:(lia) E3). fold Bs in HB.
  eapply range_same; [| |exact Hts|exact Hps].
  - intros e He. apply HB in He as (He & _ & k & c & Hb & _). eauto.
  - intros e He Hr. destruct (Hsur e He Hr) as (e' & He' & [Hr' (k & Hk')] & Hty & Hsc & Hmu). exists e'. split; [|auto].
    apply HB. split; auto. split; auto. destruct (in_bin_some _ _ _ gcut Hk' ltac:(lia)) as [c Hcc]. exists k, c. split; auto. split; auto.
    destruct (nth_error_ex pcs gi) as [p Hp]. { unfold pcs. rewrite map_length. auto. }
    apply (cut_passed nge sel signal bins fill pcs ght rg gi p gcut k c); auto.
    + rewrite Hk. intros x. apply in_select.
    + exists e0, k0. split; auto. rewrite Hk. apply in_select_iff. apply In_nth_error in He0 as [i Hi]. exists i. split; auto.
      unfold enough_telescopes. rewrite nth_error_map, Hi. cbn. congruence.
    + apply (extreme_in false); auto.
Qed.
Lemma cuts_succeeds mults gh_eff theta_eff tmin tmax ps :
  mults <> [] -> gh_eff <> [] -> theta_eff <> [] ->
  (forall e, In e gh_eff -> 0 <= e <= 1) -> (forall e, In e theta_eff -> 0 <= e <= 1) ->
  (forall m, In m mults -> exists e k, In e signal /\ nle m (o_mult e) = true /\ in_bin bins k (o_energy e)) ->
  every_type_survives nge bins (Fin mn) (Fin mx) signal background mults ->
  types_in_range bins (Fin mn) (Fin mx) background ps ->
  exists best mult_out tc gc, optimize_cuts br sf sa sw sp bw true signal background bins (Fin alpha) (Fin mn) (Fin mx) ms mse mex
      mults gh_eff theta_eff tmin tmax = Ok (best, mult_out, tc, gc) /\
    colnames best = sensitivity_columns ps /\
    forall k, (k < length bins - 1)%nat -> exists m gcut tcut s gx tx,
      nth_error mult_out k = Some m /\ nth_error (oc_cut gc) k = Some gx /\ nth_error gcut k = Some gx /\
      nth_error (oc_cut tc) k = Some tx /\ nth_error tcut k = Some tx /\
      sensitivity_of_all_cuts br sf sa sw sp bw true signal background bins (Fin alpha) (Fin mn) (Fin mx) ms mse mex
        (enough_telescopes m signal) (enough_telescopes m background) gcut tcut s /\
      colnames s = sensitivity_columns ps /\
      forall name, In name (sensitivity_columns ps) -> exists v, cell best name k v /\ cell s name k v.
Proof.
  intros Hm Hg Ht Hge Hte Hev Hsur Hps.
  destruct (cuts_outcome br sf sa sw sp bw true signal background bins alpha mn mx ms mse mex Hris Hlen Hbr Hsa Hsl (proj1 Hgood) Hws Hwb Ha Hmn Hmx Hpi
    mults gh_eff theta_eff tmin tmax Hm Hg Ht Hge Hte Hev) as (fill & combos & sens & choice & Hfill & Ecom & Ls & Hscan & Hch & Hout).
  assert (Hcom : forall i mi gi ti, nth_error combos i = Some (mi, gi, ti) -> (gi < length gh_eff)%nat).
  { intros i mi gi ti Hi. apply nth_error_In in Hi. rewrite Ecom in Hi. apply in_prod_iff in Hi as [Hi _]. apply in_prod_iff in Hi as [_ Hi]. apply in_seq in Hi. lia. }
  destruct Hout as [[_ (best & mo & tc & gc & E)]|[Hnw _]].
  2:{ exfalso. apply Hnw. assert (Hall : forall i s, nth_error sens i = Some s -> colnames s = sensitivity_columns ps).
      { intros i s Hi. destruct (nth_error_ex combos i) as [[[mi gi] ti] Hc]. { apply nth_lt in Hi. unfold table in *. lia. }
        destruct (Hscan i mi gi ti s Hc Hi) as (m & ght & tht & rg & rt & gcut & tcut & Hmi & Hgr & Hcg & _ & Hs).
        eapply (all_cuts_types mults gh_eff theta_eff tmin tmax fill m); eauto using nth_error_In. }
      intros k j s s0 _ Hs H0. rewrite (Hall j s Hs), (Hall _ s0 H0). auto. }
  exists best, mo, tc, gc. split; auto.
  destruct (c28 _ _ _ _ _ _ _ _ _ _ _ _ _ _ _ _ Hlen _ _ _ _ _ _ _ _ _ E)
    as (fill' & ghs & ths & combos' & sens' & Hfill' & Ecom' & Ls' & (s0 & Hs0 & Hcn) & Hgrid & Hscan' & _ & _ & _ & _ & _ & _ & _ & _ & _ & Hbin).
  rewrite <- Ecom in Ecom'. subst combos'.
  assert (Hall : forall i s, nth_error sens' i = Some s -> colnames s = sensitivity_columns ps).
  { intros i s Hi. destruct (nth_error_ex combos i) as [[[mi gi] ti] Hc]. { apply nth_lt in Hi. unfold table in *. lia. }
    destruct (Hscan' i mi gi ti s Hc Hi) as (m & rg & rt & gcut & tcut & Hmi & Hg1 & Ht1 & Hcg & _ & Hs).
    destruct (Hgrid mi m Hmi) as (ght & tht & rg' & rt' & G1 & G2 & Hgr). rewrite Hg1 in G1. injection G1 as <-. rewrite Ht1 in G2. injection G2 as <-.
    eapply (all_cuts_types mults gh_eff theta_eff tmin tmax fill' m); eauto using nth_error_In. }
  split; [rewrite Hcn; eauto|]. intros k Hk.
  destruct (Hbin k Hk) as (i & mi & gi & ti & vals & s & m & rg & rt & grow & trow & geff & teff & gx & tx & Hc & Hi & _ & _ & _ & Hrow & Hmi & Hmo & Hg1 & Hgr & Hgx & Hgc & Ht1 & Htr & Htx & Htc & _).
  destruct (Hscan' i mi gi ti s Hc Hi) as (m' & rg' & rt' & gcut & tcut & Hmi' & Hg1' & Ht1' & Hcg & Hct & Hs).
  rewrite Hmi in Hmi'. injection Hmi' as <-. rewrite Hg1 in Hg1'. injection Hg1' as <-. rewrite Ht1 in Ht1'. injection Ht1' as <-.
  exists m, gcut, tcut, s, gx, tx. split; auto. split; auto. split; [eapply column_of_nth; eauto|]. split; auto. split; [eapply column_of_nth; eauto|].
  split; auto. split; [eauto|]. intros name Hn. apply row_cells; auto.
  - rewrite Hcn, (Hall _ _ Hs0), (Hall _ _ Hi). auto.
  - rewrite Hcn, (Hall _ _ Hs0). auto.
Qed.
End Succeeds.
