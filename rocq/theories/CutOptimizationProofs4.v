(** * CutOptimizationProofs4: the optimised cuts reproduce the reported sensitivity (C29) *)
From Coq Require Import String Reals List Bool ZArith Lia Lra.
From Verif Require Import Num Numpy Table Binning SpecBinning BinningProofs HistProofs BinningProofs2 Percentile Cuts SpecCuts
  CutsProofs CutsProofs2 SpecSensitivity Sensitivity SensitivityProofs3 SensitivityProofs4 CutOptimization SpecCutOptimization
  CutOptimizationProofs CutOptimizationProofs2 CutOptimizationProofs3.
Import ListNotations.
Open Scope R_scope.

Lemma in_bin_not_last bins k x : nondecreasing bins -> last_edge bins x -> ~ in_bin bins k x.
Proof.
  intros Hnd Hl (lo & hi & Hlo & Hhi & H1 & H2).
  assert (Hle : nle hi x = true).
  { unfold last_edge in Hl. pose proof (nth_lt _ _ _ Hhi) as Hk.
    assert (G : forall d a b, nth_error bins (S k) = Some a -> nth_error bins (S k + d) = Some b -> nle a b = true).
    { induction d as [|d IH]; intros a b Ha Hb.
      - rewrite Nat.add_0_r, Ha in Hb. injection Hb as <-. apply nle_refl. apply (proj1 Hnd). eapply nth_error_In; eauto.
      - destruct (nth_error_ex bins (S k + d)) as [c Hc]. { apply nth_lt in Hb. lia. }
        eapply nle_trans; [exact (IH a c Ha Hc)|]. apply (proj2 Hnd (S k + d)%nat); auto. rewrite <- Hb. f_equal. lia. }
    apply (G (length bins - 1 - S k)%nat); auto. rewrite <- Hl. f_equal. lia. }
  pose proof (nlt_le_trans _ _ _ H2 Hle) as H. destruct x; cbn in H; try discriminate. rcmp. lra.
Qed.
Lemma mask_spec bins v x cuts op m : nondecreasing bins -> (2 <= length bins)%nat -> (length bins - 1 <= length cuts)%nat ->
  length v = length x ->
  evaluate_binned_cut true v (raw x) (but_last bins) (tl bins) None cuts op = Ok m ->
  forall i vi xi k c, nth_error v i = Some vi -> nth_error x i = Some xi -> in_hist_bin bins k xi -> nth_error cuts k = Some c ->
    (in_bin bins k xi -> nth_error m i = Some (op vi c)) /\ (last_edge bins xi -> nth_error m i = Some false).
Proof.
  intros Hnd Hl Hc Lv E i vi xi k c Hv Hx Hb Hk.
  destruct (bin_indices_inc x bins Hnd) as (idx & valid & Ei & L1 & L2 & Ho). { intros ->. cbn in Hl. lia. }
  destruct (eval_rows_ok op cuts bins Hnd Hc v x idx valid Lv L1 L2 Ho) as (out & Eo & Lo & H).
  rewrite (eval_bins _ _ _ _ _ (idx, valid) Hl Ei) in E. cbn [fst snd] in E.
  unfold evaluate_binned_cut_by_index in E. cbn [negb] in E. rewrite Lv, L1, Nat.eqb_refl, L2, Nat.eqb_refl in E. cbn [negb] in E.
  rewrite Eo in E. injection E as <-. destruct (H i vi xi Hv Hx) as [H1 H2]. split.
  - intros Hi. apply (H1 k); auto.
  - intros Hla. apply H2. intros k'. apply in_bin_not_last; auto.
Qed.
Lemma mask_exists bins v x cuts op : nondecreasing bins -> (2 <= length bins)%nat -> (length bins - 1 <= length cuts)%nat ->
  length v = length x ->
  exists m, evaluate_binned_cut true v (raw x) (but_last bins) (tl bins) None cuts op = Ok m.
Proof.
  intros Hnd Hl Hc Lv.
  destruct (bin_indices_inc x bins Hnd) as (idx & valid & Ei & L1 & L2 & Ho). { intros ->. cbn in Hl. lia. }
  destruct (eval_rows_ok op cuts bins Hnd Hc v x idx valid Lv L1 L2 Ho) as (out & Eo & Lo & H).
  rewrite (eval_bins _ _ _ _ _ (idx, valid) Hl Ei). cbn [fst snd].
  unfold evaluate_binned_cut_by_index. cbn [negb]. rewrite Lv, L1, Nat.eqb_refl, L2, Nat.eqb_refl. cbn [negb]. eauto.
Qed.
(** masks of two cut tables with the same cut in bin k agree on the events of bin k *)
Lemma mask_local bins v x c1 c2 op m1 m2 k c : nondecreasing bins -> (2 <= length bins)%nat ->
  (length bins - 1 <= length c1)%nat -> (length bins - 1 <= length c2)%nat -> length v = length x ->
  evaluate_binned_cut true v (raw x) (but_last bins) (tl bins) None c1 op = Ok m1 ->
  evaluate_binned_cut true v (raw x) (but_last bins) (tl bins) None c2 op = Ok m2 ->
  nth_error c1 k = Some c -> nth_error c2 k = Some c ->
  forall i xi, nth_error x i = Some xi -> in_hist_bin bins k xi -> nth_error m1 i = nth_error m2 i.
Proof.
  intros Hnd Hl L1 L2 Lv E1 E2 K1 K2 i xi Hx Hb.
  destruct (nth_error_ex v i) as [vi Hv]. { apply nth_lt in Hx. lia. }
  destruct (mask_spec _ _ _ _ _ _ Hnd Hl L1 Lv E1 i vi xi k c Hv Hx Hb K1) as [A1 A2].
  destruct (mask_spec _ _ _ _ _ _ Hnd Hl L2 Lv E2 i vi xi k c Hv Hx Hb K2) as [B1 B2].
  destruct Hb as [Hb|[_ Hb]]; [rewrite A1, B1 by auto; auto|rewrite A2, B2 by auto; auto].
Qed.
Lemma same_row_sym k t1 t2 : same_row k t1 t2 -> same_row k t2 t1.
Proof. intros H. induction H as [|p q a b (v & V1 & V2) H IH]; constructor; eauto. Qed.
Lemma layout_names t1 t2 : colnames t1 = colnames t2 -> layout t1 -> layout t2.
Proof. intros E (ps & H1 & H2). exists ps. split; auto. congruence. Qed.
Lemma filter_filter {A} (p q : A -> bool) l : filter p (filter q l) = filter q (filter p l).
Proof. induction l as [|a l IH]; cbn; auto. destruct (p a) eqn:Ep, (q a) eqn:Eq; cbn; rewrite ?Ep, ?Eq, IH; auto. Qed.

Section C29.
Variables (br : (R -> num) -> R -> R -> res R) (sf : num -> num -> num -> num)
  (sa : list num -> list num -> num -> res (list num)) (sw sp bw bp : bool)
  (signal background : list opt_event) (bins : list num) (alpha mn mx ms mse mex : num).
Hypotheses (Hnd : nondecreasing bins) (Hlen : (2 <= length bins)%nat)
  (Hfin : forall k lo hi, nth_error bins k = Some lo -> nth_error bins (S k) = Some hi -> exists r, lo = Fin r \/ hi = Fin r)
  (Hsa : forall on off, length on = length off -> sa on off alpha = Ok (zipwith (fun x y => sf x y alpha) on off))
  (Hsl : sp = true -> forall e, In e signal -> ev_p (o_ev e) <> "weighted"%string)
  (Hbl : clean_labels bp background).

Lemma in_select {A} m (l : list A) x : In x (select m l) -> In x l.
Proof. unfold select. intros H. apply in_map_iff in H as ([a b] & <- & H). apply filter_In in H as [H _]. apply in_combine_l in H. auto. Qed.

(** the selections agree in bin k, so do all values in bin k *)
Lemma core_local m1 m2 b1 b2 thc th1 th2 k :
  length m1 = length signal -> length m2 = length signal -> length b1 = length background -> length b2 = length background ->
  (k < length bins - 1)%nat ->
  (forall i e, nth_error signal i = Some e -> in_hist_bin bins k (o_energy e) -> nth_error m1 i = nth_error m2 i) ->
  (forall i e, nth_error background i = Some e -> in_hist_bin bins k (o_energy e) -> nth_error b1 i = nth_error b2 i) ->
  np_interp1 (center bins k) thc th1 = np_interp1 (center bins k) thc th2 ->
  rel1 br sf sw bw bins alpha mn mx ms mse mex (select m1 signal) (select b1 background) thc th1 k =
  rel1 br sf sw bw bins alpha mn mx ms mse mex (select m2 signal) (select b2 background) thc th2 k /\
  forall r name, core_values sf sw bw bins alpha mn mx (select m1 signal) (select b1 background) thc th1 k r name =
    core_values sf sw bw bins alpha mn mx (select m2 signal) (select b2 background) thc th2 k r name.
Proof.
  intros L1 L2 L3 L4 Hk Hm Hb Hi.
  assert (F1 : filter (fun v => inb bins k (ev_x v)) (map o_ev (select m1 signal)) = filter (fun v => inb bins k (ev_x v)) (map o_ev (select m2 signal))).
  { rewrite !filter_map_comm. f_equal. apply select_local; auto. intros i a Ha Hp. apply inb_spec in Hp; eauto. }
  assert (F2 : filter (fun v => inb bins k (ev_x v)) (ring mn mx (select b1 background)) = filter (fun v => inb bins k (ev_x v)) (ring mn mx (select b2 background))).
  { unfold ring. rewrite !filter_map_comm. f_equal. rewrite !(filter_filter _ (q mn mx)). f_equal.
    apply select_local; auto. intros i a Ha Hp. apply inb_spec in Hp; eauto. }
  pose proof (cnt_filter bins k _ _ F1) as E1. pose proof (wgt_filter bins sw k _ _ F1) as E2.
  pose proof (cnt_filter bins k _ _ F2) as E3. pose proof (wgt_filter bins bw k _ _ F2) as E4.
  assert (E5 : forall x, scaled bins alpha mn mx thc th1 k x = scaled bins alpha mn mx thc th2 k x).
  { intros x. unfold scaled, size_ratio. rewrite Hi. auto. }
  unfold rel1, core_values. rewrite E1, E2, E3, E4, !E5. split; auto.
Qed.

(** assembling per-bin choices *)
Lemma reproduces thc th M Bm best (ok : nat -> table -> Prop) s00 :
  length M = length signal -> length Bm = length background -> thc <> [] -> length thc = length th ->
  ok 0%nat s00 -> colnames best = colnames s00 ->
  (forall j s, ok j s -> exists m b th', length m = length signal /\ length b = length background /\
     selected_sensitivity br sf sa sw sp bw bp bins alpha mn mx ms mse mex (select m signal) (select b background) thc th' = Ok s) ->
  (forall k, (k < length bins - 1)%nat -> exists j s m b th', ok j s /\ same_row k best s /\
     length m = length signal /\ length b = length background /\
     selected_sensitivity br sf sa sw sp bw bp bins alpha mn mx ms mse mex (select m signal) (select b background) thc th' = Ok s /\
     (forall i e, nth_error signal i = Some e -> in_hist_bin bins k (o_energy e) -> nth_error M i = nth_error m i) /\
     (forall i e, nth_error background i = Some e -> in_hist_bin bins k (o_energy e) -> nth_error Bm i = nth_error b i) /\
     np_interp1 (center bins k) thc th = np_interp1 (center bins k) thc th') ->
  exists s', selected_sensitivity br sf sa sw sp bw bp bins alpha mn mx ms mse mex (select M signal) (select Bm background) thc th = Ok s' /\
    forall k name, (k < length bins - 1)%nat -> In name core_columns -> exists v, cell best name k v /\ cell s' name k v.
Proof.
  intros LM LB Hne Hl Hok0 Hcn Hall Hk.
  assert (Hs : forall m, sp = true -> forall e, In e (select m signal) -> ev_p (o_ev e) <> "weighted"%string).
  { intros m E e He. apply Hsl; auto. eapply in_select; eauto. }
  assert (Hb : forall m, clean bp (select m background)).
  { intros m E e He. apply Hbl; auto. eapply in_select; eauto. }
  assert (Lbest : layout best).
  { destruct (Hall _ _ Hok0) as (m & b & th' & _ & _ & E).
    apply (sens_inv br sf sa sw sp bw bp bins alpha mn mx ms mse mex Hnd Hlen Hfin Hsa _ _ _ _ _ (Hs m) (Hb b)) in E. destruct E as (_ & _ & E & _).
    eapply layout_names; [|exact E]. symmetry; exact Hcn. }
  assert (Hbin : forall k, (k < length bins - 1)%nat -> exists r,
    rel1 br sf sw bw bins alpha mn mx ms mse mex (select M signal) (select Bm background) thc th k = Ok r /\
    forall name, In name core_columns -> cell best name k (core_values sf sw bw bins alpha mn mx (select M signal) (select Bm background) thc th k r name)).
  { intros k Hkk. destruct (Hk k Hkk) as (j & s & m & b & th' & _ & Hrow & L1 & L2 & E & A1 & A2 & A3).
    apply (sens_inv br sf sa sw sp bw bp bins alpha mn mx ms mse mex Hnd Hlen Hfin Hsa _ _ _ _ _ (Hs m) (Hb b)) in E. destruct E as (_ & _ & Ls & E).
    destruct (E k Hkk) as (r & Er & Hc).
    destruct (core_local M m Bm b thc th th' k LM L1 LB L2 Hkk A1 A2 A3) as [C1 C2].
    exists r. rewrite C1. split; auto. intros name Hn. rewrite C2.
    eapply (layout_cell s best); auto. apply same_row_sym; auto. }
  destruct (sens_ok br sf sa sw sp bw bp bins alpha mn mx ms mse mex Hnd Hlen Hfin Hsa (select M signal) (select Bm background) thc th (Hs M) (Hb Bm) Hne Hl) as (s' & Es & _ & Hv).
  { intros k Hkk. destruct (Hbin k Hkk) as (r & Er & _). eauto. }
  exists s'. split; auto. intros k name Hkk Hn. destruct (Hbin k Hkk) as (r & Er & Hc). destruct (Hv k Hkk) as (r' & Er' & Hc').
  rewrite Er in Er'. injection Er' as <-. eexists. split; [apply Hc; auto|apply Hc'; auto].
Qed.

Lemma selection_select m b thc th s : length m = length signal -> length b = length background ->
  (sensitivity_of_selection br sf sa sw sp bw bp signal background bins alpha mn mx ms mse mex m b thc th s <->
   selected_sensitivity br sf sa sw sp bw bp bins alpha mn mx ms mse mex (select m signal) (select b background) thc th = Ok s).
Proof.
  intros Lm Lb. split.
  - intros (S & B & sh & bh & K1 & K2 & H1 & H2 & H3). apply kept_select in K1. apply kept_select in K2. subst S B.
    unfold selected_sensitivity. rewrite H1. cbn [rbind]. rewrite H2. cbn [rbind]. auto.
  - unfold selected_sensitivity. intros H. apply rbind_ok in H as (sh & H1 & H). apply rbind_ok in H as (bh & H2 & H).
    eexists _, _, sh, bh. split; [apply select_kept; auto|]. split; [apply select_kept; auto|]. auto.
Qed.

Lemma column_of_length rows j cut : column_of rows j cut -> length cut = length rows.
Proof. unfold column_of. intros H. induction H; cbn; auto. Qed.
Lemma column_of_nth rows j cut k row x : column_of rows j cut -> nth_error rows k = Some row -> nth_error row j = Some x -> nth_error cut k = Some x.
Proof.
  unfold column_of. intros H. revert k. induction H as [|r c rs cs H H' IH]; intros [|k] Hr Hx; cbn in *; try discriminate; eauto.
  injection Hr as ->. congruence.
Qed.

Lemma c29_gh op effs thl thh thc thcut best c :
  optimize_gh_cut br sf sa sw sp bw bp signal background bins alpha mn mx ms mse mex op effs thl thh thc thcut = Ok (best, c) ->
  exists s, sensitivity_of_cuts br sf sa sw sp bw bp signal background bins alpha mn mx ms mse mex op (oc_cut c) thl thh thc thcut s /\
    forall k name, (k < length bins - 1)%nat -> In name core_columns -> exists v, cell best name k v /\ cell s name k v.
Proof.
  intros H. destruct (c27 _ _ _ _ _ _ _ _ _ _ _ _ _ _ _ _ _ _ _ _ _ _ _ _ H)
    as (fill & t & rows & sens & _ & Ht & Erows & _ & _ & _ & Lcut & _ & Lsens & (s0 & Hs0 & Hcn) & Hscan & Hbin).
  destruct (percentile_cut_rows _ _ _ _ _ _ _ _ _ Ht) as (rows' & Erows' & Lrows & _).
  rewrite Erows in Erows'. injection Erows' as <-.
  destruct (Hscan _ _ Hs0) as (cut0 & Hcol0 & m0 & mth & b0 & E1 & Eth & E2 & Hsel0).
  destruct (mask_exists bins (map o_gh signal) (map o_energy signal) (oc_cut c) op Hnd Hlen) as [M EM]; [lia|rewrite !map_length; auto|].
  destruct (mask_exists bins (map o_gh background) (map o_energy background) (oc_cut c) op Hnd Hlen) as [Bm EB]; [lia|rewrite !map_length; auto|].
  assert (LM := binned_length _ _ _ _ _ _ _ _ _ EM). assert (LB := binned_length _ _ _ _ _ _ _ _ _ EB).
  assert (Lth := binned_length _ _ _ _ _ _ _ _ _ Eth). rewrite map_length in LM, LB, Lth.
  assert (Hfull : forall j s, nth_error sens j = Some s -> exists cut m b, column_of rows j cut /\
     evaluate_binned_cut true (map o_gh signal) (raw (map o_energy signal)) (but_last bins) (tl bins) None cut op = Ok m /\
     evaluate_binned_cut true (map o_gh background) (raw (map o_energy background)) (but_last bins) (tl bins) None cut op = Ok b /\
     length m = length signal /\ length b = length background /\
     selected_sensitivity br sf sa sw sp bw bp bins alpha mn mx ms mse mex (select (zipwith andb m mth) signal) (select b background) thc thcut = Ok s).
  { intros j s Hj. destruct (Hscan j s Hj) as (cut & Hcol & m & mth' & b & F1 & F2 & F3 & F4).
    rewrite Eth in F2. injection F2 as <-. exists cut, m, b.
    assert (La := binned_length _ _ _ _ _ _ _ _ _ F1). assert (Lb := binned_length _ _ _ _ _ _ _ _ _ F3). rewrite map_length in La, Lb.
    repeat (split; [solve [auto]|]). apply selection_select; auto. rewrite zipwith_length. lia. }
  assert (Hthc : thc <> [] /\ length thc = length thcut).
  { destruct (Hfull _ _ Hs0) as (cut & m & b & _ & _ & _ & L1 & L2 & E).
    apply (sens_inv br sf sa sw sp bw bp bins alpha mn mx ms mse mex Hnd Hlen Hfin Hsa) in E. tauto.
    - intros E' e He. apply Hsl; auto. eapply in_select; eauto.
    - intros E' e He. apply Hbl; auto. eapply in_select; eauto. }
  destruct (reproduces thc thcut (zipwith andb M mth) Bm best (fun j s => nth_error sens j = Some s) s0) as (s' & Es' & Hv); try tauto; auto.
  - rewrite zipwith_length. lia.
  - intros j s Hj. destruct (Hfull j s Hj) as (cut & m & b & _ & _ & _ & L1 & L2 & E). exists (zipwith andb m mth), b, thcut.
    split; [rewrite zipwith_length; lia|]. auto.
  - intros k Hk. destruct (Hbin k Hk) as (j & vals & s & eff & row & x & Hj & _ & _ & _ & Hrow & _ & _ & Hr & Hx & Hcx).
    destruct (Hfull j s Hj) as (cut & m & b & Hcol & F1 & F2 & L1 & L2 & E).
    pose proof (column_of_length _ _ _ Hcol) as Lcol. pose proof (column_of_nth _ _ _ _ _ _ Hcol Hr Hx) as Hck.
    exists j, s, (zipwith andb m mth), b, thcut. split; auto. split; auto. split; [rewrite zipwith_length; lia|]. split; auto. split; auto.
    split; [|split; auto].
    + intros i e He Hin.
      assert (Ei : nth_error M i = nth_error m i).
      { eapply (mask_local bins (map o_gh signal) (map o_energy signal) (oc_cut c) cut op M m k x); auto; try lia.
        - rewrite !map_length; auto. - rewrite nth_error_map, He. reflexivity. - exact Hin. }
      assert (Hi : (i < length signal)%nat) by (apply nth_lt in He; auto).
      destruct (nth_error_ex M i) as [a Ha]; [lia|]. destruct (nth_error_ex mth i) as [d Hd]; [lia|].
      rewrite (zipwith_nth andb _ _ _ _ _ Ha Hd). rewrite Ha in Ei. symmetry in Ei. rewrite (zipwith_nth andb _ _ _ _ _ Ei Hd). auto.
    + intros i e He Hin. eapply (mask_local bins (map o_gh background) (map o_energy background) (oc_cut c) cut op Bm b k x); auto; try lia.
      * rewrite !map_length; auto. * rewrite nth_error_map, He. reflexivity. * exact Hin.
  - exists s'. split; auto. exists M, mth, Bm. repeat (split; [solve [auto]|]). apply selection_select; auto. rewrite zipwith_length. lia.
Qed.
End C29.
