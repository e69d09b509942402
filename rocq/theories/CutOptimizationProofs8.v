(** * CutOptimizationProofs8: outcome of the optimisers when the background has particle types *)
From Coq Require Import String Reals List Bool ZArith Lia Lra Sorted Permutation.
From Verif Require Import Num Numpy Sort Table Binning Utils Statistics SpecBinning BinningProofs HistProofs BinningProofs2 Percentile Cuts SpecCuts UtilsProofs
  CutsProofs CutsProofs2 SpecSensitivity Sensitivity SensitivityProofs3 SensitivityProofs4 CutOptimization SpecCutOptimization
  CutOptimizationProofs CutOptimizationProofs2 CutOptimizationProofs3 CutOptimizationProofs4 CutOptimizationProofs5 CutOptimizationProofs6 SpecParticles CutOptimizationProofs7.
Import ListNotations.
Open Scope R_scope.

(** ** assembling tables of any width *)
Definition filled (nb : nat) (t : table) : Prop := forall p, In p t -> (nb <= length (col_nums (snd p)))%nat.
Definition scanned_ok (nb : nat) (t : table) : Prop := numeric t /\ filled nb t /\ exists c, getitem t "relative_sensitivity" = Some c.
Lemma row_any nb s k : filled nb s -> (k < nb)%nat -> exists row, row_at s k = Ok row /\ length row = length s.
Proof.
  intros Hl Hk. unfold row_at. destruct (rmap_ok (fun p => np_index (col_nums (snd p)) (Z.of_nat k)) s) as (r & E & Lr & _).
  { intros p Hp. destruct (np_index_ok (col_nums (snd p)) k) as (a & Ha & _); [pose proof (Hl p Hp); lia|eauto]. }
  exists r. split; [exact E|lia].
Qed.
Lemma set_any nb t k row : filled nb t -> length row = length t -> (k < nb)%nat ->
  exists t', set_row t k row = Ok t' /\ length t' = length t /\ filled nb t'.
Proof.
  intros Hl Lr Hk. unfold set_row. rewrite Lr, Nat.eqb_refl. cbn [negb].
  assert (Ef : forallb (fun p => Nat.ltb k (length (col_nums (snd p)))) t = true).
  { apply forallb_forall. intros p Hp. apply Nat.ltb_lt. pose proof (Hl p Hp). lia. }
  rewrite Ef. eexists. split; [reflexivity|]. split; [rewrite zipwith_length; lia|].
  clear Lr Ef. revert row. unfold filled in *. induction t as [|a t IH]; intros [|v row] p Hp; cbn [zipwith] in Hp; try destruct Hp.
  - subst p. cbn [snd col_nums]. rewrite list_set_length. apply Hl; left; auto.
  - eapply IH; eauto. intros; apply Hl; right; auto.
Qed.
Lemma set_narrow t k row : length row <> length t -> set_row t k row = Err ValueError.
Proof. intros H. unfold set_row. destruct (Nat.eqb_spec (length t) (length row)); [congruence|reflexivity]. Qed.
Lemma assemble_any nb sens : (forall s, In s sens -> filled nb s) -> forall best i t,
  (forall b, In b best -> (b < length sens)%nat) -> (i + length best <= nb)%nat -> filled nb t ->
  ((exists t', assemble sens best i t = Ok t') /\ (forall b s, In b best -> nth_error sens b = Some s -> length s = length t)) \/
  (assemble sens best i t = Err ValueError /\ exists b s, In b best /\ nth_error sens b = Some s /\ length s <> length t).
Proof.
  intros Hr. induction best as [|b best IH]; intros i t Hb Hi Hl. { left. split; [eexists; reflexivity|intros b s []]. }
  cbn [length] in Hi. cbn [assemble].
  destruct (np_index_ok sens b) as (s & E & Hs); [apply Hb; left; auto|]. rewrite E. cbn [rbind].
  destruct (row_any nb s i (Hr s (nth_error_In _ _ Hs))) as (row & Er & Lr); [lia|]. rewrite Er. cbn [rbind].
  destruct (Nat.eq_dec (length s) (length t)) as [L|L].
  - destruct (set_any nb t i row Hl) as (t' & Et & L' & Hl'); [lia|lia|]. rewrite Et. cbn [rbind].
    destruct (IH (S i) t') as [[Ho Hw]|(He & b' & s' & Hb' & Hs' & Hn)]; auto; try lia. { intros; apply Hb; right; auto. }
    + left. split; auto. intros b' s' [<-|Hb'] Hs'; [congruence|]. rewrite <- L'. eauto.
    + right. split; auto. exists b', s'. split; [right; auto|]. split; auto. congruence.
  - right. rewrite set_narrow by lia. cbn [rbind]. split; auto. exists b, s. split; [left; auto|auto].
Qed.
Lemma colnames_length (t : table) : length (colnames t) = length t.
Proof. unfold colnames. apply map_length. Qed.
Lemma best_any nb sens k : sens <> [] -> (forall s, In s sens -> scanned_ok nb s) -> (k < nb)%nat ->
  exists b, best_of_bin sens k = Ok b /\ (b < length sens)%nat.
Proof.
  intros Hne Hr Hk. unfold best_of_bin.
  destruct (rmap_ok (fun s => do c <- get_col s "relative_sensitivity"%string; np_index (col_nums c) (Z.of_nat k)) sens) as (vs & E & L & _).
  { intros s Hs. destruct (Hr s Hs) as (_ & Hl & c & Hc). unfold get_col. rewrite Hc. cbn [rbind].
    destruct (np_index_ok (col_nums c) k) as (a & Ha & _).
    { apply (Nat.lt_le_trans _ nb); auto. apply (Hl ("relative_sensitivity"%string, c)).
      apply getitem_entry, Hc. }
    eauto. }
  rewrite E. cbn [rbind]. eexists. split; [reflexivity|]. assert (vs <> []) by (intros ->; destruct sens; [congruence|discriminate]).
  pose proof (chosen_lt vs H) as Hc. unfold chosen in Hc. unfold table in *. rewrite L in Hc. exact Hc.
Qed.
Lemma finish_any nb sens s0 rest : sens = s0 :: rest -> (forall s, In s sens -> scanned_ok nb s) ->
  exists best, rmap (best_of_bin sens) (seq 0 nb) = Ok best /\ chosen_scans sens nb best /\
    ((as_wide_as_first sens best /\ exists bst, assemble sens best 0 s0 = Ok bst) \/
     (~ as_wide_as_first sens best /\ assemble sens best 0 s0 = Err ValueError)).
Proof.
  intros Es Hr. assert (Hne : sens <> []) by (rewrite Es; discriminate).
  destruct (rmap_ok (best_of_bin sens) (seq 0 nb)) as (best & Eb & Lb & Nb).
  { intros k Hk. apply in_seq in Hk. destruct (best_any nb sens k Hne Hr) as (b & Hb & _); [lia|eauto]. }
  rewrite seq_length in Lb.
  assert (Hk : forall k j, nth_error best k = Some j -> best_of_bin sens k = Ok j /\ (j < length sens)%nat).
  { intros k j Hj. assert (Hil : (k < nb)%nat) by (apply nth_lt in Hj; lia).
    destruct (Nb k k) as (b' & Hb' & E'). { apply seq_nth_error; auto. } rewrite Hj in Hb'. injection Hb' as <-. split; auto.
    destruct (best_any nb sens k Hne Hr Hil) as (b'' & E'' & Hlt). congruence. }
  assert (Hlt : forall b, In b best -> (b < length sens)%nat) by (intros b Hb; apply In_nth_error in Hb as [i Hi]; apply (Hk i b Hi)).
  exists best. split; auto. split.
  { split; auto. intros k j Hj. destruct (Hk k j Hj) as [Hbest Hl]. split; auto.
    destruct (best_of_bin_spec sens k j Hbest) as (vals & Lv & -> & HH). exists vals. split; auto. split.
    - intros i s v Hs Hv. destruct (HH i s Hs) as (v' & c & Hv' & Hc & Hn). rewrite Hv in Hv'. injection Hv' as <-.
      exists c. split; auto. apply nums_entry; auto. eapply numeric_get; eauto. apply (Hr s (nth_error_In _ _ Hs)).
    - apply chosen_total. intros ->. cbn in Lv. rewrite Es in Lv. discriminate. }
  assert (H0 : nth_error sens 0 = Some s0) by (rewrite Es; reflexivity).
  destruct (assemble_any nb sens (fun s Hs => proj1 (proj2 (Hr s Hs))) best 0 s0 Hlt) as [[Ho Hw]|(He & b & s & Hb & Hs & Hn)]; [lia| | |].
  - apply Hr. rewrite Es; left; auto.
  - left. split; auto. intros k j s s0' Hj Hs H0'. rewrite H0 in H0'. injection H0' as <-. rewrite !colnames_length.
    apply (Hw j s); auto. eapply nth_error_In; eauto.
  - right. split; auto. intros Hw. apply Hn. apply In_nth_error in Hb as [k Hk']. rewrite <- !colnames_length. eapply Hw; eauto.
Qed.

(** ** every column of a scanned table is complete *)
Lemma nodup_get {A} (t : list (string * A)) n c : NoDup (colnames t) -> In (n, c) t -> getitem t n = Some c.
Proof.
  induction t as [|[m x] t IH]; intros Hn Hp; [destruct Hp|]. cbn in Hn. inversion Hn; subst. cbn [getitem].
  destruct (String.eqb_spec n m) as [->|Hm]; destruct Hp as [Hp|Hp]; try congruence; auto.
  exfalso. apply H1. apply (in_map fst _ _ Hp).
Qed.
Lemma copy_columns_get bkg names : forall s t, copy_columns bkg names s = Ok t -> forall n c, getitem t n = Some c ->
  getitem s n = Some c \/ getitem bkg n = Some c.
Proof.
  induction names as [|k names IH]; intros s t H n c Hg; cbn [copy_columns] in H; [injection H as <-; auto|].
  apply rbind_ok in H as (x & Hx & H). destruct (IH _ _ H n c Hg) as [G|G]; auto.
  destruct (string_dec n k) as [->|Hn].
  - rewrite getitem_setitem_eq in G. unfold get_col in Hx. destruct (getitem bkg k); [|discriminate]. right. congruence.
  - rewrite getitem_setitem_neq in G by auto. auto.
Qed.
Lemma copy_edges_get sig ks : forall s t, copy_edges sig ks s = Ok t -> forall n c, getitem t n = Some c ->
  getitem s n = Some c \/ In n (map (fun k => "reco_energy_" ++ k)%string ks).
Proof.
  induction ks as [|k ks IH]; intros s t H n c Hg; cbn [copy_edges] in H; [injection H as <-; auto|].
  apply rbind_ok in H as (x & Hx & H). destruct (IH _ _ H n c Hg) as [G|G]; [|right; right; auto].
  destruct (string_dec n ("reco_energy_" ++ k)) as [->|Hn]; [right; left; auto|].
  rewrite getitem_setitem_neq in G by auto. auto.
Qed.
Lemma set_get {A} (t : list (string * A)) k x n c : getitem (setitem t k x) n = Some c -> n = k \/ getitem t n = Some c.
Proof. destruct (string_dec n k) as [->|Hn]; auto. rewrite getitem_setitem_neq by auto. auto. Qed.
Lemma calc_get br sf sa sig bkg a s m e t : calculate_sensitivity br sf sa sig bkg a s m e = Ok t ->
  forall n c, getitem t n = Some c -> In n core_columns \/ getitem bkg n = Some c.
Proof.
  intros H n c Hg. unfold calculate_sensitivity in H. unbind H. injection H as <-.
  apply set_get in Hg as [->|Hg]; [left; cbn; tauto|]. apply set_get in Hg as [->|Hg]; [left; cbn; tauto|].
  match goal with E : copy_columns _ _ _ = Ok _ |- _ => destruct (copy_columns_get _ _ _ _ E _ _ Hg) as [G|G]; auto end.
  do 4 (apply set_get in G as [->|G]; [left; cbn; tauto|]).
  match goal with E : copy_edges _ _ _ = Ok _ |- _ => destruct (copy_edges_get _ _ _ _ E _ _ G) as [G'|G'] end; [discriminate|].
  left. cbn in G' |- *. tauto.
Qed.
Lemma copy_columns_nodup bkg names : forall s t, copy_columns bkg names s = Ok t -> NoDup (colnames s) -> NoDup (colnames t).
Proof.
  induction names as [|k names IH]; intros s t H Hn; cbn [copy_columns] in H; [injection H as <-; auto|].
  apply rbind_ok in H as (x & Hx & H). eapply IH; eauto. apply setitem_nodup; auto.
Qed.
Lemma copy_edges_nodup sig ks : forall s t, copy_edges sig ks s = Ok t -> NoDup (colnames s) -> NoDup (colnames t).
Proof.
  induction ks as [|k ks IH]; intros s t H Hn; cbn [copy_edges] in H; [injection H as <-; auto|].
  apply rbind_ok in H as (x & Hx & H). eapply IH; eauto. apply setitem_nodup; auto.
Qed.
Lemma calc_nodup br sf sa sig bkg a s m e t : calculate_sensitivity br sf sa sig bkg a s m e = Ok t -> NoDup (colnames t).
Proof.
  intros H. unfold calculate_sensitivity in H. unbind H. injection H as <-. do 2 apply setitem_nodup.
  match goal with E : copy_columns _ _ _ = Ok _ |- _ => eapply copy_columns_nodup; [exact E|] end. do 4 apply setitem_nodup.
  match goal with E : copy_edges _ _ _ = Ok _ |- _ => eapply copy_edges_nodup; [exact E|constructor] end.
Qed.
Lemma scale_length names ratio a L : length ratio = L -> forall t t', scale_columns names ratio a t = Ok t' -> all_length t L -> all_length t' L.
Proof.
  intros Lr. induction names as [|n names IH]; intros t t' H Ht; cbn [scale_columns] in H; [injection H as <-; auto|].
  apply rbind_ok in H as (c & Hc & H). apply rbind_ok in H as (m & Hm & H). eapply IH; [exact H|]. apply all_length_set; auto.
  unfold get_col in Hc. destruct (getitem t n) eqn:G; [|discriminate]. injection Hc as ->. pose proof (Ht n c G) as Lc.
  rewrite np_zip_eq in Hm by lia. injection Hm as <-. cbn [col_nums]. rewrite map_length, zipwith_length. lia.
Qed.
Lemma selected_nodup br sf sa sw sp bw bp bins a mn mx ms mse mex s1 s2 c1 c2 t :
  selected_sensitivity br sf sa sw sp bw bp bins a mn mx ms mse mex s1 s2 c1 c2 = Ok t -> NoDup (colnames t).
Proof.
  unfold selected_sensitivity. intros H. apply rbind_ok in H as (sh & Hs & H). apply rbind_ok in H as (bh & Hb & H). eapply calc_nodup; eauto.
Qed.

Section Outcome.
Variables (br : (R -> num) -> R -> R -> res R) (sf : num -> num -> num -> num)
  (sa : list num -> list num -> num -> res (list num)) (sw sp bw bp : bool)
  (signal background : list opt_event) (bins : list num) (alpha mn mx : R) (ms mse mex : num).
Hypotheses (Hris : rising bins) (Hlen : (2 <= length bins)%nat)
  (Hbr : forall f x y ex, br f x y = Err ex -> ex = ValueError \/ ex = RuntimeError)
  (Hsa : forall on off, length on = length off -> sa on off (Fin alpha) = Ok (zipwith (fun x y => sf x y (Fin alpha)) on off))
  (Hsl : sp = true -> forall e, In e signal -> ev_p (o_ev e) <> "weighted"%string) (Hcl : clean_labels bp background)
  (Hws : forall e, In e signal -> 0 <= ev_w (o_ev e)) (Hwb : forall e, In e background -> 0 <= ev_w (o_ev e))
  (Ha : 0 < alpha) (Hmn : 0 <= mn) (Hmx : mn < mx) (Hpi : mx <= PI).
Let Hnd : nondecreasing bins := rising_nondecreasing bins Hris.
Let Hfin : forall k lo hi, nth_error bins k = Some lo -> nth_error bins (S k) = Some hi -> exists r, lo = Fin r \/ hi = Fin r := proj2 (proj2 Hris).

Lemma scan_any S B thc thcut : (forall e, In e S -> In e signal) -> (forall e, In e B -> In e background) ->
  thc <> [] -> length thc = length thcut ->
  exists s, selected_sensitivity br sf sa sw sp bw bp bins (Fin alpha) (Fin mn) (Fin mx) ms mse mex S B thc thcut = Ok s /\
    scanned_ok (length bins - 1) s.
Proof.
  intros HS HB Hne Hl.
  destruct (sens_ok br sf sa sw sp bw bp bins (Fin alpha) (Fin mn) (Fin mx) ms mse mex Hnd Hlen Hfin Hsa S B thc thcut) as (s & E & _ & Hc); auto.
  { intros Hp e He. apply Hcl; auto. }
  { intros k Hk. apply (rel1_total br sf sw bw signal background bins alpha mn mx ms mse mex); auto. }
  exists s. split; auto. pose proof (selected_nodup _ _ _ _ _ _ _ _ _ _ _ _ _ _ _ _ _ _ _ E) as Nd.
  assert (Hbne : bins <> []) by (intros Eb; rewrite Eb in Hlen; cbn in Hlen; lia).
  split; [eapply selected_numeric; eauto|]. split.
  - intros [n c] Hp. cbn [snd]. pose proof (nodup_get s n c Nd Hp) as G.
    assert (E' := E). unfold selected_sensitivity in E'. apply rbind_ok in E' as (sh & _ & E'). apply rbind_ok in E' as (bh & Hbh & E').
    destruct (calc_get _ _ _ _ _ _ _ _ _ _ E' n c G) as [Hin|Gb].
    + destruct (Hc (length bins - 2)%nat) as (r & _ & Hcell); [lia|]. specialize (Hcell n Hin). apply cell_length in Hcell as (c' & Hg & Hlt).
      rewrite G in Hg. injection Hg as <-. lia.
    + assert (AL : all_length bh (length bins - 1)).
      { unfold estimate_background in Hbh. rewrite create_histogram_table_ok in Hbh by auto. cbn [rbind] in Hbh. apply rbind_ok in Hbh as (ti & Hti & Hbh).
        eapply scale_length; [|exact Hbh|apply hist_table_length; auto]. rewrite !map_length.
        unfold np_interp in Hti. destruct thc; [congruence|]. destruct (Nat.eqb _ _); [|discriminate]. injection Hti as <-. rewrite map_length.
        apply center_len. }
      rewrite (AL n c Gb). lia.
  - destruct (Hc 0%nat) as (r & _ & Hcell); [lia|]. destruct (Hcell "relative_sensitivity"%string) as (c & Hg & _); [cbn; tauto|eauto].
Qed.

Lemma gh_outcome (op : num -> num -> bool) effs thl thh thc thcut :
  thc <> [] -> length thc = length thcut ->
  (exists sel, evaluate_binned_cut true (map o_theta signal) (raw (map o_energy signal)) thl thh None thcut nle = Ok sel) ->
  effs <> [] -> (forall e, In e effs -> 0 <= e <= 1) ->
  (exists e k, In e signal /\ in_bin bins k (o_energy e)) ->
  exists fill t rows sens choice,
    (if op (Fin (-1)) (Fin 1) then smallest_of (map o_gh signal) fill else largest_of (map o_gh signal) fill) /\
    calculate_percentile_cut false (raw (map o_gh signal)) (raw (map o_energy signal)) (raw bins) (plain fill)
      (PList (map (fun e => if op (Fin (-1)) (Fin 1) then 100 * e else 100 * (1 - e)) effs)) None None None 10 = Ok t /\
    ct_cut t = Cut2 rows /\ length sens = length effs /\
    (forall j s, nth_error sens j = Some s -> exists cut, column_of rows j cut /\
       sensitivity_of_cuts br sf sa sw sp bw bp signal background bins (Fin alpha) (Fin mn) (Fin mx) ms mse mex op cut thl thh thc thcut s) /\
    chosen_scans sens (length bins - 1) choice /\
    ((as_wide_as_first sens choice /\ exists best c, optimize_gh_cut br sf sa sw sp bw bp signal background bins (Fin alpha) (Fin mn) (Fin mx) ms mse mex
        op effs thl thh thc thcut = Ok (best, c)) \/
     (~ as_wide_as_first sens choice /\ optimize_gh_cut br sf sa sw sp bw bp signal background bins (Fin alpha) (Fin mn) (Fin mx) ms mse mex
        op effs thl thh thc thcut = Err ValueError)).
Proof.
  intros Hne Hl (sel & Esel) Heffs Heff (e0 & k0 & He0 & Hb0).
  set (ps := map (fun e : R => if op (Fin (-1)) (Fin 1) then 100 * e else 100 * (1 - e)) effs).
  assert (Hfill : exists fill, (if op (Fin (-1)) (Fin 1) then np_min (map o_gh signal) else np_max (map o_gh signal)) = Ok fill).
  { destruct signal as [|s l]; [destruct He0|]. destruct (op _ _); eexists; reflexivity. }
  destruct Hfill as [fill Efill].
  destruct (c12_list (map o_gh signal) (map o_energy signal) bins fill ps None None 10) as (t & rows & Et & Er & Lr & Hr & _); auto.
  { rewrite !map_length; auto. }
  { intros p Hp. unfold ps in Hp. apply in_map_iff in Hp as (e & <- & He). pose proof (Heff e He). destruct (op _ _); lra. }
  { exists (o_energy e0), k0. split; auto. apply in_map; auto. }
  destruct (percentile_cut_edges _ _ _ _ _ _ _ _ _ _ Et) as (Elo & Ehi & _). cbn [a_val raw] in Elo, Ehi.
  destruct (rmap_ok (gh_scan br sf sa sw sp bw bp signal background bins (Fin alpha) (Fin mn) (Fin mx) ms mse mex op sel thc thcut t) (seq 0 (length effs))) as (sens & Es & Ls & Ns).
  { intros j Hj. unfold gh_scan. rewrite Elo, Ehi.
    destruct (mask_exists bins (map o_gh signal) (map o_energy signal) (cut_col (cut_rows t) j) op Hnd Hlen) as [m Em]; [|rewrite !map_length; auto|].
    { unfold cut_col, cut_rows. rewrite Er, map_length. lia. }
    destruct (mask_exists bins (map o_gh background) (map o_energy background) (cut_col (cut_rows t) j) op Hnd Hlen) as [b Eb]; [|rewrite !map_length; auto|].
    { unfold cut_col, cut_rows. rewrite Er, map_length. lia. }
    unfold raw in Em, Eb. rewrite Em. cbn [rbind]. rewrite Eb. cbn [rbind].
    destruct (scan_any (select (mask_and m sel) signal) (select b background) thc thcut) as (s & Hs & _); eauto; intros e He; eapply in_select; eauto. }
  rewrite seq_length in Ls.
  assert (Hreg : forall s, In s sens -> scanned_ok (length bins - 1) s).
  { intros s Hs. apply In_nth_error in Hs as [j Hj]. destruct (Ns j j) as (s' & Hs' & E'). { apply seq_nth_error. apply nth_lt in Hj. lia. }
    rewrite Hj in Hs'. injection Hs' as <-. unfold gh_scan in E'. apply rbind_ok in E' as (m & _ & E'). apply rbind_ok in E' as (b & _ & E').
    destruct (scan_any (select (mask_and m sel) signal) (select b background) thc thcut) as (s' & Hs' & Hg); eauto; try (intros e He; eapply in_select; eauto).
    rewrite E' in Hs'. injection Hs' as <-. auto. }
  destruct sens as [|s0 rest] eqn:E0. { destruct effs; [congruence|discriminate]. } rewrite <- E0 in *.
  destruct (finish_any (length bins - 1) sens s0 rest E0 Hreg) as (best & Eb & Hch & Hout).
  exists fill, t, rows, sens, best. split; [exact (fill_extreme _ _ _ Efill)|]. split; [exact Et|]. split; auto. split; auto. split; [|split; auto].
  - intros j s Hj. destruct (Ns j j) as (s' & Hs' & E'). { apply seq_nth_error. apply nth_lt in Hj. lia. }
    rewrite Hj in Hs'. injection Hs' as <-. assert (Hjl : (j < length ps)%nat) by (unfold ps; rewrite map_length; apply nth_lt in Hj; lia).
    exists (cut_col rows j). eapply (gh_scan_spec br sf sa sw sp bw bp signal background bins (Fin alpha) (Fin mn) (Fin mx) ms mse mex); eauto.
  - unfold optimize_gh_cut. unfold raw in Esel. rewrite Esel. cbn [rbind]. rewrite Efill. cbn [rbind]. fold ps.
    unfold raw, plain, plaino in Et. rewrite Et. cbn [rbind]. rewrite Es. cbn [rbind]. rewrite E0. rewrite <- E0.
    destruct Hout as [[Hw [bst Ea]]|[Hw Ea]].
    + left. split; auto. rewrite Eb. cbn [rbind]. rewrite Ea. cbn [rbind]. eauto.
    + right. split; auto. rewrite Eb. cbn [rbind]. rewrite Ea. reflexivity.
Qed.

Lemma cuts_outcome mults gh_eff theta_eff tmin tmax :
  mults <> [] -> gh_eff <> [] -> theta_eff <> [] ->
  (forall e, In e gh_eff -> 0 <= e <= 1) -> (forall e, In e theta_eff -> 0 <= e <= 1) ->
  (forall m, In m mults -> exists e k, In e signal /\ nle m (o_mult e) = true /\ in_bin bins k (o_energy e)) ->
  exists fill combos sens choice,
    largest_of (map o_gh signal) fill /\
    combos = list_prod (list_prod (seq 0 (length mults)) (seq 0 (length gh_eff))) (seq 0 (length theta_eff)) /\
    length sens = length combos /\
    (forall i mi gi ti s, nth_error combos i = Some (mi, gi, ti) -> nth_error sens i = Some s ->
       exists m ght tht rg rt gcut tcut, nth_error mults mi = Some m /\
         percentile_grids signal bins fill gh_eff theta_eff tmin tmax m ght tht rg rt /\
         column_of rg gi gcut /\ column_of rt ti tcut /\
         sensitivity_of_all_cuts br sf sa sw sp bw bp signal background bins (Fin alpha) (Fin mn) (Fin mx) ms mse mex
           (enough_telescopes m signal) (enough_telescopes m background) gcut tcut s) /\
    chosen_scans sens (length bins - 1) choice /\
    ((as_wide_as_first sens choice /\ exists best mult_out tc gc, optimize_cuts br sf sa sw sp bw bp signal background bins (Fin alpha) (Fin mn) (Fin mx) ms mse mex
        mults gh_eff theta_eff tmin tmax = Ok (best, mult_out, tc, gc)) \/
     (~ as_wide_as_first sens choice /\ optimize_cuts br sf sa sw sp bw bp signal background bins (Fin alpha) (Fin mn) (Fin mx) ms mse mex
        mults gh_eff theta_eff tmin tmax = Err ValueError)).
Proof.
  intros Hm Hg Ht Hge Hte Hev. unfold optimize_cuts.
  assert (Hsne : exists s l, signal = s :: l).
  { destruct mults as [|m ml]; [congruence|]. destruct (Hev m (or_introl eq_refl)) as (e & _ & He & _). destruct signal; [destruct He|eauto]. }
  assert (Hfill : exists fill, np_max (map o_gh signal) = Ok fill) by (destruct Hsne as (s & l & ->); eexists; reflexivity).
  destruct Hfill as [fill Efill]. rewrite Efill. cbn [rbind].
  assert (Hbne : bins <> []) by (intros E; rewrite E in Hlen; cbn in Hlen; lia).
  destruct (bin_indices_inc (map o_energy signal) bins Hnd Hbne) as (i1 & v1 & E1 & L1 & L1' & O1).
  destruct (bin_indices_inc (map o_energy background) bins Hnd Hbne) as (i2 & v2 & E2 & L2 & L2' & O2).
  rewrite E1. cbn [rbind]. rewrite E2. cbn [rbind].
  pose proof (center_len bins) as Lc.
  assert (Hcne : bin_center bins <> []) by (intros E; rewrite E in Lc; cbn in Lc; lia).
  assert (Hms : forall mi m, In m mults -> exists g, mult_scan br sf sa sw sp bw bp signal background bins (Fin alpha) (Fin mn) (Fin mx) ms mse mex
     (i1, v1) (i2, v2) fill gh_eff theta_eff tmin tmax mi m = Ok g /\ (forall p t, In (p, t) (snd g) -> scanned_ok (length bins - 1) t) /\ snd g <> []).
  { intros mi m Him. destruct (Hev m Him) as (e & k & He & Hme & Hbe). unfold mult_scan.
    set (sel := select (map (fun e => nge (o_mult e) m) signal) signal).
    assert (Hsel : In e sel).
    { unfold sel. clear -He Hme. induction signal as [|a l IH]; [destruct He|]. cbn [map]. rewrite select_cons. apply in_or_app. destruct He as [->|He].
      - left. unfold nge. rewrite Hme. left; auto. - right. auto. }
    destruct (c12_list (map o_gh sel) (map o_energy sel) bins fill (map (fun e => 100 * (1 - e)) gh_eff) None None 10) as (gt & rg & Eg & Erg & Lrg & _); auto.
    { rewrite !map_length; auto. } { intros p Hp. apply in_map_iff in Hp as (x & <- & Hx). pose proof (Hge x Hx). lra. }
    { exists (o_energy e), k. split; auto. apply in_map; auto. }
    destruct (c12_list (map o_theta sel) (map o_energy sel) bins tmax (map (fun e => 100 * e) theta_eff) (Some tmin) (Some tmax) 10) as (tt & rt & Et & Ert & Lrt & _); auto.
    { rewrite !map_length; auto. } { intros p Hp. apply in_map_iff in Hp as (x & <- & Hx). pose proof (Hte x Hx). lra. }
    { exists (o_energy e), k. split; auto. apply in_map; auto. }
    destruct (percentile_cut_edges _ _ _ _ _ _ _ _ _ _ Et) as (_ & _ & Ec).
    unfold raw, plain, plaino in *. rewrite Eg. cbn [rbind]. unfold plain in Et. rewrite Et. cbn [rbind].
    assert (Hscan : forall gi ti, exists t, cuts_scan br sf sa sw sp bw bp signal background bins (Fin alpha) (Fin mn) (Fin mx) ms mse mex
       (i1, v1) (i2, v2) m gt tt gi ti = Ok t /\ scanned_ok (length bins - 1) t).
    { intros gi ti. unfold cuts_scan.
      assert (Lg : length (cut_col (cut_rows gt) gi) = (length bins - 1)%nat) by (unfold cut_col, cut_rows; rewrite Erg, map_length; auto).
      assert (Lt : length (cut_col (cut_rows tt) ti) = (length bins - 1)%nat) by (unfold cut_col, cut_rows; rewrite Ert, map_length; auto).
      destruct (mask_exists bins (map o_theta signal) (map o_energy signal) (cut_col (cut_rows tt) ti) nle Hnd Hlen) as [m1 M1]; [lia|rewrite !map_length; auto|].
      destruct (mask_exists bins (map o_gh signal) (map o_energy signal) (cut_col (cut_rows gt) gi) nge Hnd Hlen) as [m2 M2]; [lia|rewrite !map_length; auto|].
      destruct (mask_exists bins (map o_gh background) (map o_energy background) (cut_col (cut_rows gt) gi) nge Hnd Hlen) as [m3 M3]; [lia|rewrite !map_length; auto|].
      rewrite (eval_bins _ _ _ _ _ _ Hlen E1) in M1. rewrite (eval_bins _ _ _ _ _ _ Hlen E1) in M2. rewrite (eval_bins _ _ _ _ _ _ Hlen E2) in M3.
      rewrite M1. cbn [rbind]. rewrite M2. cbn [rbind]. rewrite M3. cbn [rbind]. cbn [a_val] in Ec. rewrite Ec.
      apply scan_any; auto; try lia; intros x Hx; eapply in_select; eauto. }
    match goal with |- context [rmap ?f ?l] => destruct (rmap_ok f l) as (sc & Esc & Lsc & Nsc) end.
    { intros [gi ti] _. destruct (Hscan gi ti) as (t & Ets & _). cbn [fst snd]. rewrite Ets. cbn [rbind]. eauto. }
    rewrite Esc. cbn [rbind]. eexists. split; [reflexivity|]. cbn [snd]. split.
    - intros p t Hpt. apply In_nth_error in Hpt as [i Hi].
      destruct (nth_error_ex (gh_theta_pairs (length gh_eff) (length theta_eff)) i) as [[gi ti] Hp]. { apply nth_lt in Hi. lia. }
      destruct (Nsc i _ Hp) as (x & Hx & Ex). rewrite Hi in Hx. injection Hx as <-. cbn [fst snd] in Ex.
      destruct (Hscan gi ti) as (t' & Ets & Hreg). rewrite Ets in Ex. cbn [rbind] in Ex. injection Ex as _ <-. auto.
    - intros ->. rewrite pairs_prod, prod_length, !seq_length in Lsc. destruct gh_eff, theta_eff; cbn in Lsc; congruence || lia. }
  match goal with |- context [rmap ?f (combine ?a ?b)] => destruct (rmap_ok f (combine a b)) as (grids & Egr & Lgr & Ngr) end.
  { intros [mi m] Hin. apply in_combine_r in Hin. cbn [fst snd]. destruct (Hms mi m Hin) as (g & Hgo & _). eauto. }
  rewrite Egr. cbn [rbind]. rewrite combine_length, seq_length, Nat.min_id in Lgr.
  assert (Hgr : forall i g, nth_error grids i = Some g -> (forall p t, In (p, t) (snd g) -> scanned_ok (length bins - 1) t /\ p_mult p = i) /\ snd g <> []).
  { intros i g Hi. destruct (nth_error_ex mults i) as [m Hmi]. { apply nth_lt in Hi. lia. }
    destruct (Ngr i (i, m)) as (g' & Hg' & Eg'). { apply nth_combine; auto. apply seq_nth_error. apply nth_lt in Hmi; auto. }
    rewrite Hi in Hg'. injection Hg' as <-. cbn [fst snd] in Eg'. destruct (Hms i m (nth_error_In _ _ Hmi)) as (g2 & Eg2 & R1 & R2).
    assert (g2 = g) by congruence. subst g2. split; auto. intros p t Hpt. split; [eapply R1; eauto|].
    destruct g as [[gt tt] sc]. destruct (mult_scan_spec _ _ _ _ _ _ _ _ _ _ _ _ _ _ _ _ Hlen _ _ _ _ _ _ _ _ _ _ _ _ E1 E2 Eg') as (_ & rg & rt & _ & _ & _ & _ & _ & HH).
    apply (HH p t Hpt). }
  set (scanned := flat_map (fun g => snd g) grids).
  assert (Hreg : forall p t, In (p, t) scanned -> scanned_ok (length bins - 1) t /\ (p_mult p < length grids)%nat).
  { intros p t Hin. apply in_flat_map in Hin as (g & Hgi & Hin). apply In_nth_error in Hgi as [i Hi]. destruct (Hgr i g Hi) as [HH _].
    destruct (HH p t Hin) as [R ->]. split; auto. apply nth_lt in Hi; auto. }
  destruct (map snd scanned) as [|s0 rest] eqn:Es.
  { exfalso. destruct grids as [|g gs]. { destruct mults; [congruence|discriminate]. } destruct (Hgr 0%nat g eq_refl) as [_ Hn].
    unfold scanned in Es. cbn [flat_map] in Es. destruct (snd g); [congruence|discriminate]. }
  set (combos := list_prod (list_prod (seq 0 (length mults)) (seq 0 (length gh_eff))) (seq 0 (length theta_eff))).
  assert (Hfst : map fst scanned = map (fun p => mkPoint (fst (fst p)) (snd p) (snd (fst p))) combos).
  { unfold combos. rewrite prod3. unfold scanned.
    assert (G : forall ml l gs, length ml = length l -> rmap (fun p => mult_scan br sf sa sw sp bw bp signal background bins (Fin alpha) (Fin mn) (Fin mx) ms mse mex (i1, v1) (i2, v2) fill gh_eff theta_eff tmin tmax (fst p) (snd p)) (combine l ml) = Ok gs ->
      map fst (flat_map (fun g => snd g) gs) =
      flat_map (fun m => map (fun p => mkPoint m (snd p) (fst p)) (list_prod (seq 0 (length gh_eff)) (seq 0 (length theta_eff)))) l).
    { intros ml l; revert ml. induction l as [|x l IH]; intros [|m ml] gs L E; try discriminate; cbn [combine rmap] in E.
      - injection E as <-. auto.
      - apply rbind_ok in E as ([[g t] sc] & E1' & E). apply rbind_ok in E as (gs' & E2' & E). injection E as <-.
        cbn [flat_map snd]. rewrite map_app. destruct (mult_scan_spec _ _ _ _ _ _ _ _ _ _ _ _ _ _ _ _ Hlen _ _ _ _ _ _ _ _ _ _ _ _ E1 E2 E1') as [E3 _].
        rewrite E3. cbn [fst]. f_equal. apply (IH ml); auto. }
    apply (G mults). - rewrite seq_length; auto. - exact Egr. }
  rewrite <- Es. destruct (finish_any (length bins - 1) (map snd scanned) s0 rest Es) as (best & Eb & Hch & Hout).
  { intros s Hs. apply in_map_iff in Hs as ([p t] & <- & Hin). apply (Hreg p t Hin). }
  exists fill, combos, (map snd scanned), best. split; [exact (np_max_largest _ _ Efill)|]. split; auto.
  split. { rewrite map_length, <- (map_length fst), Hfst, map_length. auto. }
  split.
  { intros i mi gi ti s Hc Hs. rewrite nth_error_map in Hs. destruct (nth_error scanned i) as [[p t]|] eqn:E; [|discriminate]. injection Hs as <-. cbn [snd].
    assert (Ep : nth_error (map fst scanned) i = Some p) by (rewrite nth_error_map, E; auto).
    rewrite Hfst, nth_error_map, Hc in Ep. injection Ep as Ep.
    apply nth_error_In in E. unfold scanned in E. apply in_flat_map in E as ([[gt tt] sc] & Hgi & Hin). apply In_nth_error in Hgi as [mi' Hgi].
    destruct (nth_error_ex mults mi') as [m Hmi]. { apply nth_lt in Hgi. lia. }
    destruct (Ngr mi' (mi', m)) as (g' & Hg' & Eg'). { apply nth_combine; auto. apply seq_nth_error. apply nth_lt in Hmi; auto. }
    rewrite Hgi in Hg'. injection Hg' as <-. cbn [fst snd] in Eg'.
    destruct (mult_scan_spec _ _ _ _ _ _ _ _ _ _ _ _ _ _ _ _ Hlen _ _ _ _ _ _ _ _ _ _ _ _ E1 E2 Eg') as (_ & rg & rt & Hpg & _ & _ & _ & _ & HH).
    destruct (HH p t Hin) as (Q1 & _ & _ & _ & Q2 & Q3 & Q4). subst p. cbn [p_mult p_gh p_theta fst snd] in *. subst mi'.
    exists m, gt, tt, rg, rt, (cut_col rg gi), (cut_col rt ti). auto. }
  split; auto. cbn [rbind]. rewrite Eb. cbn [rbind].
  destruct Hout as [[Hw [bst Ea]]|[Hw Ea]]; [|right; split; auto; rewrite Ea; reflexivity].
  left. split; auto. rewrite Ea. cbn [rbind].
  assert (Hlt : forall b, In b best -> (b < length (map snd scanned))%nat).
  { intros b Hb. apply In_nth_error in Hb as [k Hk]. apply (proj2 Hch k b Hk). }
  destruct (rmap_ok (fun b => np_index (map fst scanned) (Z.of_nat b)) best) as (pts & Ep & Lp & Np).
  { intros b Hb. destruct (np_index_ok (map fst scanned) b) as (a & Ha' & _); eauto. pose proof (Hlt b Hb) as H. rewrite map_length in *. auto. }
  rewrite Ep. cbn [rbind].
  assert (Hpt : forall p, In p pts -> (p_mult p < length grids)%nat).
  { intros p Hp. apply In_nth_error in Hp as [i Hi]. destruct (nth_error_ex best i) as [b Hb]. { apply nth_lt in Hi. lia. }
    destruct (Np i b Hb) as (p' & Hp' & E'). rewrite Hi in Hp'. injection Hp' as <-. apply np_index_inv in E'. apply nth_error_In in E'.
    apply in_map_iff in E' as ([q t] & <- & Hin). apply (Hreg q t Hin). }
  destruct (rmap_ok (fun p => np_index (map (fun g => fst (fst g)) grids) (Z.of_nat (p_mult p))) pts) as (gts & Egt & _).
  { intros p Hp. destruct (np_index_ok (map (fun g => fst (fst g)) grids) (p_mult p)) as (a & Ha' & _); eauto. rewrite map_length; auto. }
  destruct (rmap_ok (fun p => np_index (map (fun g => snd (fst g)) grids) (Z.of_nat (p_mult p))) pts) as (tts & Ett & _).
  { intros p Hp. destruct (np_index_ok (map (fun g => snd (fst g)) grids) (p_mult p)) as (a & Ha' & _); eauto. rewrite map_length; auto. }
  rewrite Egt. cbn [rbind]. rewrite Ett. cbn [rbind]. do 4 eexists. reflexivity.
Qed.
End Outcome.
