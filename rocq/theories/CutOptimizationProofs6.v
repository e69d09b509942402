(** * CutOptimizationProofs6: the optimisers succeed on regular input *)
From Coq Require Import String Reals List Bool ZArith Lia Lra.
From Verif Require Import Num Numpy Table Binning Utils Statistics SpecBinning BinningProofs HistProofs BinningProofs2 Percentile Cuts SpecCuts
  CutsProofs CutsProofs2 SpecSensitivity Sensitivity SensitivityProofs3 SensitivityProofs4 CutOptimization SpecCutOptimization
  CutOptimizationProofs CutOptimizationProofs2 CutOptimizationProofs3 CutOptimizationProofs4 CutOptimizationProofs5.
Import ListNotations.
Open Scope R_scope.

Lemma rel_total br sf n_on n_off a s m e :
  (forall f x y ex, br f x y = Err ex -> ex = ValueError \/ ex = RuntimeError) ->
  nlt n_on (Fin 0) = false -> nlt n_off (Fin 0) = false ->
  exists r, relative_sensitivity1 br sf n_on n_off a s m e = Ok r.
Proof.
  intros Hbr H1 H2. unfold relative_sensitivity1. destruct (is_nan n_on || is_nan n_off); [eauto|]. rewrite H1, H2. cbn [orb].
  destruct (nle _ _); [eauto|]. match goal with |- context [match ?X with Ok _ => _ | Err _ => _ end] => destruct X as [r|ex] eqn:E end; [eauto|].
  assert (ex = ValueError \/ ex = RuntimeError) as [-> | ->]; eauto.
  match type of E with (let '(_, _) := ?B in _) = _ => destruct B as [l u] end. destruct l; try (injection E as <-; auto).
  destruct u; try (injection E as <-; auto). eapply Hbr; eauto.
Qed.

(** ** the end of both optimisers: choosing and assembling never fails on regular tables *)
Definition regular (nb : nat) (t : table) : Prop := length t = 9%nat /\ (forall p, In p t -> (nb <= length (col_nums (snd p)))%nat) /\
  exists c, getitem t "relative_sensitivity" = Some c.
Lemma np_index_ok {A} (l : list A) k : (k < length l)%nat -> exists a, np_index l (Z.of_nat k) = Ok a /\ nth_error l k = Some a.
Proof.
  intros H. destruct (nth_error_ex l k H) as [a Ha]. exists a. split; auto. unfold np_index. 
  destruct (Z.ltb_spec (Z.of_nat k) 0); [lia|]. destruct (Z.ltb_spec (Z.of_nat k) 0); [lia|]. destruct (Z.leb_spec (Z.of_nat (length l)) (Z.of_nat k)); [lia|].
  cbn [orb]. rewrite Nat2Z.id, Ha. auto.
Qed.
Lemma getitem_entry {A} (t : list (string * A)) n c : getitem t n = Some c -> In (n, c) t.
Proof.
  induction t as [|[m x] t IH]; cbn [getitem]; [discriminate|]. destruct (String.eqb_spec n m) as [<-|]; intros H.
  - left. congruence.
  - right. auto.
Qed.
Lemma best_total nb sens k : sens <> [] -> (forall s, In s sens -> regular nb s) -> (k < nb)%nat ->
  exists b, best_of_bin sens k = Ok b /\ (b < length sens)%nat.
Proof.
  intros Hne Hr Hk. unfold best_of_bin.
  destruct (rmap_ok (fun s => do c <- get_col s "relative_sensitivity"%string; np_index (col_nums c) (Z.of_nat k)) sens) as (vs & E & L & _).
  { intros s Hs. destruct (Hr s Hs) as (_ & Hl & c & Hc). unfold get_col. rewrite Hc. cbn [rbind].
    destruct (np_index_ok (col_nums c) k) as (a & Ha & _).
    { apply (Nat.lt_le_trans _ nb); auto. apply (Hl ("relative_sensitivity"%string, c)).
      apply getitem_entry, Hc. }
    eauto. }
  rewrite E. cbn [rbind]. eexists. split; [reflexivity|]. assert (vs <> []) by (intros ->; destruct sens; [congruence|discriminate]).
  pose proof (chosen_lt vs H) as Hc. unfold chosen in Hc. unfold table in *. rewrite L in Hc. exact Hc.
Qed.
Lemma row_total nb s k : regular nb s -> (k < nb)%nat -> exists row, row_at s k = Ok row /\ length row = 9%nat.
Proof.
  intros (L & Hl & _) Hk. unfold row_at. destruct (rmap_ok (fun p => np_index (col_nums (snd p)) (Z.of_nat k)) s) as (r & E & Lr & _).
  { intros p Hp. destruct (np_index_ok (col_nums (snd p)) k) as (a & Ha & _); [pose proof (Hl p Hp); lia|eauto]. }
  exists r. split; [exact E|lia].
Qed.
Lemma set_total nb t k row : length t = 9%nat -> (forall p, In p t -> (nb <= length (col_nums (snd p)))%nat) -> length row = 9%nat -> (k < nb)%nat ->
  exists t', set_row t k row = Ok t' /\ length t' = 9%nat /\ forall p, In p t' -> (nb <= length (col_nums (snd p)))%nat.
Proof.
  intros L Hl Lr Hk. unfold set_row. rewrite L, Lr. cbn [Nat.eqb negb].
  assert (Ef : forallb (fun p => Nat.ltb k (length (col_nums (snd p)))) t = true).
  { apply forallb_forall. intros p Hp. apply Nat.ltb_lt. pose proof (Hl p Hp). lia. }
  rewrite Ef. eexists. split; [reflexivity|]. split; [rewrite zipwith_length; lia|].
  clear L Ef. assert (G : forall t (row : list num), (forall p : string * col, In p t -> (nb <= length (col_nums (snd p)))%nat) ->
    forall p, In p (zipwith (fun p v => (fst p, CN (list_set (col_nums (snd p)) k v))) t row) -> (nb <= length (col_nums (snd p)))%nat); [|eauto].
  clear. induction t as [|a t IH]; intros [|v row] Hl p Hp; cbn [zipwith] in Hp; try destruct Hp.
  - subst p. cbn [snd col_nums]. rewrite list_set_length. apply Hl; left; auto.
  - eapply IH; eauto. intros; apply Hl; right; auto.
Qed.
Lemma assemble_total nb sens : (forall s, In s sens -> regular nb s) -> forall best i t,
  (forall b, In b best -> (b < length sens)%nat) -> (i + length best <= nb)%nat ->
  length t = 9%nat -> (forall p, In p t -> (nb <= length (col_nums (snd p)))%nat) ->
  exists t', assemble sens best i t = Ok t'.
Proof.
  intros Hr. induction best as [|b best IH]; intros i t Hb Hi L Hl; [eexists; reflexivity|]. cbn [length] in Hi. cbn [assemble].
  destruct (np_index_ok sens b) as (s & E & Hs); [apply Hb; left; auto|]. rewrite E. cbn [rbind].
  destruct (row_total nb s i (Hr s (nth_error_In _ _ Hs))) as (row & Er & Lr); [lia|]. rewrite Er. cbn [rbind].
  destruct (set_total nb t i row L Hl Lr) as (t' & Et & L' & Hl'); [lia|]. rewrite Et. cbn [rbind].
  apply IH; auto; [|lia]. intros; apply Hb; right; auto.
Qed.

Section Total.
Variables (br : (R -> num) -> R -> R -> res R) (sf : num -> num -> num -> num)
  (sa : list num -> list num -> num -> res (list num)) (sw sp bw : bool)
  (signal background : list opt_event) (bins : list num) (alpha mn mx : R) (ms mse mex : num).
Hypotheses (Hris : rising bins) (Hlen : (2 <= length bins)%nat)
  (Hbr : forall f x y ex, br f x y = Err ex -> ex = ValueError \/ ex = RuntimeError)
  (Hsa : forall on off, length on = length off -> sa on off (Fin alpha) = Ok (zipwith (fun x y => sf x y (Fin alpha)) on off))
  (Hsl : sp = true -> forall e, In e signal -> ev_p (o_ev e) <> "weighted"%string)
  (Hws : forall e, In e signal -> 0 <= ev_w (o_ev e)) (Hwb : forall e, In e background -> 0 <= ev_w (o_ev e))
  (Ha : 0 < alpha) (Hmn : 0 <= mn) (Hmx : mn < mx) (Hpi : mx <= PI).
Let Hnd : nondecreasing bins := rising_nondecreasing bins Hris.
Let Hfin : forall k lo hi, nth_error bins k = Some lo -> nth_error bins (S k) = Some hi -> exists r, lo = Fin r \/ hi = Fin r := proj2 (proj2 Hris).

Lemma wgt_nonneg hw k evs : (forall e, In e evs -> 0 <= ev_w e) -> exists w, wgt bins hw k evs = Fin w /\ 0 <= w.
Proof.
  intros H. unfold wgt, cnt. destruct hw; eexists; (split; [reflexivity|]).
  - unfold wsum. induction evs as [|e evs IH]; cbn [filter]. { unfold rsum; cbn; lra. }
    assert (Hr := IH (fun x Hx => H x (or_intror Hx))). destruct (inb bins k (ev_x e)); auto. cbn [map]. rewrite rsum_cons.
    pose proof (H e (or_introl eq_refl)). lra.
  - apply IZR_le. lia.
Qed.
Lemma scaled_nonneg thc thcut k w : 0 <= w -> nlt (scaled bins (Fin alpha) (Fin mn) (Fin mx) thc thcut k (Fin w)) (Fin 0) = false.
Proof.
  intros Hw. unfold scaled, size_ratio. assert (Hc : cos mx < cos mn) by (apply cos_decreasing_1; lra).
  assert (Hd : nsub (ncone (Fin mx)) (ncone (Fin mn)) = Fin (2 * PI * (cos mn - cos mx))).
  { unfold ncone, ncos. cbn [nsub nneg nadd nmul]. f_equal. ring. }
  rewrite Hd. pose proof PI_RGT_0. assert (HD : 0 < 2 * PI * (cos mn - cos mx)) by (apply Rmult_lt_0_compat; lra).
  destruct (np_interp1 _ _ _) as [t| | |]; unfold ncone, ncos; cbn [nsub nneg nadd nmul]; auto.
  rewrite ndiv_fin by lra. cbn [nmul]. rewrite ndiv_fin by lra. cbn [nlt]. pose proof (COS_bound t).
  assert (0 <= w * (2 * PI * (1 + - cos t) / (2 * PI * (cos mn - cos mx))) / alpha).
  { apply Rmult_le_pos; [|left; apply Rinv_0_lt_compat; auto]. apply Rmult_le_pos; auto. apply Rmult_le_pos; [|left; apply Rinv_0_lt_compat; auto].
    apply Rmult_le_pos; lra. }
  apply Rltb_false. lra.
Qed.
Lemma rel1_total S B thc thcut k : (forall e, In e S -> In e signal) -> (forall e, In e B -> In e background) ->
  exists r, rel1 br sf sw bw bins (Fin alpha) (Fin mn) (Fin mx) ms mse mex S B thc thcut k = Ok r.
Proof.
  intros HS HB. unfold rel1.
  destruct (wgt_nonneg sw k (map o_ev S)) as (w & Ew & Hw). { intros e He. apply in_map_iff in He as (o & <- & Ho). auto. }
  destruct (wgt_nonneg bw k (ring (Fin mn) (Fin mx) B)) as (v & Ev & Hv).
  { intros e He. unfold ring in He. apply in_map_iff in He as (o & <- & Ho). apply filter_In in Ho as [Ho _]. auto. }
  rewrite Ew, Ev. pose proof (scaled_nonneg thc thcut k v Hv) as Hn.
  destruct (scaled bins (Fin alpha) (Fin mn) (Fin mx) thc thcut k (Fin v)) as [b| | |]; cbn [nlt] in Hn; try discriminate Hn.
  - apply rel_total; auto. cbn [nmul nadd nlt]. apply Rltb_false. apply Rltb_false in Hn. 
    assert (0 <= alpha * b) by (apply Rmult_le_pos; lra). lra.
  - apply rel_total; auto. cbn [nmul]. unfold inf_signed. rsolve. reflexivity.
  - unfold relative_sensitivity1. cbn [is_nan orb]. rewrite orb_true_r. eauto.
Qed.
Lemma nine S B thc thcut s :
  selected_sensitivity br sf sa sw sp bw false bins (Fin alpha) (Fin mn) (Fin mx) ms mse mex S B thc thcut = Ok s ->
  colnames s = core_columns.
Proof.
  intros H. unfold selected_sensitivity in H. apply rbind_ok in H as (sh & _ & H). apply rbind_ok in H as (bh & Hb & H).
  assert (Ecb : colnames bh = ["reco_energy_low"; "reco_energy_high"; "reco_energy_center"; "n"; "n_weighted"]%string).
  { unfold estimate_background in Hb. rewrite create_histogram_table_ok in Hb by (auto; intros E; rewrite E in Hlen; cbn in Hlen; lia).
    cbn [rbind] in Hb. apply rbind_ok in Hb as (ti & _ & Hb). apply scale_names in Hb; [|intros k Hk; apply filter_In in Hk; tauto].
    rewrite Hb. unfold hist_table. cbn [et_has_ptype andb]. reflexivity. }
  unfold calculate_sensitivity in H. rewrite Ecb in H. cbn [filter starts_with String.prefix Ascii.ascii_dec] in H. unbind H. injection H as <-.
  match goal with E : copy_columns _ _ _ = Ok _ |- _ => cbn in E; injection E as <- end.
  match goal with E : copy_edges _ _ _ = Ok _ |- _ => cbn [copy_edges] in E; unbind E; injection E as <- end.
  reflexivity.
Qed.
Lemma cell_length (t : table) name k v : cell t name k v -> exists c, getitem t name = Some c /\ (k < length (col_nums c))%nat.
Proof. intros (c & Hc & He). exists c. split; auto. apply entry_nums in He. apply nth_lt in He. auto. Qed.
Lemma scan_total S B thc thcut : (forall e, In e S -> In e signal) -> (forall e, In e B -> In e background) ->
  thc <> [] -> length thc = length thcut ->
  exists s, selected_sensitivity br sf sa sw sp bw false bins (Fin alpha) (Fin mn) (Fin mx) ms mse mex S B thc thcut = Ok s /\
    regular (length bins - 1) s.
Proof.
  intros HS HB Hne Hl.
  destruct (sens_ok br sf sa sw sp bw false bins (Fin alpha) (Fin mn) (Fin mx) ms mse mex Hnd Hlen Hfin Hsa S B thc thcut) as (s & E & _ & Hc); auto.
  { intros Hp; discriminate. }
  { intros k Hk. apply rel1_total; auto. }
  exists s. split; auto. pose proof (nine _ _ _ _ _ E) as En.
  assert (Hnd9 : NoDup (colnames s)). { rewrite En. unfold core_columns. repeat constructor; cbn; intuition discriminate. }
  split; [|split].
  - unfold colnames in En. rewrite <- (map_length fst), En. reflexivity.
  - intros [n c] Hp. cbn [snd]. assert (Hin : In n core_columns) by (rewrite <- En; apply (in_map fst _ _ Hp)).
    destruct (Hc (length bins - 2)%nat) as (r & _ & Hcell); [lia|]. specialize (Hcell n Hin). apply cell_length in Hcell as (c' & Hg & Hlt).
    assert (Ec : getitem s n = Some c).
    { clear -Hp Hnd9. induction s as [|[m x] s IH]; [destruct Hp|]. cbn in Hnd9. inversion Hnd9; subst. cbn [getitem].
      destruct (String.eqb_spec n m) as [->|Hm]; destruct Hp as [Hp|Hp]; try congruence; auto.
      exfalso. apply H1. apply (in_map fst _ _ Hp). }
    rewrite Ec in Hg. injection Hg as <-. lia.
  - apply getitem_in. rewrite En. unfold core_columns. cbn [In]. tauto.
Qed.

Lemma finish_total sens s0 rest : sens = s0 :: rest -> (forall s, In s sens -> regular (length bins - 1) s) ->
  exists best bst, rmap (best_of_bin sens) (seq 0 (length bins - 1)) = Ok best /\ assemble sens best 0 s0 = Ok bst /\
    length best = (length bins - 1)%nat /\ forall b, In b best -> (b < length sens)%nat.
Proof.
  intros Es Hr. assert (Hne : sens <> []) by (rewrite Es; discriminate).
  destruct (rmap_ok (best_of_bin sens) (seq 0 (length bins - 1))) as (best & Eb & Lb & Nb).
  { intros k Hk. apply in_seq in Hk. destruct (best_total (length bins - 1) sens k Hne Hr) as (b & Hb & _); [lia|eauto]. }
  rewrite seq_length in Lb.
  assert (Hlt : forall b, In b best -> (b < length sens)%nat).
  { intros b Hb. apply In_nth_error in Hb as [i Hi]. assert (Hil : (i < length bins - 1)%nat) by (apply nth_lt in Hi; lia).
    destruct (Nb i i) as (b' & Hb' & E'). { apply seq_nth_error; auto. } rewrite Hi in Hb'. injection Hb' as <-.
    destruct (best_total (length bins - 1) sens i Hne Hr Hil) as (b'' & E'' & Hlt). congruence. }
  destruct (Hr s0) as (L9 & Hl & _). { rewrite Es; left; auto. }
  destruct (assemble_total (length bins - 1) sens Hr best 0 s0 Hlt) as (bst & Ebst); auto; [lia|].
  exists best, bst. auto.
Qed.

Lemma gh_total op effs thl thh thc thcut :
  thc <> [] -> length thc = length thcut ->
  (exists sel, evaluate_binned_cut true (map o_theta signal) (raw (map o_energy signal)) thl thh None thcut nle = Ok sel) ->
  effs <> [] -> (forall e, In e effs -> 0 <= e <= 1) ->
  (exists e k, In e signal /\ in_bin bins k (o_energy e)) ->
  exists out, optimize_gh_cut br sf sa sw sp bw false signal background bins (Fin alpha) (Fin mn) (Fin mx) ms mse mex
    op effs thl thh thc thcut = Ok out.
Proof.
  intros Hne Hl (sel & Esel) Heffs Heff (e0 & k0 & He0 & Hb0). unfold optimize_gh_cut, raw in *. rewrite Esel. cbn [rbind].
  set (ps := map _ effs).
  assert (Hfill : exists fill, (if op (Fin (-1)) (Fin 1) then np_min (map o_gh signal) else np_max (map o_gh signal)) = Ok fill).
  { destruct signal as [|s l]; [destruct He0|]. destruct (op _ _); eexists; reflexivity. }
  destruct Hfill as [fill ->]. cbn [rbind].
  destruct (c12_list (map o_gh signal) (map o_energy signal) bins fill ps None None 10) as (t & rows & Et & Er & Lr & Hr & _); auto.
  { rewrite !map_length; auto. }
  { intros p Hp. unfold ps in Hp. apply in_map_iff in Hp as (e & <- & He). pose proof (Heff e He). destruct (op _ _); lra. }
  { exists (o_energy e0), k0. split; auto. apply in_map; auto. }
  unfold raw, plain, plaino in Et. rewrite Et. cbn [rbind].
  destruct (percentile_cut_edges _ _ _ _ _ _ _ _ _ _ Et) as (Elo & Ehi & _). cbn [a_val] in Elo, Ehi.
  destruct (rmap_ok (gh_scan br sf sa sw sp bw false signal background bins (Fin alpha) (Fin mn) (Fin mx) ms mse mex op sel thc thcut t) (seq 0 (length effs))) as (sens & Es & Ls & Ns).
  { intros j Hj. unfold gh_scan. rewrite Elo, Ehi.
    destruct (mask_exists bins (map o_gh signal) (map o_energy signal) (cut_col (cut_rows t) j) op Hnd Hlen) as [m Em]; [|rewrite !map_length; auto|].
    { unfold cut_col, cut_rows. rewrite Er, map_length. lia. }
    destruct (mask_exists bins (map o_gh background) (map o_energy background) (cut_col (cut_rows t) j) op Hnd Hlen) as [b Eb]; [|rewrite !map_length; auto|].
    { unfold cut_col, cut_rows. rewrite Er, map_length. lia. }
    unfold raw in Em, Eb. rewrite Em. cbn [rbind]. rewrite Eb. cbn [rbind].
    destruct (scan_total (select (mask_and m sel) signal) (select b background) thc thcut) as (s & Hs & _); eauto; intros e He; eapply in_select; eauto. }
  rewrite Es. cbn [rbind]. rewrite seq_length in Ls.
  assert (Hreg : forall s, In s sens -> regular (length bins - 1) s).
  { intros s Hs. apply In_nth_error in Hs as [j Hj]. destruct (Ns j j) as (s' & Hs' & E'). { apply seq_nth_error. apply nth_lt in Hj. lia. }
    rewrite Hj in Hs'. injection Hs' as <-. unfold gh_scan in E'. apply rbind_ok in E' as (m & _ & E'). apply rbind_ok in E' as (b & _ & E').
    destruct (scan_total (select (mask_and m sel) signal) (select b background) thc thcut) as (s' & Hs' & Hg); eauto; try (intros e He; eapply in_select; eauto).
    rewrite E' in Hs'. injection Hs' as <-. auto. }
  destruct sens as [|s0 rest] eqn:E0. { destruct effs; [congruence|discriminate]. } rewrite <- E0 in *.
  destruct (finish_total sens s0 rest E0 Hreg) as (best & bst & Eb & Ea & _). rewrite Eb. cbn [rbind]. rewrite Ea. cbn [rbind]. eauto.
Qed.

Lemma cuts_total mults gh_eff theta_eff tmin tmax :
  mults <> [] -> gh_eff <> [] -> theta_eff <> [] ->
  (forall e, In e gh_eff -> 0 <= e <= 1) -> (forall e, In e theta_eff -> 0 <= e <= 1) ->
  (forall m, In m mults -> exists e k, In e signal /\ nle m (o_mult e) = true /\ in_bin bins k (o_energy e)) ->
  exists out, optimize_cuts br sf sa sw sp bw false signal background bins (Fin alpha) (Fin mn) (Fin mx) ms mse mex
    mults gh_eff theta_eff tmin tmax = Ok out.
Proof.
  intros Hm Hg Ht Hge Hte Hev. unfold optimize_cuts.
  assert (Hsne : exists s l, signal = s :: l).
  { destruct mults as [|m ml]; [congruence|]. destruct (Hev m (or_introl eq_refl)) as (e & _ & He & _). destruct signal; [destruct He|eauto]. }
  assert (Hfill : exists fill, np_max (map o_gh signal) = Ok fill) by (destruct Hsne as (s & l & ->); eexists; reflexivity).
  destruct Hfill as [fill ->]. cbn [rbind].
  assert (Hbne : bins <> []) by (intros E; rewrite E in Hlen; cbn in Hlen; lia).
  destruct (bin_indices_inc (map o_energy signal) bins Hnd Hbne) as (i1 & v1 & E1 & L1 & L1' & O1).
  destruct (bin_indices_inc (map o_energy background) bins Hnd Hbne) as (i2 & v2 & E2 & L2 & L2' & O2).
  rewrite E1. cbn [rbind]. rewrite E2. cbn [rbind].
  pose proof (center_len bins) as Lc.
  assert (Hcne : bin_center bins <> []) by (intros E; rewrite E in Lc; cbn in Lc; lia).
  assert (Hms : forall mi m, In m mults -> exists g, mult_scan br sf sa sw sp bw false signal background bins (Fin alpha) (Fin mn) (Fin mx) ms mse mex
     (i1, v1) (i2, v2) fill gh_eff theta_eff tmin tmax mi m = Ok g /\ (forall p t, In (p, t) (snd g) -> regular (length bins - 1) t) /\ snd g <> []).
  { intros mi m Him. destruct (Hev m Him) as (e & k & He & Hme & Hbe). unfold mult_scan.
    set (sel := select (map (fun e => nge (o_mult e) m) signal) signal).
    assert (Hsel : In e sel).
    { unfold sel. clear -He Hme. induction signal as [|a l IH]; [destruct He|]. cbn [map]. rewrite select_cons. apply in_or_app. destruct He as [->|He].
      - left. unfold nge. rewrite Hme. left; auto. - right. auto. }
    destruct (c12_list (map o_gh sel) (map o_energy sel) bins fill (map (fun e => 100 * (1 - e)) gh_eff) None None 10) as (gt & rg & Eg & Erg & Lrg & _); auto.
    { rewrite !map_length; auto. } { intros p Hp. apply in_map_iff in Hp as (x & <- & Hx). pose proof (Hge x Hx). lra. }
    { exists (o_energy e), k. split; auto. apply in_map; auto. }
    destruct (c12_list (map o_theta sel) (map o_energy sel) bins tmax (map (fun e => 100 * e) theta_eff) (Some tmin) (Some tmax) 10) as (tt & rt & Et & Ert & Lrt & _); auto.
    { rewrite !map_length; auto. } { intros p Hp. apply in_map_iff in Hp as (x & <- & Hx). pose proof (Hte x Hx). lra. }
    { exists (o_energy e), k. split; auto. apply in_map; auto. }
    destruct (percentile_cut_edges _ _ _ _ _ _ _ _ _ _ Et) as (_ & _ & Ec).
    unfold raw, plain, plaino in *. rewrite Eg. cbn [rbind]. unfold plain in Et. rewrite Et. cbn [rbind].
    assert (Hscan : forall gi ti, exists t, cuts_scan br sf sa sw sp bw false signal background bins (Fin alpha) (Fin mn) (Fin mx) ms mse mex
       (i1, v1) (i2, v2) m gt tt gi ti = Ok t /\ regular (length bins - 1) t).
    { intros gi ti. unfold cuts_scan.
      assert (Lg : length (cut_col (cut_rows gt) gi) = (length bins - 1)%nat) by (unfold cut_col, cut_rows; rewrite Erg, map_length; auto).
      assert (Lt : length (cut_col (cut_rows tt) ti) = (length bins - 1)%nat) by (unfold cut_col, cut_rows; rewrite Ert, map_length; auto).
      destruct (mask_exists bins (map o_theta signal) (map o_energy signal) (cut_col (cut_rows tt) ti) nle Hnd Hlen) as [m1 M1]; [lia|rewrite !map_length; auto|].
      destruct (mask_exists bins (map o_gh signal) (map o_energy signal) (cut_col (cut_rows gt) gi) nge Hnd Hlen) as [m2 M2]; [lia|rewrite !map_length; auto|].
      destruct (mask_exists bins (map o_gh background) (map o_energy background) (cut_col (cut_rows gt) gi) nge Hnd Hlen) as [m3 M3]; [lia|rewrite !map_length; auto|].
      rewrite (eval_bins _ _ _ _ _ _ Hlen E1) in M1. rewrite (eval_bins _ _ _ _ _ _ Hlen E1) in M2. rewrite (eval_bins _ _ _ _ _ _ Hlen E2) in M3.
      rewrite M1. cbn [rbind]. rewrite M2. cbn [rbind]. rewrite M3. cbn [rbind]. cbn [a_val] in Ec. rewrite Ec.
      apply scan_total; auto; try lia; intros x Hx; eapply in_select; eauto. }
    match goal with |- context [rmap ?f ?l] => destruct (rmap_ok f l) as (sc & Esc & Lsc & Nsc) end.
    { intros [gi ti] _. destruct (Hscan gi ti) as (t & Ets & _). cbn [fst snd]. rewrite Ets. cbn [rbind]. eauto. }
    rewrite Esc. cbn [rbind]. eexists. split; [reflexivity|]. cbn [snd]. split.
    - intros p t Hpt. apply In_nth_error in Hpt as [i Hi].
      destruct (nth_error_ex (gh_theta_pairs (length gh_eff) (length theta_eff)) i) as [[gi ti] Hp]. { apply nth_lt in Hi. lia. }
      destruct (Nsc i _ Hp) as (x & Hx & Ex). rewrite Hi in Hx. injection Hx as <-. cbn [fst snd] in Ex.
      destruct (Hscan gi ti) as (t' & Ets & Hreg). rewrite Ets in Ex. cbn [rbind] in Ex. injection Ex as _ <-. auto.
    - intros ->. rewrite pairs_prod, prod_length, !seq_length in Lsc. destruct gh_eff, theta_eff; cbn in Lsc; congruence || lia. }
  match goal with |- context [rmap ?f (combine ?a ?b)] => destruct (rmap_ok f (combine a b)) as (grids & Egr & Lgr & Ngr) end.
  { intros [mi m] Hin. apply in_combine_r in Hin. cbn [fst snd]. destruct (Hms mi m Hin) as (g & Hgo & _). eauto. }
  rewrite Egr. cbn [rbind]. rewrite combine_length, seq_length, Nat.min_id in Lgr.
  assert (Hgr : forall i g, nth_error grids i = Some g -> (forall p t, In (p, t) (snd g) -> regular (length bins - 1) t /\ p_mult p = i) /\ snd g <> []).
  { intros i g Hi. destruct (nth_error_ex mults i) as [m Hmi]. { apply nth_lt in Hi. lia. }
    destruct (Ngr i (i, m)) as (g' & Hg' & Eg'). { apply nth_combine; auto. apply seq_nth_error. apply nth_lt in Hmi; auto. }
    rewrite Hi in Hg'. injection Hg' as <-. cbn [fst snd] in Eg'. destruct (Hms i m (nth_error_In _ _ Hmi)) as (g2 & Eg2 & R1 & R2).
    assert (g2 = g) by congruence. subst g2. split; auto. intros p t Hpt. split; [eapply R1; eauto|].
    destruct g as [[gt tt] sc]. destruct (mult_scan_spec _ _ _ _ _ _ _ _ _ _ _ _ _ _ _ _ Hlen _ _ _ _ _ _ _ _ _ _ _ _ E1 E2 Eg') as (_ & rg & rt & _ & _ & _ & _ & _ & HH).
    apply (HH p t Hpt). }
  set (scanned := flat_map (fun g => snd g) grids).
  assert (Hreg : forall p t, In (p, t) scanned -> regular (length bins - 1) t /\ (p_mult p < length grids)%nat).
  { intros p t Hin. apply in_flat_map in Hin as (g & Hgi & Hin). apply In_nth_error in Hgi as [i Hi]. destruct (Hgr i g Hi) as [HH _].
    destruct (HH p t Hin) as [R ->]. split; auto. apply nth_lt in Hi; auto. }
  destruct (map snd scanned) as [|s0 rest] eqn:Es.
  { exfalso. destruct grids as [|g gs]. { destruct mults; [congruence|discriminate]. } destruct (Hgr 0%nat g eq_refl) as [_ Hn].
    unfold scanned in Es. cbn [flat_map] in Es. destruct (snd g); [congruence|discriminate]. }
  rewrite <- Es. destruct (finish_total (map snd scanned) s0 rest Es) as (best & bst & Eb & Ea & Lb & Hlt).
  { intros s Hs. apply in_map_iff in Hs as ([p t] & <- & Hin). apply (Hreg p t Hin). }
  rewrite Eb. cbn [rbind]. rewrite Ea. cbn [rbind].
  destruct (rmap_ok (fun b => np_index (map fst scanned) (Z.of_nat b)) best) as (pts & Ep & Lp & Np).
  { intros b Hb. destruct (np_index_ok (map fst scanned) b) as (a & Ha' & _); eauto. pose proof (Hlt b Hb) as H. rewrite map_length in *. auto. }
  rewrite Ep. cbn [rbind].
  assert (Hpt : forall p, In p pts -> (p_mult p < length grids)%nat).
  { intros p Hp. apply In_nth_error in Hp as [i Hi]. destruct (nth_error_ex best i) as [b Hb]. { apply nth_lt in Hi. lia. }
    destruct (Np i b Hb) as (p' & Hp' & E'). rewrite Hi in Hp'. injection Hp' as <-. apply np_index_inv in E'. apply nth_error_In in E'.
    apply in_map_iff in E' as ([q t] & <- & Hin). apply (Hreg q t Hin). }
  destruct (rmap_ok (fun p => np_index (map (fun g => fst (fst g)) grids) (Z.of_nat (p_mult p))) pts) as (gts & Egt & _).
  { intros p Hp. destruct (np_index_ok (map (fun g => fst (fst g)) grids) (p_mult p)) as (a & Ha' & _); eauto. rewrite map_length; auto. }
  destruct (rmap_ok (fun p => np_index (map (fun g => snd (fst g)) grids) (Z.of_nat (p_mult p))) pts) as (tts & Ett & _).
  { intros p Hp. destruct (np_index_ok (map (fun g => snd (fst g)) grids) (p_mult p)) as (a & Ha' & _); eauto. rewrite map_length; auto. }
  rewrite Egt. cbn [rbind]. rewrite Ett. cbn [rbind]. eauto.
Qed.
End Total.
