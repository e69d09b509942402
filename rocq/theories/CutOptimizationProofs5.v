(** * CutOptimizationProofs5: C29 for optimize_cuts *)
From Coq Require Import String Reals List Bool ZArith Lia Lra.
From Verif Require Import Num Numpy Table Binning SpecBinning BinningProofs HistProofs BinningProofs2 Percentile Cuts SpecCuts
  CutsProofs CutsProofs2 SpecSensitivity Sensitivity SensitivityProofs3 SensitivityProofs4 CutOptimization SpecCutOptimization
  CutOptimizationProofs CutOptimizationProofs2 CutOptimizationProofs3 CutOptimizationProofs4.
Import ListNotations.
Open Scope R_scope.

Lemma nlt_irrefl x : nlt x x = false.
Proof. destruct x; cbn; auto. rsolve; auto; lra. Qed.
Lemma nlt_asym x y : nlt x y = true -> nlt y x = false.
Proof. destruct x, y; cbn; auto; try discriminate. intros. rcmp; auto; lra. Qed.
Lemma neqb_refl x : is_nan x = false -> neqb x x = true.
Proof. destruct x; cbn; auto; try discriminate. intros _. rsolve; auto; lra. Qed.

Lemma interp_knot xs : forall fs k x f,
  (forall e, In e xs -> is_nan e = false) ->
  (forall i a b, nth_error xs i = Some a -> nth_error xs (S i) = Some b -> nlt a b = true) ->
  length xs = length fs -> nth_error xs k = Some x -> nth_error fs k = Some f ->
  np_interp_seg x xs fs = f.
Proof.
  induction xs as [|x0 xs IH]; intros [|f0 fs] k x f Hn Hi L Hx Hf; try discriminate; [destruct k; discriminate|].
  destruct xs as [|x1 xs], fs as [|f1 fs]; try discriminate.
  - destruct k as [|k]; [|destruct k; discriminate]. cbn in *. congruence.
  - assert (Hup : forall j y, nth_error (x1 :: xs) j = Some y -> nle x1 y = true).
    { induction j as [|j IHj]; intros y Hy. - cbn in Hy. injection Hy as <-. apply nle_refl. apply Hn; cbn; auto.
      - destruct (nth_error_ex (x1 :: xs) j) as [z Hz]. { apply nth_lt in Hy. lia. }
        eapply nle_trans; [apply IHj; exact Hz|]. apply nlt_nle. apply (Hi (S j)); auto. }
    change (np_interp_seg x (x0 :: x1 :: xs) (f0 :: f1 :: fs)) with
      (if nlt x x1 then if neqb x0 x then f0 else
        let slope := ndiv (nsub f1 f0) (nsub x1 x0) in
        let r := nadd (nmul slope (nsub x x0)) f0 in
        if is_nan r then
          let r2 := nadd (nmul slope (nsub x x1)) f1 in
          if is_nan r2 && neqb f0 f1 then f0 else r2
        else r
      else np_interp_seg x (x1 :: xs) (f1 :: fs)).
    destruct k as [|k].
    + cbn in Hx, Hf. injection Hx as <-. injection Hf as <-.
      rewrite (Hi 0%nat x0 x1 eq_refl eq_refl). rewrite neqb_refl by (apply Hn; cbn; auto). auto.
    + cbn [nth_error] in Hx, Hf. assert (Hle := Hup k x Hx).
      assert (E : nlt x x1 = false). { destruct (nlt x x1) eqn:E; auto. pose proof (nlt_le_trans _ _ _ E Hle) as C. rewrite nlt_irrefl in C. discriminate. }
      rewrite E. apply (IH (f1 :: fs) k x f); auto.
      * intros e He. apply Hn. right; auto.
      * intros i a b Ha Hb. apply (Hi (S i) a b); auto.
Qed.
Lemma interp1_knot xs fs k x f :
  (forall e, In e xs -> is_nan e = false) ->
  (forall i a b, nth_error xs i = Some a -> nth_error xs (S i) = Some b -> nlt a b = true) ->
  length xs = length fs -> nth_error xs k = Some x -> nth_error fs k = Some f ->
  np_interp1 x xs fs = f.
Proof.
  intros Hn Hi L Hx Hf. unfold np_interp1. destruct xs as [|x0 xs]; [destruct k; discriminate|].
  destruct fs as [|f0 fs]; [discriminate|].
  assert (Nx : is_nan x = false) by (apply Hn; eapply nth_error_In; eauto). rewrite Nx.
  assert (Hle : nle x0 x = true).
  { clear -Hn Hi Hx. revert x Hx. induction k as [|k IH]; intros x Hx.
    - cbn in Hx. injection Hx as <-. apply nle_refl. apply Hn; left; auto.
    - destruct (nth_error_ex (x0 :: xs) k) as [z Hz]. { apply nth_lt in Hx. lia. }
      eapply nle_trans; [apply IH; exact Hz|]. apply nlt_nle. apply (Hi k); auto. }
  destruct (nlt x x0) eqn:E.
  { pose proof (nlt_le_trans _ _ _ E Hle) as C. rewrite nlt_irrefl in C. discriminate. }
  eapply interp_knot; eauto.
Qed.

Lemma rising_nondecreasing bins : rising bins -> nondecreasing bins.
Proof. intros (H1 & H2 & _). split; auto. intros i a b Ha Hb. apply nlt_nle. eauto. Qed.
Lemma rising_centers bins : rising bins ->
  forall i a b, nth_error (bin_center bins) i = Some a -> nth_error (bin_center bins) (S i) = Some b -> nlt a b = true.
Proof.
  intros (Hn & Hlt & Hf) i a b Ha Hb. pose proof (nth_lt _ _ _ Hb) as Hl. rewrite center_len in Hl.
  destruct (nth_error_ex bins i) as [x Hx]; [lia|]. destruct (nth_error_ex bins (S i)) as [y Hy]; [lia|]. destruct (nth_error_ex bins (S (S i))) as [z Hz]; [lia|].
  rewrite (center_nth bins i x y Hx Hy) in Ha. rewrite (center_nth bins (S i) y z Hy Hz) in Hb.
  assert (Ea : a = nmul (Fin (1/2)) (nadd x y)) by congruence. assert (Eb : b = nmul (Fin (1/2)) (nadd y z)) by congruence. clear Ha Hb. subst a b.
  pose proof (Hlt _ _ _ Hx Hy) as L1. pose proof (Hlt _ _ _ Hy Hz) as L2.
  destruct x as [x| | |], y as [y| | |], z as [z| | |]; cbn in L1, L2; try discriminate;
    rewrite ?center_num, ?center_inf, ?center_ninf; cbn [nlt]; auto. rcmp; auto; lra.
Qed.

Section C29b.
Variables (br : (R -> num) -> R -> R -> res R) (sf : num -> num -> num -> num)
  (sa : list num -> list num -> num -> res (list num)) (sw sp bw bp : bool)
  (signal background : list opt_event) (bins : list num) (alpha mn mx ms mse mex : num).
Hypotheses (Hris : rising bins) (Hlen : (2 <= length bins)%nat)
  (Hsa : forall on off, length on = length off -> sa on off alpha = Ok (zipwith (fun x y => sf x y alpha) on off))
  (Hsl : sp = true -> forall e, In e signal -> ev_p (o_ev e) <> "weighted"%string)
  (Hbl : clean_labels bp background).

Let Hnd : nondecreasing bins := rising_nondecreasing bins Hris.
Let Hfin : forall k lo hi, nth_error bins k = Some lo -> nth_error bins (S k) = Some hi -> exists r, lo = Fin r \/ hi = Fin r := proj2 (proj2 Hris).

(** one bin of an and of masks: agree where the gamma/hadron masks are the binned ones *)
Lemma and_local (events : list opt_event) k cut_a cut_b gx ga gb (Ma Mb : list bool) :
  (length bins - 1 <= length cut_a)%nat -> (length bins - 1 <= length cut_b)%nat ->
  nth_error cut_a k = Some gx -> nth_error cut_b k = Some gx ->
  evaluate_binned_cut true (map o_gh events) (raw (map o_energy events)) (but_last bins) (tl bins) None cut_a nge = Ok ga ->
  evaluate_binned_cut true (map o_gh events) (raw (map o_energy events)) (but_last bins) (tl bins) None cut_b nge = Ok gb ->
  length Ma = length events -> length Mb = length events ->
  (forall i e, nth_error events i = Some e -> in_bin bins k (o_energy e) -> nth_error Ma i = nth_error Mb i) ->
  forall i e, nth_error events i = Some e -> in_hist_bin bins k (o_energy e) ->
    nth_error (zipwith andb ga Ma) i = nth_error (zipwith andb gb Mb) i.
Proof.
  intros L1 L2 K1 K2 Ea Eb La Lb Hm i e He Hb.
  assert (Lga := binned_length _ _ _ _ _ _ _ _ _ Ea). assert (Lgb := binned_length _ _ _ _ _ _ _ _ _ Eb). rewrite map_length in Lga, Lgb.
  pose proof (nth_lt _ _ _ He) as Hi.
  destruct (nth_error_ex ga i) as [a Ha]; [lia|]. destruct (nth_error_ex gb i) as [b Hb']; [lia|].
  destruct (nth_error_ex Ma i) as [ma Hma]; [lia|]. destruct (nth_error_ex Mb i) as [mb Hmb]; [lia|].
  rewrite (zipwith_nth andb _ _ _ _ _ Ha Hma), (zipwith_nth andb _ _ _ _ _ Hb' Hmb).
  assert (Hv : nth_error (map o_gh events) i = Some (o_gh e)) by (rewrite nth_error_map, He; auto).
  assert (Hx : nth_error (map o_energy events) i = Some (o_energy e)) by (rewrite nth_error_map, He; auto).
  assert (LL : length (map o_gh events) = length (map o_energy events)) by (rewrite !map_length; auto).
  destruct (mask_spec bins _ _ _ _ _ Hnd Hlen L1 LL Ea i _ _ k gx Hv Hx Hb K1) as [A1 A2].
  destruct (mask_spec bins _ _ _ _ _ Hnd Hlen L2 LL Eb i _ _ k gx Hv Hx Hb K2) as [B1 B2].
  destruct Hb as [Hb|[_ Hb]].
  - rewrite (A1 Hb) in Ha. rewrite (B1 Hb) in Hb'. rewrite (Hm i e He Hb) in Hma. congruence.
  - rewrite (A2 Hb) in Ha. rewrite (B2 Hb) in Hb'. injection Ha as <-. injection Hb' as <-. auto.
Qed.
Lemma andb_assoc_masks a b c : zipwith andb (zipwith andb a b) c = zipwith andb a (zipwith andb b c).
Proof. revert b c; induction a as [|x a IH]; intros [|y b] [|z c]; cbn; auto. rewrite IH, andb_assoc. auto. Qed.

Lemma c29_cuts mults gh_eff theta_eff tmin tmax best mult_out tc gc :
  optimize_cuts br sf sa sw sp bw bp signal background bins alpha mn mx ms mse mex mults gh_eff theta_eff tmin tmax
    = Ok (best, mult_out, tc, gc) ->
  exists m_mult b_mult s,
    evaluate_binned_cut true (map o_mult signal) (raw (map o_energy signal)) (but_last bins) (tl bins) None mult_out nge = Ok m_mult /\
    evaluate_binned_cut true (map o_mult background) (raw (map o_energy background)) (but_last bins) (tl bins) None mult_out nge = Ok b_mult /\
    sensitivity_of_all_cuts br sf sa sw sp bw bp signal background bins alpha mn mx ms mse mex m_mult b_mult (oc_cut gc) (oc_cut tc) s /\
    forall k name, (k < length bins - 1)%nat -> In name core_columns -> exists v, cell best name k v /\ cell s name k v.
Proof.
  intros H. destruct (c28 _ _ _ _ _ _ _ _ _ _ _ _ _ _ _ _ Hlen _ _ _ _ _ _ _ _ _ H)
    as (fill & ghs & ths & combos & sens & _ & Eco & Lsens & (s0 & Hs0 & Hcn) & Hgrids & Hscan & _ & _ & _ & _ & _ & _ & Lmo & Ltc & Lgc & Hbin).
  assert (Hlens : forall v : list opt_event, length (map o_gh v) = length (map o_energy v) /\ length (map o_theta v) = length (map o_energy v) /\ length (map o_mult v) = length (map o_energy v)).
  { intros v. rewrite !map_length. auto. }
  assert (Hex : forall (f : opt_event -> num) evs cuts op, length cuts = (length bins - 1)%nat ->
    exists m, evaluate_binned_cut true (map f evs) (raw (map o_energy evs)) (but_last bins) (tl bins) None cuts op = Ok m /\ length m = length evs).
  { intros f evs cuts op Lc. destruct (mask_exists bins (map f evs) (map o_energy evs) cuts op Hnd Hlen) as [m Em]; [lia|rewrite !map_length; auto|].
    exists m. split; auto. apply binned_length in Em. rewrite map_length in Em. auto. }
  destruct (Hex o_gh signal (oc_cut gc) nge Lgc) as (G & EG & LG). destruct (Hex o_gh background (oc_cut gc) nge Lgc) as (GB & EGB & LGB).
  destruct (Hex o_theta signal (oc_cut tc) nle Ltc) as (T & ET & LT).
  destruct (Hex o_mult signal mult_out nge Lmo) as (MM & EMM & LMM). destruct (Hex o_mult background mult_out nge Lmo) as (MB & EMB & LMB).
  assert (Hfull : forall i s, nth_error sens i = Some s -> exists mi gi ti m rg rt gcut tcut g th b,
     nth_error combos i = Some (mi, gi, ti) /\ nth_error mults mi = Some m /\ nth_error ghs mi = Some rg /\ nth_error ths mi = Some rt /\
     column_of rg gi gcut /\ column_of rt ti tcut /\ length rg = (length bins - 1)%nat /\ length rt = (length bins - 1)%nat /\
     evaluate_binned_cut true (map o_gh signal) (raw (map o_energy signal)) (but_last bins) (tl bins) None gcut nge = Ok g /\
     evaluate_binned_cut true (map o_theta signal) (raw (map o_energy signal)) (but_last bins) (tl bins) None tcut nle = Ok th /\
     evaluate_binned_cut true (map o_gh background) (raw (map o_energy background)) (but_last bins) (tl bins) None gcut nge = Ok b /\
     length g = length signal /\ length th = length signal /\ length b = length background /\
     selected_sensitivity br sf sa sw sp bw bp bins alpha mn mx ms mse mex
       (select (zipwith andb (zipwith andb g th) (enough_telescopes m signal)) signal)
       (select (zipwith andb b (enough_telescopes m background)) background) (bin_center bins) tcut = Ok s).
  { intros i s Hs. destruct (nth_error_ex combos i) as [[[mi gi] ti] Hc]. { apply nth_lt in Hs. lia. }
    destruct (Hscan _ _ _ _ _ Hc Hs) as (m & rg & rt & gcut & tcut & Hm & Hrg & Hrt & C1 & C2 & g & th & b & F1 & F2 & F3 & F4).
    destruct (Hgrids _ _ Hm) as (ght & tht & rg' & rt' & Hrg' & Hrt' & sel & _ & P1 & P2 & P3 & P4).
    rewrite Hrg in Hrg'. injection Hrg' as <-. rewrite Hrt in Hrt'. injection Hrt' as <-.
    destruct (percentile_cut_rows _ _ _ _ _ _ _ _ _ P1) as (r1 & E1 & L1 & _). rewrite P2 in E1. injection E1 as <-.
    destruct (percentile_cut_rows _ _ _ _ _ _ _ _ _ P3) as (r2 & E2 & L2 & _). rewrite P4 in E2. injection E2 as <-.
    assert (La := binned_length _ _ _ _ _ _ _ _ _ F1). assert (Lb := binned_length _ _ _ _ _ _ _ _ _ F2). assert (Lc := binned_length _ _ _ _ _ _ _ _ _ F3).
    rewrite map_length in La, Lb, Lc.
    exists mi, gi, ti, m, rg, rt, gcut, tcut, g, th, b. repeat (split; [solve [auto]|]).
    apply selection_select; auto; unfold enough_telescopes; rewrite !zipwith_length, map_length; lia. }
  assert (Hcl : length (bin_center bins) = (length bins - 1)%nat) by apply center_len.
  assert (Hknot : forall k cuts x, (k < length bins - 1)%nat -> length cuts = (length bins - 1)%nat -> nth_error cuts k = Some x ->
    np_interp1 (center bins k) (bin_center bins) cuts = x).
  { intros k cuts x Hk Lc Hx. apply (interp1_knot (bin_center bins) cuts k); auto; try lia.
    - intros e He. apply (edges_not_nan bins Hnd Hlen Hfin (bin_center bins)); auto.
    - apply rising_centers; auto.
    - apply center_at; auto. }
  destruct (reproduces br sf sa sw sp bw bp signal background bins alpha mn mx ms mse mex Hnd Hlen Hfin Hsa Hsl Hbl
     (bin_center bins) (oc_cut tc) (zipwith andb (zipwith andb G T) MM) (zipwith andb GB MB) best (fun j s => nth_error sens j = Some s) s0)
    as (s' & Es' & Hv); auto.
  - rewrite !zipwith_length. lia.
  - rewrite !zipwith_length. lia.
  - intros E. rewrite E in Hcl. cbn in Hcl. lia.
  - lia.
  - intros j s Hj. destruct (Hfull j s Hj) as (mi & gi & ti & m & rg & rt & gcut & tcut & g & th & b & _ & _ & _ & _ & _ & _ & _ & _ & _ & _ & _ & L1 & L2 & L3 & E).
    eexists _, _, tcut. split; [|split; [|exact E]]; unfold enough_telescopes; rewrite !zipwith_length, map_length; lia.
  - intros k Hk. destruct (Hbin k Hk) as (i & mi & gi & ti & vals & s & m & rg & rt & grow & trow & geff & teff & gx & tx & Hi & Hs & _ & _ & _ & Hrow & Hm & Hmo & Hrg & Hgr & Hgx & Hgc & Hrt & Htr & Htx & Htc & _).
    destruct (Hfull i s Hs) as (mi' & gi' & ti' & m' & rg' & rt' & gcut & tcut & g & th & b & Hc' & Hm' & Hrg' & Hrt' & C1 & C2 & Lrg & Lrt & F1 & F2 & F3 & L1 & L2 & L3 & E).
    rewrite Hi in Hc'. injection Hc' as <- <- <-. rewrite Hm in Hm'. injection Hm' as <-. rewrite Hrg in Hrg'. injection Hrg' as <-. rewrite Hrt in Hrt'. injection Hrt' as <-.
    pose proof (column_of_length _ _ _ C1) as Lg. pose proof (column_of_length _ _ _ C2) as Lt.
    pose proof (column_of_nth _ _ _ _ _ _ C1 Hgr Hgx) as Kg. pose proof (column_of_nth _ _ _ _ _ _ C2 Htr Htx) as Kt.
    assert (Hmult : forall evs Mo, evaluate_binned_cut true (map o_mult evs) (raw (map o_energy evs)) (but_last bins) (tl bins) None mult_out nge = Ok Mo ->
      forall j e, nth_error evs j = Some e -> in_bin bins k (o_energy e) -> nth_error Mo j = nth_error (enough_telescopes m evs) j).
    { intros evs Mo EM j e He Hb. unfold enough_telescopes. rewrite nth_error_map, He. cbn [option_map].
      eapply (mask_spec bins (map o_mult evs) (map o_energy evs) mult_out nge Mo Hnd Hlen) with (k := k); eauto; try lia.
      - rewrite !map_length; auto. - rewrite nth_error_map, He; reflexivity. - rewrite nth_error_map, He; reflexivity. - left; auto. }
    eexists i, s, _, _, tcut. split; [exact Hs|]. split; auto. split; [|split; [|split; [exact E|split; [|split]]]].
    + unfold enough_telescopes; rewrite !zipwith_length, map_length; lia.
    + unfold enough_telescopes; rewrite !zipwith_length, map_length; lia.
    + intros j e He Hb. rewrite !andb_assoc_masks.
      apply (and_local signal k (oc_cut gc) gcut gx G g (zipwith andb T MM) (zipwith andb th (enough_telescopes m signal))) with (e := e); auto; try lia.
      * rewrite zipwith_length; lia.
      * unfold enough_telescopes; rewrite zipwith_length, map_length; lia.
      * intros j' e' He' Hb'. pose proof (Hmult signal MM EMM j' e' He' Hb') as Em.
        assert (Et : nth_error T j' = nth_error th j').
        { eapply (mask_local bins (map o_theta signal) (map o_energy signal) (oc_cut tc) tcut nle T th k tx); auto; try lia.
          - rewrite !map_length; auto. - rewrite nth_error_map, He'; reflexivity. - left; exact Hb'. }
        pose proof (nth_lt _ _ _ He') as Hj'. destruct (nth_error_ex T j') as [a Ha]; [lia|]. destruct (nth_error_ex MM j') as [d Hd]; [lia|].
        rewrite (zipwith_nth andb _ _ _ _ _ Ha Hd). rewrite Ha in Et. rewrite Hd in Em. symmetry in Et, Em.
        rewrite (zipwith_nth andb _ _ _ _ _ Et Em). auto.
    + intros j e He Hb.
      apply (and_local background k (oc_cut gc) gcut gx GB b MB (enough_telescopes m background)) with (e := e); auto; try lia.
      * unfold enough_telescopes; rewrite map_length; lia.
      * intros j' e' He' Hb'. apply (Hmult background MB EMB j' e' He' Hb').
    + rewrite (Hknot k (oc_cut tc) tx), (Hknot k tcut tx); auto; lia.
  - exists MM, MB, s'. split; [exact EMM|]. split; [exact EMB|]. split; [|exact Hv].
    exists G, T, GB. split; [exact EG|]. split; [exact ET|]. split; [exact EGB|]. apply selection_select; auto; rewrite !zipwith_length; lia.
Qed.
End C29b.
