(** * SimulationsProofs: showers per energy and field-of-view bin *)
From Coq Require Import Reals List Bool ZArith Lia Lra.
From Verif Require Import Num Numpy Binning BinningProofs HistProofs Utils SpecSimulations Simulations.
Import ListNotations.
Open Scope R_scope.

(** ** primitives *)
Lemma primitive_const (dom : R -> Prop) (f g P Q : R -> R) a b : (forall x, Rmin a b <= x <= Rmax a b -> dom x) -> (forall x, f x = g x) ->
  primitive_on dom f P -> primitive_on dom g Q -> P b - P a = Q b - Q a.
Proof.
  intros Hd Hfg HP HQ.
  assert (K : forall a b, a < b -> (forall x, a <= x <= b -> dom x) -> P b - P a = Q b - Q a).
  { clear a b Hd. intros a b Hab Hd.
    destruct (MVT_cor2 (fun x => P x - Q x) (fun x => f x - g x) a b Hab) as (c & Hc & _).
    { intros c Hc. apply derivable_pt_lim_minus; [apply HP|apply HQ]; auto. }
    rewrite Hfg in Hc. lra. }
  destruct (Rtotal_order a b) as [H|[->|H]]; [|lra|].
  - apply K; auto. intros x Hx. apply Hd. rewrite Rmin_left, Rmax_right; lra.
  - assert (P a - P b = Q a - Q b); [|lra]. apply K; auto. intros x Hx. apply Hd. rewrite Rmin_right, Rmax_left; lra.
Qed.
Lemma into_bounds a b x : a <= b -> a <= into a b x <= b.
Proof. intros H. destruct x; simpl; try lra. unfold Rmax, Rmin. destruct (Rle_dec b r); destruct (Rle_dec a _); lra. Qed.
Lemma share_unique (dom : R -> Prop) dens a b lo hi v w : a <= b -> (forall x, a <= x <= b -> dom x) ->
  share dom dens a b lo hi v -> share dom dens a b lo hi w -> v = w.
Proof.
  intros Hab Hd (P & HP & Hne & Ev) (Q & HQ & Hne' & Ew).
  pose proof (into_bounds a b lo Hab). pose proof (into_bounds a b hi Hab).
  assert (E1 : P b - P a = Q b - Q a).
  { eapply primitive_const; eauto. intros x Hx. apply Hd. rewrite Rmin_left, Rmax_right in Hx; lra. }
  assert (E2 : P (into a b hi) - P (into a b lo) = Q (into a b hi) - Q (into a b lo)).
  { eapply primitive_const; eauto. intros x Hx. apply Hd. unfold Rmin, Rmax in Hx.
    destruct (Rle_dec (into a b lo) (into a b hi)); lra. }
  rewrite E1, E2, <- Ew in Ev. apply (Rmult_eq_reg_r (Q b - Q a)); lra.
Qed.

(** ** powers *)
Lemma Rpower_decr p a b : p < 0 -> 0 < a -> a < b -> Rpower b p < Rpower a p.
Proof.
  intros Hp Ha Hab. unfold Rpower. apply exp_increasing.
  assert (ln a < ln b) by (apply ln_increasing; auto). nra.
Qed.
Lemma npow_pos a p : 0 < a -> npow (Fin a) p = Fin (Rpower a p).
Proof. intros H. simpl. rsolve. auto. Qed.

Section Energy.
Variables (s : sim_info).
Notation emin := (energy_min s).
Notation emax := (energy_max s).
Notation p := (spectral_index s + 1).
Hypotheses (Hmin : 0 < emin) (Hmax : emin < emax) (Hidx : spectral_index s < -1).
Let Q (x : R) : R := Rpower x p.
Let D : R := Q emax - Q emin.
Lemma D_neg : D < 0.
Proof. unfold D, Q. pose proof (Rpower_decr p emin emax). lra. Qed.
(** the share of the spectrum between two energies *)
Definition part (lo hi : num) : R := (Q (into emin emax hi) - Q (into emin emax lo)) / D.

Lemma pdf_fin lo hi : 0 < lo -> 0 < hi ->
  powerlaw_pdf_integral (spectral_index s) (Fin lo) (Fin hi) (Fin emin) (Fin emax) = Fin ((Q hi - Q lo) / D).
Proof.
  intros Hlo Hhi. unfold powerlaw_pdf_integral. rewrite !npow_pos by lra. cbn [nsub nneg nadd].
  assert (HD : Rpower emax p + - Rpower emin p <> 0) by (pose proof D_neg; unfold D, Q in *; lra).
  cbn [ndiv]. replace (Reqb _ 0) with false by (symmetry; apply Reqb_false; exact HD). cbn [nmul]. f_equal. unfold D, Q, Rminus, Rdiv. ring.
Qed.
Lemma into_low x : nle x (Fin emin) = true -> is_nan x = false -> into emin emax x = emin.
Proof.
  destruct x as [r| | |]; cbn [nle is_nan into]; intros H H'; try discriminate; auto. rcmp.
  unfold Rmax, Rmin. destruct (Rle_dec emax r); destruct (Rle_dec emin _); lra.
Qed.
Lemma into_high x : nle (Fin emax) x = true -> into emin emax x = emax.
Proof.
  destruct x as [r| | |]; cbn [nle into]; intros H; try discriminate; auto. rcmp.
  unfold Rmax, Rmin. destruct (Rle_dec emax r); destruct (Rle_dec emin _); lra.
Qed.
Lemma into_mid r : emin <= r <= emax -> into emin emax (Fin r) = r.
Proof. intros H. cbn [into]. unfold Rmax, Rmin. destruct (Rle_dec emax r); destruct (Rle_dec emin _); lra. Qed.

Lemma energy_integral_eq lo hi : energy_bin lo hi -> ~ overhangs emin emax lo hi ->
  energy_integral s lo hi = Fin (part lo hi).
Proof.
  intros [H0 H1] Hov. unfold energy_integral, part.
  destruct lo as [l| | |]; cbn [nle] in H0; try discriminate.
  2: { destruct hi; try discriminate. unfold ngt, nge. cbn [nle nlt andb]. unfold Rdiv. f_equal. cbn [into]. ring. }
  rcmp.
  destruct hi as [h| | |]; cbn [nle] in H1; try discriminate.
  - rcmp. unfold ngt, nge, overhangs in *. cbn [nle nlt] in *.
    destruct (Rleb_spec h emin) as [C1|C1].
    { replace (Rltb emax h) with false by (symmetry; rcmp; lra). replace (Rltb emin h) with false by (symmetry; rcmp; lra). cbn [andb].
      assert (El : into emin emax (Fin l) = emin) by (apply into_low; auto; cbn [nle]; rcmp; lra).
      assert (Eh : into emin emax (Fin h) = emin) by (apply into_low; auto; cbn [nle]; rcmp; lra).
      rewrite El, Eh. replace (if Rleb emax l then Fin 0 else Fin 0) with (Fin 0) by (destruct (Rleb emax l); auto). f_equal. unfold Rdiv; ring. }
    destruct (Rleb_spec emax l) as [C2|C2].
    { replace (Rltb l emax) with false by (symmetry; rcmp; lra). replace (Rltb l emin) with false by (symmetry; rcmp; lra). rewrite !andb_false_r.
      rewrite (into_high (Fin l)), (into_high (Fin h)) by (cbn [nle]; rcmp; lra). f_equal. unfold Rdiv; ring. }
    destruct (Rltb_spec l emin) as [C3|C3].
    { replace (Rltb emin h) with true by (symmetry; rcmp; lra). cbn [andb].
      assert (h <= emax). { destruct (Rle_dec h emax); auto. exfalso. apply Hov. split; rcmp; lra. }
      rewrite pdf_fin by lra. rewrite (into_low (Fin l)) by (auto; cbn [nle]; rcmp; lra). rewrite (into_mid h) by lra. auto. }
    rewrite andb_false_r. replace (Rltb l emax) with true by (symmetry; rcmp; lra). rewrite andb_true_r.
    destruct (Rltb_spec emax h) as [C4|C4].
    + rewrite pdf_fin by lra. rewrite (into_high (Fin h)) by (cbn [nle]; rcmp; lra). rewrite (into_mid l) by lra. auto.
    + rewrite pdf_fin by lra. rewrite (into_mid h), (into_mid l) by lra. auto.
  - unfold ngt, nge, overhangs in *. cbn [nle nlt] in *.
    destruct (Rltb_spec l emin) as [C3|C3]. { exfalso. apply Hov. split; rcmp; auto. }
    cbn [andb].
    destruct (Rleb_spec emax l) as [C2|C2].
    { replace (Rltb l emax) with false by (symmetry; rcmp; lra).
      rewrite (into_high (Fin l)) by (cbn [nle]; rcmp; lra). cbn [into]. f_equal. unfold Rdiv; ring. }
    replace (Rltb l emax) with true by (symmetry; rcmp; lra). rewrite pdf_fin by lra. rewrite (into_mid l) by lra. auto.
Qed.
(** an overhanging bin *)
Lemma energy_integral_overhang lo hi : overhangs emin emax lo (Fin hi) -> energy_integral s lo (Fin hi) = Fin ((Q hi - Q emin) / D).
Proof.
  intros [H1 H2]. unfold energy_integral, ngt, nge. cbn [nlt] in H2. rcmp.
  replace (nlt (Fin emin) (Fin hi)) with true by (symmetry; cbn [nlt]; rcmp; lra). rewrite H1. cbn [andb]. apply pdf_fin; lra.
Qed.
Lemma overhang_too_many hi : emax < hi -> 1 < (Q hi - Q emin) / D.
Proof.
  intros H. pose proof D_neg as HD. pose proof (Rpower_decr p emax hi ltac:(lra) ltac:(lra) H). 
  replace 1 with (D / D) by (field; lra). unfold Rdiv. rewrite (Rmult_comm D), (Rmult_comm (Q hi - Q emin)).
  assert (/ D < 0) by (apply Rinv_lt_0_compat; auto). unfold D, Q in *. nra.
Qed.
Lemma part_primitive : primitive_on positive (power_law (spectral_index s)) (fun x => Q x / p).
Proof.
  intros x Hx. unfold Q, power_law. replace (spectral_index s) with (p - 1) by ring.
  replace (Rpower x (p - 1)) with (/ p * (p * Rpower x (p - 1))) by (field; lra).
  replace (fun x0 => Rpower x0 (p - 1 + 1) / (p - 1 + 1)) with (mult_real_fct (/ p) (fun x0 => Rpower x0 p)).
  - replace (p - 1 + 1 - 1) with (p - 1) by ring. replace (p - 1 + 1) with p by ring.
    apply derivable_pt_lim_scal. apply derivable_pt_lim_power. auto.
  - unfold mult_real_fct. apply FunctionalExtensionality.functional_extensionality. intros y. replace (p - 1 + 1) with p by ring. unfold Rdiv. ring.
Qed.
Lemma part_share lo hi : share positive (power_law (spectral_index s)) emin emax lo hi (part lo hi).
Proof.
  exists (fun x => Q x / p). split; [apply part_primitive|]. pose proof D_neg as HD. unfold D in HD. split.
  - intros E. assert (Q emin = Q emax). { apply (Rmult_eq_reg_r (/ p)); [exact E|]. apply Rinv_neq_0_compat. lra. } lra.
  - unfold part, D. field. split; lra.
Qed.
Lemma Q_decr a b : 0 < a -> a <= b -> Q b <= Q a.
Proof. intros Ha [H | -> ]; [|lra]. unfold Q. left. apply Rpower_decr; lra. Qed.
Lemma into_mono lo hi : nle lo hi = true -> into emin emax lo <= into emin emax hi.
Proof.
  intros H. pose proof (into_bounds emin emax lo ltac:(lra)). pose proof (into_bounds emin emax hi ltac:(lra)).
  destruct lo as [l| | |], hi as [h| | |]; cbn [nle] in H; try discriminate; cbn [into] in *; try lra.
  rcmp. apply Rle_max_compat_l, Rle_min_compat_l; lra.
Qed.
Lemma part_bounds lo hi : nle lo hi = true -> 0 <= part lo hi <= 1.
Proof.
  intros H. pose proof (into_mono _ _ H) as Hm. pose proof D_neg as HD. unfold part.
  pose proof (into_bounds emin emax lo ltac:(lra)) as B1. pose proof (into_bounds emin emax hi ltac:(lra)) as B2.
  pose proof (Q_decr (into emin emax lo) (into emin emax hi) ltac:(lra) Hm).
  pose proof (Q_decr emin (into emin emax lo) ltac:(lra) ltac:(lra)). pose proof (Q_decr (into emin emax hi) emax ltac:(lra) ltac:(lra)).
  set (x := Q (into emin emax hi) - Q (into emin emax lo)) in *. replace (x / D) with ((- x) / (- D)) by (field; lra).
  assert (0 <= - x <= - D) by (unfold x, D in *; lra). split.
  - apply Rmult_le_pos; [lra|]. left. apply Rinv_0_lt_compat. lra.
  - apply (Rmult_le_reg_r (- D)); [lra|]. replace (- x / - D * - D) with (- x) by (field; lra). lra.
Qed.
Lemma part_add a b c : part a b + part b c = part a c.
Proof. unfold part, Rdiv. ring. Qed.
Lemma part_all lo hi : nle lo (Fin emin) = true -> is_nan lo = false -> nle (Fin emax) hi = true -> part lo hi = 1.
Proof. intros H1 H2 H3. unfold part. rewrite (into_low lo), (into_high hi) by auto. pose proof D_neg as HD. fold D. field. lra. Qed.
End Energy.

(** ** sums over neighbouring bins *)
Lemma telescope (q : num -> R) (k : R) : forall bins first last, nth_error bins 0 = Some first -> nth_error bins (length bins - 1) = Some last ->
  nsum (zipwith (fun a b => Fin (k * (q b - q a))) (but_last bins) (tl bins)) = Fin (k * (q last - q first)).
Proof.
  induction bins as [|a [|b bins] IH]; intros f l Hf Hl; cbn in Hf; try discriminate.
  - cbn in Hl. injection Hf as <-. injection Hl as <-. cbn. f_equal. ring.
  - injection Hf as <-. specialize (IH b l eq_refl). cbn [tl] in IH.
    change (nadd (Fin (k * (q b - q a))) (nsum (zipwith (fun a b => Fin (k * (q b - q a))) (but_last (b :: bins)) bins)) = Fin (k * (q l - q a))).
    rewrite IH.
    + cbn [nadd]. f_equal. ring.
    + rewrite <- Hl. cbn [length]. replace (S (S (length bins)) - 1)%nat with (S (length bins)) by lia. cbn [nth_error].
      replace (S (length bins) - 1)%nat with (length bins) by lia. auto.
Qed.
Lemma zipwith_ext_nth {A B C} (f g : A -> B -> C) l m : 
  (forall i a b, nth_error l i = Some a -> nth_error m i = Some b -> f a b = g a b) -> zipwith f l m = zipwith g l m.
Proof.
  revert m. induction l as [|a l IH]; intros [|b m] H; cbn [zipwith]; auto. rewrite (H 0%nat a b) by auto. f_equal. apply IH.
  intros i x y Hx Hy. apply (H (S i)); auto.
Qed.
Definition all_bins (P : num -> num -> Prop) (bins : list num) : Prop :=
  forall k lo hi, nth_error bins k = Some lo -> nth_error bins (S k) = Some hi -> P lo hi.
