(** * Proofs about moment morphing *)
From Coq Require Import Reals List Bool ZArith Arith Lia Lra.
From Verif Require Import Num Numpy Table Binning SpecBinning BinningProofs Lists CutsProofs CutsProofs2 Utils SpecSimulations SpecIRF IRFProofs IRFProofs2 Morph SpecInterp.
Import ListNotations.
Open Scope R_scope.

Definition nz (m : measured_by) : normalization := match m with ByWidth => AREA | BySolidAngle => CONE_SOLID_ANGLE end.
Definition ws (m : measured_by) (edges : list R) : list R := zipwith (measure m) (but_last edges) (tl edges).

Lemma diffR_zip l : diffR l = zipwith width (but_last l) (tl l).
Proof. induction l as [|a [|b l] IH]; auto. cbn [diffR but_last tl zipwith]. f_equal. cbn [diffR] in IH. rewrite IH. auto. Qed.
Lemma get_width m edges : get_bin_width edges (nz m) = Ok (ws m edges).
Proof.
  destruct m; unfold ws; cbn [nz get_bin_width measure]; f_equal; [apply diffR_zip|].
  induction edges as [|a [|b l] IH]; auto. cbn [map diffR but_last tl zipwith] in *. rewrite IH. f_equal.
  unfold cone_solid_angle, ring_sr. ring.
Qed.
Lemma ws_length m edges : length (ws m edges) = (length edges - 1)%nat.
Proof. apply adj_length. Qed.
Lemma integral_ws m edges h : length h = (length edges - 1)%nat -> integral_over (measure m) edges h = rsum (zipwith Rmult h (ws m edges)).
Proof.
  revert h. induction edges as [|a [|b l] IH]; intros [|x h] H; cbn in H; try lia; unfold ws; try (cbn; rewrite ?rsum_nil; auto; fail).
  change (x * measure m a b + integral_over (measure m) (b :: l) h = rsum (x * measure m a b :: zipwith Rmult h (ws m (b :: l)))).
  rewrite rsum_cons. f_equal. rewrite IH by (cbn; lia). auto.
Qed.
Lemma ws_pos m edges : usable_edges m edges -> forall x, In x (ws m edges) -> 0 < x.
Proof.
  intros (Hi & _ & Ha) x Hx. apply In_nth_error in Hx. destruct Hx as (k & Hk). apply adj_inv in Hk.
  destruct Hk as (a & b & H1 & H2 & ->). pose proof (Hi _ _ _ H1 H2). destruct m; cbn; unfold width; [lra|].
  specialize (Ha eq_refl). pose proof (Ha _ (nth_error_In _ _ H1)). pose proof (Ha _ (nth_error_In _ _ H2)).
  unfold ring_sr. apply Rmult_lt_0_compat; [pose proof PI_RGT_0; lra|].
  assert (cos b < cos a) by (apply cos_decreasing_1; lra). lra.
Qed.

Lemma mids_length edges : length (mids edges) = (length edges - 1)%nat.
Proof. apply adj_length. Qed.
Lemma mids_nth edges k a b : nth_error edges k = Some a -> nth_error edges (S k) = Some b -> nth_error (mids edges) k = Some ((1/2) * (a + b)).
Proof. intros. unfold mids. apply (adj_nth (fun a b => (1/2) * (a + b))); auto. Qed.
Lemma mids_inv edges k x : nth_error (mids edges) k = Some x -> exists a b, nth_error edges k = Some a /\ nth_error edges (S k) = Some b /\ x = (1/2) * (a + b).
Proof. apply (adj_inv (fun a b => (1/2) * (a + b))). Qed.
Lemma increasing_le l i j a b : increasing l -> (i < j)%nat -> nth_error l i = Some a -> nth_error l j = Some b -> a < b.
Proof.
  intros H Hij. revert b. induction Hij as [|j Hij IH]; intros b Ha Hb.
  - eapply H; eauto.
  - destruct (nth_some_ex l j) as (c & Hc). { pose proof (nth_some_lt _ _ _ Hb). lia. }
    specialize (IH c Ha Hc). specialize (H _ _ _ Hc Hb). lra.
Qed.
Lemma mids_inj edges i j x : increasing edges -> nth_error (mids edges) i = Some x -> nth_error (mids edges) j = Some x -> i = j.
Proof.
  intros H Hi Hj. apply mids_inv in Hi, Hj. destruct Hi as (a & b & Ha & Hb & E). destruct Hj as (c & d & Hc & Hd & E').
  destruct (lt_eq_lt_dec i j) as [[Hlt|]|Hlt]; auto; exfalso.
  - pose proof (increasing_le _ _ _ _ _ H Hlt Ha Hc). assert (S i < S j)%nat by lia. pose proof (increasing_le _ _ _ _ _ H H1 Hb Hd). lra.
  - pose proof (increasing_le _ _ _ _ _ H Hlt Hc Ha). assert (S j < S i)%nat by lia. pose proof (increasing_le _ _ _ _ _ H H1 Hd Hb). lra.
Qed.

(** sums of non-negative products *)
Lemma zipmul_nonneg a b : (forall x, In x a -> 0 <= x) -> (forall x, In x b -> 0 <= x) -> forall x, In x (zipwith Rmult a b) -> 0 <= x.
Proof.
  intros Ha Hb x Hx. apply In_nth_error in Hx. destruct Hx as (k & Hk). apply zw_nth_inv in Hk. destruct Hk as (u & v & H1 & H2 & ->).
  apply Rmult_le_pos; [apply Ha|apply Hb]; eapply nth_error_In; eauto.
Qed.
Lemma rsum_zero l : (forall x, In x l -> 0 <= x) -> rsum l = 0 -> forall x, In x l -> x = 0.
Proof.
  induction l as [|a l IH]; intros Hn H x Hx; [destruct Hx|]. rewrite rsum_cons in H.
  assert (0 <= a) by (apply Hn; left; auto). assert (0 <= rsum l) by (apply rsum_nonneg; intros; apply Hn; right; auto).
  destruct Hx as [<-|Hx]; [lra|]. apply IH; auto; [intros; apply Hn; right; auto|lra].
Qed.
Lemma rsum_pos_in l x : (forall x, In x l -> 0 <= x) -> In x l -> 0 < x -> 0 < rsum l.
Proof.
  intros Hn Hx Hp. assert (0 <= rsum l) by (apply rsum_nonneg; auto). destruct (Req_dec (rsum l) 0) as [E|]; [|lra].
  pose proof (rsum_zero l Hn E x Hx). lra.
Qed.
Lemma rsum_pos_ex l : (forall x, In x l -> 0 <= x) -> 0 < rsum l -> exists k x, nth_error l k = Some x /\ 0 < x.
Proof.
  induction l as [|a l IH]; intros Hn H; [rewrite rsum_nil in H; lra|]. rewrite rsum_cons in H.
  assert (0 <= a) by (apply Hn; left; auto). destruct (Rle_lt_dec a 0).
  - destruct IH as (k & x & Hk & Hx); [intros; apply Hn; right; auto|lra|]. exists (S k), x; auto.
  - exists 0%nat, a; auto.
Qed.
(** exactly one entry satisfies the predicate *)
Lemma filter_one {A} (p : A -> bool) l k x : nth_error l k = Some x -> p x = true ->
  (forall j y, nth_error l j = Some y -> p y = true -> j = k) -> filter p l = [x].
Proof.
  revert k. induction l as [|a l IH]; intros [|k] Hk Hp Hu; try discriminate.
  - cbn in Hk. injection Hk as ->. cbn. rewrite Hp. f_equal.
    assert (E : forall y, In y l -> p y = false).
    { intros y Hy. apply In_nth_error in Hy. destruct Hy as (j & Hj). destruct (p y) eqn:E; auto. discriminate (Hu (S j) y Hj E). }
    clear - E. induction l as [|b l IH]; auto. cbn. rewrite E by (left; auto). apply IH. intros; apply E; right; auto.
  - cbn in Hk. cbn. destruct (p a) eqn:E. { discriminate (Hu 0%nat a eq_refl E). }
    apply (IH k); auto. intros j y Hj Hy. specialize (Hu (S j) y Hj Hy). lia.
Qed.

Section One.
Variables (m : measured_by) (edges : list R).
Hypothesis He : usable_edges m edges.
Notation N := (length edges - 1)%nat.

Lemma prob_pos h : histogram_of N h -> 0 < rsum h -> 0 < rsum (zipwith Rmult h (ws m edges)).
Proof.
  intros (Hl & Hn) Hp. destruct (rsum_pos_ex h Hn Hp) as (k & x & Hk & Hx).
  destruct (nth_some_ex (ws m edges) k) as (w & Hw). { rewrite ws_length, <- Hl. eapply nth_some_lt; eauto. }
  apply rsum_pos_in with (x := x * w).
  - apply zipmul_nonneg; auto. intros y Hy. left. eapply ws_pos; eauto.
  - eapply nth_error_In. apply (zipwith_nth Rmult); eauto.
  - apply Rmult_lt_0_compat; auto. eapply ws_pos; eauto. eapply nth_error_In; eauto.
Qed.

(** moments of a non-empty histogram exist, the standard deviation is positive *)
Lemma mean_std h : histogram_of N h -> 0 < rsum h -> exists mu sig, estimate_mean_std edges h (nz m) = Ok (mu, sig) /\ 0 < sig.
Proof.
  intros Hh Hp. pose proof (prob_pos h Hh Hp) as Hq. destruct Hh as (Hl & Hn). unfold estimate_mean_std. rewrite get_width. cbn [rbind].
  unfold average at 1. destruct (Reqb_spec (rsum (zipwith Rmult h (ws m edges))) 0); [lra|]. cbn [rbind].
  set (p := zipwith Rmult h (ws m edges)) in *. set (mu := rsum (zipwith Rmult (mids edges) p) / rsum p).
  unfold average. destruct (Reqb_spec (rsum p) 0); [lra|]. cbn [rbind].
  set (sq := map (fun x => (x - mu) * (x - mu)) (mids edges)).
  assert (Hpn : forall x, In x p -> 0 <= x) by (apply zipmul_nonneg; auto; intros y Hy; left; eapply ws_pos; eauto).
  assert (Hsn : forall x, In x sq -> 0 <= x).
  { intros x Hx. unfold sq in Hx. apply in_map_iff in Hx. destruct Hx as (y & <- & _). apply Rle_0_sqr. }
  assert (Hv : 0 <= rsum (zipwith Rmult sq p) / rsum p).
  { apply Rmult_le_pos; [apply rsum_nonneg, zipmul_nonneg; auto|]. left. apply Rinv_0_lt_compat. lra. }
  destruct (Reqb_spec (sqrt (rsum (zipwith Rmult sq p) / rsum p)) 0) as [E|E].
  2:{ exists mu, (sqrt (rsum (zipwith Rmult sq p) / rsum p)). split; auto. pose proof (sqrt_pos (rsum (zipwith Rmult sq p) / rsum p)). lra. }
  assert (Z : rsum (zipwith Rmult sq p) = 0).
  { apply sqrt_eq_0 in E; auto. unfold Rdiv in E. apply Rmult_integral in E. destruct E as [E|E]; auto.
    pose proof (Rinv_0_lt_compat _ Hq). lra. }
  destruct (rsum_pos_ex h Hn Hp) as (k & x & Hk & Hx).
  assert (Hkl : (k < N)%nat) by (rewrite <- Hl; eapply nth_some_lt; eauto).
  destruct (nth_some_ex (diffR edges) k) as (d & Hd). { rewrite diffR_length. auto. }
  assert (Key : forall j y, nth_error h j = Some y -> y <> 0 -> nth_error (mids edges) j = Some mu).
  { intros j y Hj Hy. assert (Hjl : (j < N)%nat) by (rewrite <- Hl; eapply nth_some_lt; eauto).
    destruct (nth_some_ex (mids edges) j) as (c & Hc). { rewrite mids_length. auto. }
    destruct (nth_some_ex (ws m edges) j) as (w & Hw). { rewrite ws_length. auto. }
    assert (Hw0 : 0 < w) by (eapply ws_pos; eauto; eapply nth_error_In; eauto).
    assert (Hpj : nth_error p j = Some (y * w)) by (apply (zipwith_nth Rmult); auto).
    assert (Hsj : nth_error sq j = Some ((c - mu) * (c - mu))) by (unfold sq; apply (map_nth_some (fun x => (x - mu) * (x - mu))); auto).
    assert (Hz : nth_error (zipwith Rmult sq p) j = Some ((c - mu) * (c - mu) * (y * w))) by (apply (zipwith_nth Rmult); auto).
    apply nth_error_In in Hz. apply (rsum_zero _ (zipmul_nonneg _ _ Hsn Hpn) Z) in Hz.
    apply Rmult_integral in Hz. destruct Hz as [Hz|Hz].
    - rewrite Hc. f_equal. apply Rsqr_0_uniq in Hz. lra.
    - apply Rmult_integral in Hz. lra. }
  rewrite (filter_one _ _ k (x, sqrt (1/12) * d)).
  - exists mu, (sqrt (1/12) * d). split; [auto|]. apply Rmult_lt_0_compat; [apply sqrt_lt_R0; lra|].
    rewrite diffR_zip in Hd. apply adj_inv in Hd. destruct Hd as (a & b & Ha & Hb & ->). destruct He as (Hi & _).
    pose proof (Hi _ _ _ Ha Hb). unfold width. lra.
  - assert (G : forall (l1 : list R) (l2 : list R) k x y, nth_error l1 k = Some x -> nth_error l2 k = Some y -> nth_error (combine l1 l2) k = Some (x, y)).
    { clear. induction l1 as [|a l1 IH]; intros [|b l2] [|k] x y; cbn; try discriminate; [congruence|apply IH]. }
    apply G; auto. apply (map_nth_some (fun w => sqrt (1/12) * w)); auto.
  - cbn. apply negb_true_iff, Reqb_false. lra.
  - intros j [y z] Hj Hy. cbn in Hy. apply negb_true_iff, Reqb_false in Hy.
    assert (Hj1 : nth_error h j = Some y).
    { clear - Hj. revert j Hj. generalize (map (fun w => sqrt (1/12) * w) (diffR edges)) as l. revert h.
      induction h as [|a h IH]; intros [|b l] [|j] Hj; cbn in *; try discriminate; [congruence|eapply IH; eauto]. }
    apply (mids_inj edges j k mu); [apply He|apply (Key j y); auto|apply (Key k x); auto; lra].
Qed.

(** the height of the histogram at a point *)
Lemma lookup_ok h x : exists out, lookup edges h x = Ok out /\ length out = length x /\
  forall i y, nth_error out i = Some y -> y = 0 \/ In y h.
Proof.
  unfold lookup. destruct (bin_indices_inc (map Fin x) (map Fin edges)) as (idx & valid & E & H1 & H2 & H3).
  { apply inc_nondec, He. } { destruct He as (_ & Hl & _). destruct edges; [cbn in Hl; lia|discriminate]. }
  rewrite E. cbn [rbind fst snd]. eexists. split; [reflexivity|]. split.
  - rewrite zipwith_length, map_length, zipwith_length, H1, H2, map_length. lia.
  - intros i y Hy. apply zw_nth_inv in Hy. destruct Hy as (u & v & Hu & Hv & ->). destruct v; auto.
    apply map_nth_inv in Hu. destruct Hu as (z & Hz & ->).
    destruct (nth_in_or_default (Z.to_nat z) h 0) as [H|H]; auto.
Qed.
Lemma lookup_mids h : length h = N -> lookup edges h (mids edges) = Ok h.
Proof.
  intros Hl. unfold lookup. destruct (bin_indices_inc (map Fin (mids edges)) (map Fin edges)) as (idx & valid & E & H1 & H2 & H3).
  { apply inc_nondec, He. } { destruct He as (_ & Hl' & _). destruct edges; [cbn in Hl'; lia|discriminate]. }
  rewrite E. cbn [rbind fst snd]. f_equal. rewrite map_length, mids_length in H1, H2.
  apply nth_ext_eq. { rewrite zipwith_length, map_length, zipwith_length, H1, H2, Hl. lia. }
  intros k u v Hu Hv. apply zw_nth_inv in Hu. destruct Hu as (lu & vd & Hlu & Hvd & ->).
  apply map_nth_inv in Hlu. destruct Hlu as (z & Hz & ->). apply zw_nth_inv in Hz. destruct Hz as (i & vd' & Hi & Hvd' & ->).
  assert (vd' = vd) by congruence. subst vd'.
  assert (Hk : (k < N)%nat) by (rewrite <- Hl; eapply nth_some_lt; eauto).
  destruct (adj_ex edges k Hk) as (a & b & Ha & Hb). pose proof (mids_nth _ _ _ _ Ha Hb) as Hm.
  destruct (H3 k _ (map_nth_some Fin _ _ _ Hm)) as (z & v' & Hz & Hv' & Ho).
  assert (z = i) by congruence. assert (v' = vd) by congruence. subst z v'.
  assert (Hab : a < b) by (destruct He as (Hinc & _); eapply Hinc; eauto).
  assert (G : i = Z.of_nat k /\ vd = true).
  { inversion Ho as [j Hj E1 E2|e0 Hf Hlt E1 E2|e0 Hla Hle E1 E2].
    - split; auto. f_equal. destruct Hj as (lo & hi & Hlo & Hhi & L1 & L2). apply map_nth_inv in Hlo, Hhi.
      destruct Hlo as (lo' & Hlo & ->). destruct Hhi as (hi' & Hhi & ->). cbn in L1, L2. rcmp.
      destruct He as (Hinc & _). destruct (lt_eq_lt_dec j k) as [[Hlt|]|Hlt]; auto; exfalso.
      + assert (hi' <= a). { destruct (Nat.eq_dec (S j) k) as [E0|]; [rewrite E0 in Hhi; assert (hi' = a) by congruence; lra|]. left. apply (increasing_le edges (S j) k); auto. lia. } lra.
      + assert (b <= lo'). { destruct (Nat.eq_dec (S k) j) as [E0|]; [rewrite E0 in Hb; assert (lo' = b) by congruence; lra|]. left. apply (increasing_le edges (S k) j); auto. lia. } lra.
    - exfalso. apply map_nth_inv in Hf. destruct Hf as (c & Hc & ->). cbn in Hlt. rcmp. destruct He as (Hinc & _).
      assert (c <= a). { destruct k as [|k']; [assert (c = a) by congruence; lra|]. left. apply (increasing_le edges 0 (S k')); auto. lia. } lra.
    - exfalso. destruct Hle as [Hle|]; [|discriminate]. unfold last_edge in Hla. apply map_nth_inv in Hla. destruct Hla as (c & Hc & ->).
      cbn in Hle. rcmp. rewrite map_length in Hc. destruct He as (Hinc & _).
      assert (b <= c). { destruct (Nat.eq_dec (S k) N) as [E5|]; [rewrite E5 in Hb; assert (b = c) by congruence; lra|]. left. apply (increasing_le edges (S k) N); auto. lia. } lra. }
  destruct G as (-> & ->). rewrite Nat2Z.id. apply nth_error_nth. auto.
Qed.
End One.

Lemma prop_sum c : forall l x, length l = length c -> (forall i ci li, nth_error c i = Some ci -> nth_error l i = Some li -> li = ci * x) -> rsum l = rsum c * x.
Proof.
  induction c as [|a c IH]; intros [|b l] x Hl H; cbn in Hl; try lia; rewrite ?rsum_nil, ?rsum_cons; [lra|].
  rewrite (H 0%nat a b eq_refl eq_refl), (IH l x); [lra|lia|]. intros i ci li Hc Hli. apply (H (S i) ci li); auto.
Qed.
Lemma combine_nth_inv {A B} (l1 : list A) (l2 : list B) k p : nth_error (combine l1 l2) k = Some p -> nth_error l1 k = Some (fst p) /\ nth_error l2 k = Some (snd p).
Proof. revert l2 k. induction l1 as [|a l1 IH]; intros [|b l2] [|k] H; cbn in *; try discriminate; [injection H as <-; auto|apply IH; auto]. Qed.
Lemma scale_integral m edges h s : length h = (length edges - 1)%nat ->
  integral_over (measure m) edges (map (fun x => x / s) h) = integral_over (measure m) edges h / s.
Proof.
  intros Hl. rewrite !integral_ws by (rewrite ?map_length; auto). generalize (ws m edges) as w. clear Hl.
  induction h as [|x h IH]; intros [|a w]; cbn [map zipwith]; rewrite ?rsum_nil; try (unfold Rdiv; ring). rewrite !rsum_cons, IH. unfold Rdiv. ring.
Qed.

Section Slice.
Variables (m : measured_by) (edges : list R).
Hypothesis He : usable_edges m edges.
Notation N := (length edges - 1)%nat.
Variables (pdfs : list (list R)) (cs : list R).
Hypothesis Hc : length cs = length pdfs.

Lemma uniform_hist : histogram_of N (repeat (1 / INR N) N) /\ 0 < rsum (repeat (1 / INR N) N).
Proof.
  assert (0 < N)%nat by (destruct He as (_ & Hl & _); lia). assert (0 < 1 / INR N).
  { apply Rdiv_lt_0_compat; [lra|]. apply lt_0_INR; auto. }
  split; [split; [apply repeat_length|]|].
  - intros x Hx. apply repeat_spec in Hx. lra.
  - destruct N as [|n]; [lia|]. apply rsum_pos; [discriminate|]. intros x Hx. apply repeat_spec in Hx. lra.
Qed.
Lemma core (ps : list (list R)) : (forall h, In h ps -> histogram_of N h /\ 0 < rsum h) -> length ps = length pdfs ->
  exists ms, rmap (fun pdf => estimate_mean_std edges pdf (nz m)) ps = Ok ms /\ length ms = length ps /\
  (forall i h, nth_error ps i = Some h -> exists q, nth_error ms i = Some q /\ estimate_mean_std edges h (nz m) = Ok q) /\
  (forall q, In q ms -> 0 < snd q) /\
  forall tm : list (list R), exists ths, rmap (fun p => lookup edges (fst p) (snd p)) (combine ps tm) = Ok ths /\ length ths = length (combine ps tm) /\
   (forall i p, nth_error (combine ps tm) i = Some p -> exists th, nth_error ths i = Some th /\ lookup edges (fst p) (snd p) = Ok th).
Proof.
  intros Hps Hpl.
  destruct (rmap_ok (fun pdf => estimate_mean_std edges pdf (nz m)) ps) as (ms & E & Hl & Hi).
  { intros h Hh. destruct (Hps h Hh) as (H1 & H2). destruct (mean_std m edges He h H1 H2) as (mu & sg & -> & _). eauto. }
  exists ms. split; auto. split; auto. split; auto. split.
  - intros q Hq. apply In_nth_error in Hq. destruct Hq as (i & Hq). destruct (nth_some_ex ps i) as (h & Hh).
    { rewrite <- Hl. eapply nth_some_lt; eauto. }
    destruct (Hi i h Hh) as (q' & Hq' & Eq). assert (q' = q) by congruence. subst q'.
    destruct (Hps h (nth_error_In _ _ Hh)) as (H1 & H2). destruct (mean_std m edges He h H1 H2) as (mu & sg & Es & Hp).
    rewrite Es in Eq. injection Eq as <-. auto.
  - intros tm. apply (rmap_ok (fun p => lookup edges (fst p) (snd p))). intros p _.
    destruct (lookup_ok m edges He (fst p) (snd p)) as (o & -> & _). eauto.
Qed.

(** an empty contributing template: all zero *)
Lemma slice_empty : (exists h, In h pdfs /\ Rabs (rsum h) <= 1/100000000) ->
  moment_morph_slice edges pdfs cs (nz m) = Ok (repeat (Fin 0) N).
Proof.
  intros (h & Hin & Hh). unfold moment_morph_slice.
  assert (Ez : existsb (fun pdf => isclose0 (rsum pdf)) pdfs = true).
  { apply existsb_exists. exists h. split; auto. unfold isclose0. rcmp. auto. }
  rewrite Ez. rewrite mids_length. cbv zeta.
  destruct (core (map (fun _ => repeat (1 / INR N) N) pdfs)) as (ms & E & _ & _ & _ & Hth).
  { intros x Hx. apply in_map_iff in Hx. destruct Hx as (y & <- & _). apply uniform_hist. } { apply map_length. }
  rewrite E. cbn [rbind].
  match goal with |- context [combine _ ?t] => destruct (Hth t) as (ths & Et & _) end.
  rewrite Et. cbn [rbind]. rewrite get_width. cbn [rbind negb andb].
  assert (Z : rsum (zipwith Rmult (repeat 0 N) (ws m edges)) = 0).
  { generalize (ws m edges) as w. generalize N as n. induction n as [|n IH]; intros [|a w]; cbn [repeat zipwith]; rewrite ?rsum_nil; auto. rewrite rsum_cons, IH. lra. }
  rewrite Z. destruct (Reqb_spec 0 0); [|lra]. f_equal. generalize N as n. induction n as [|n IH]; cbn; auto. rewrite IH; auto.
Qed.

Section Full.
Hypothesis Hf : forall h, In h pdfs -> histogram_of N h /\ 1/100000000 < rsum h.

Lemma slice_full : exists ms ths,
  rmap (fun pdf => estimate_mean_std edges pdf (nz m)) pdfs = Ok ms /\ length ms = length pdfs /\
  (forall i h, nth_error pdfs i = Some h -> exists q, nth_error ms i = Some q /\ estimate_mean_std edges h (nz m) = Ok q) /\
  (forall q, In q ms -> 0 < snd q) /\ length ths = length pdfs /\
  let mp := rsum (zipwith (fun c q => c * fst q) cs ms) in
  let sp := rsum (zipwith (fun c q => c * snd q) cs ms) in
  (forall i h q, nth_error pdfs i = Some h -> nth_error ms i = Some q -> exists th, nth_error ths i = Some th /\ length th = N /\
     lookup edges h (map (fun x => snd q / sp * x + (fst q - mp * (snd q / sp))) (mids edges)) = Ok th) /\
  let f := map (fun k => rsum (map (fun r => nth k r 0) (zipwith (fun ca h => map (fun x => fst ca * x * snd ca) h) (combine cs (map (fun q => snd q / sp) ms)) ths))) (seq 0 N) in
  let norm := rsum (zipwith Rmult f (ws m edges)) in
  moment_morph_slice edges pdfs cs (nz m) =
    if Reqb sp 0 then Ok (repeat NaN N) else Ok (map (fun v => if Reqb norm 0 then Fin 0 else Fin (v / norm)) f).
Proof.
  destruct (core pdfs) as (ms & E & Hl & Hms & Hp & Hth); auto.
  { intros h Hh. destruct (Hf h Hh). split; auto. lra. }
  unfold moment_morph_slice.
  assert (Ez : existsb (fun pdf => isclose0 (rsum pdf)) pdfs = false).
  { apply not_true_is_false. intros X. apply existsb_exists in X. destruct X as (h & Hh & X). unfold isclose0 in X. rcmp.
    destruct (Hf h Hh) as (_ & Y). rewrite Rabs_right in X; lra. }
  rewrite Ez, mids_length. cbv zeta. rewrite E. cbn [rbind].
  set (mp := rsum (zipwith (fun c q => c * fst q) cs ms)). set (sp := rsum (zipwith (fun c q => c * snd q) cs ms)).
  set (tm := zipwith (fun a b => map (fun x => a * x + b) (mids edges)) (map (fun q => snd q / sp) ms)
                     (zipwith (fun (q : R * R) a => fst q - mp * a) ms (map (fun q => snd q / sp) ms))).
  assert (Ltm : length tm = length pdfs). { unfold tm. rewrite !zipwith_length, !map_length. lia. }
  assert (Ntm : forall i q, nth_error ms i = Some q -> nth_error tm i = Some (map (fun x => snd q / sp * x + (fst q - mp * (snd q / sp))) (mids edges))).
  { intros i q Hq. unfold tm. apply (zipwith_nth (fun a b => map (fun x => a * x + b) (mids edges))).
    - apply (map_nth_some (fun q => snd q / sp)); auto.
    - apply (zipwith_nth (fun (q : R * R) a => fst q - mp * a)); auto. apply (map_nth_some (fun q => snd q / sp)); auto. }
  destruct (Hth tm) as (ths & Et & Lt & Nt). rewrite combine_length in Lt.
  exists ms, ths. split; auto. split; auto. split; auto. split; auto. split; [lia|]. split.
  - intros i h q Hh Hq.
    assert (G : nth_error (combine pdfs tm) i = Some (h, map (fun x => snd q / sp * x + (fst q - mp * (snd q / sp))) (mids edges))).
    { specialize (Ntm i q Hq). clear - Hh Ntm. revert i Hh Ntm. generalize tm as t. generalize pdfs as p. induction p as [|a p IH]; intros [|b t] [|i] H1 H2; cbn in *; try discriminate; [congruence|apply IH; auto]. }
    destruct (Nt i _ G) as (th & Hth' & Eth). exists th. split; auto. cbn [fst snd] in Eth. split; auto.
    destruct (lookup_ok m edges He h (map (fun x => snd q / sp * x + (fst q - mp * (snd q / sp))) (mids edges))) as (o & Eo & Lo & _).
    assert (th = o) by congruence. subst. rewrite Lo, map_length, mids_length. auto.
  - cbv beta. fold tm. rewrite Et. cbn [rbind]. rewrite get_width. cbn [rbind negb andb]. unfold column_sum. fold sp. destruct (Reqb sp 0); auto.
Qed.

Lemma f_length {A} (g : nat -> A) : length (map g (seq 0 N)) = N.
Proof. rewrite map_length, seq_length; auto. Qed.

(** integral 1, or all zero, or all NaN *)
Lemma slice_normalised : exists out, moment_morph_slice edges pdfs cs (nz m) = Ok out /\
  (integrates_to_one m edges out \/ all_zero out \/ all_nan out) /\
  ((forall c, In c cs -> 0 <= c) -> (exists c, In c cs /\ 0 < c) -> nonnegative out).
Proof.
  destruct slice_full as (ms & ths & E & Lm & Hms & Hp & Lt & Hth & Eq). cbv zeta in Eq, Hth.
  set (mp := rsum (zipwith (fun c q => c * fst q) cs ms)) in *. set (sp := rsum (zipwith (fun c q => c * snd q) cs ms)) in *.
  match type of Eq with context [map ?g (seq 0 N)] => set (f := map g (seq 0 N)) in * end.
  set (norm := rsum (zipwith Rmult f (ws m edges))) in *. rewrite Eq.
  assert (Lf : length f = N) by apply f_length.
  assert (Hn : integral_over (measure m) edges f = norm) by (rewrite integral_ws; auto).
  destruct (Reqb_spec sp 0) as [Es|Es].
  - eexists. split; [reflexivity|]. split; [right; right; intros x Hx; apply repeat_spec in Hx; auto|].
    intros Hc0 (c & Hcin & Hc1). exfalso.
    assert (0 < sp); [|lra]. unfold sp. apply In_nth_error in Hcin. destruct Hcin as (i & Hi).
    destruct (nth_some_ex ms i) as (q & Hq). { rewrite Lm, <- Hc. eapply nth_some_lt; eauto. }
    apply rsum_pos_in with (x := c * snd q).
    + intros x Hx. apply In_nth_error in Hx. destruct Hx as (k & Hk). apply zw_nth_inv in Hk. destruct Hk as (u & v & H1 & H2 & ->).
      apply Rmult_le_pos; [apply Hc0; eapply nth_error_In; eauto|]. left. apply Hp. eapply nth_error_In; eauto.
    + eapply nth_error_In. apply (zipwith_nth (fun c q => c * snd q)); eauto.
    + apply Rmult_lt_0_compat; auto. apply Hp. eapply nth_error_In; eauto.
  - eexists. split; [reflexivity|].
    destruct (Reqb_spec norm 0) as [E0|E0].
    + split; [right; left|]; intros; [intros x Hx; apply in_map_iff in Hx; destruct Hx as (y & <- & _); auto|].
      intros x Hx. apply in_map_iff in Hx. destruct Hx as (y & <- & _). exists 0. split; auto; lra.
    + split.
      * left. exists (map (fun x => x / norm) f). split; [rewrite map_map; auto|]. split; [rewrite map_length; auto|].
        rewrite scale_integral by auto. rewrite Hn. field. auto.
      * intros Hc0 (c & Hcin & Hc1).
        assert (Hsp : 0 <= sp).
        { unfold sp. apply rsum_nonneg. intros x Hx. apply In_nth_error in Hx. destruct Hx as (k & Hk). apply zw_nth_inv in Hk. destruct Hk as (u & v & H1 & H2 & ->).
          apply Rmult_le_pos; [apply Hc0; eapply nth_error_In; eauto|]. left. apply Hp. eapply nth_error_In; eauto. }
        assert (Hfn : forall v, In v f -> 0 <= v).
        { intros v Hv. apply in_map_iff in Hv. destruct Hv as (k & <- & Hk). apply in_seq in Hk. apply rsum_nonneg. intros x Hx.
          apply in_map_iff in Hx. destruct Hx as (r & <- & Hr). apply In_nth_error in Hr. destruct Hr as (i & Hr). apply zw_nth_inv in Hr.
          destruct Hr as (ca & th & Hca & Hthi & ->). apply combine_nth_inv in Hca. destruct Hca as (Hc1' & Hc2). apply map_nth_inv in Hc2.
          destruct Hc2 as (q & Hq & Ea). destruct (nth_some_ex pdfs i) as (h & Hh). { rewrite <- Lm. eapply nth_some_lt; eauto. }
          destruct (Hth i h q Hh Hq) as (th' & Hth1 & Lth & El). assert (th' = th) by congruence. subst th'.
          destruct (nth_in_or_default k (map (fun x => fst ca * x * snd ca) th) 0) as [Hin| -> ]; [|lra].
          apply in_map_iff in Hin. destruct Hin as (y & Ey & Hy). rewrite <- Ey. rewrite Ea.
          assert (0 <= y).
          { destruct (lookup_ok m edges He h (map (fun x => snd q / sp * x + (fst q - mp * (snd q / sp))) (mids edges))) as (o & Eo & Lo & Ho).
            assert (o = th) by congruence. subst o. apply In_nth_error in Hy. destruct Hy as (j & Hy). destruct (Ho j y Hy) as [->|Hin]; [lra|].
            destruct (Hf h (nth_error_In _ _ Hh)) as ((_ & Hnn) & _). apply Hnn; auto. }
          apply Rmult_le_pos; [apply Rmult_le_pos; auto; apply Hc0; eapply nth_error_In; eauto|].
          apply Rmult_le_pos; [left; apply Hp; eapply nth_error_In; eauto|]. left. apply Rinv_0_lt_compat. lra. }
        assert (0 <= norm).
        { apply rsum_nonneg, zipmul_nonneg; auto. intros y Hy. left. eapply ws_pos; eauto. }
        intros x Hx. apply in_map_iff in Hx. destruct Hx as (y & <- & Hy). exists (y / norm). split; auto.
        apply Rmult_le_pos; auto. left. apply Rinv_0_lt_compat. lra.
Qed.

(** all templates that carry weight are the same histogram *)
Lemma slice_same h : rsum cs = 1 -> In h pdfs ->
  (forall i c t, nth_error cs i = Some c -> nth_error pdfs i = Some t -> c <> 0 -> t = h) ->
  exists out, moment_morph_slice edges pdfs cs (nz m) = Ok out /\ normalised m edges h out.
Proof.
  intros Hs Hin Hsame. destruct slice_full as (ms & ths & E & Lm & Hms & Hp & Lt & Hth & Eq). cbv zeta in Eq, Hth.
  destruct (Hf h Hin) as (Hh & Hpos). pose proof (proj1 Hh) as Lh.
  destruct (In_nth_error _ _ Hin) as (i0 & Hi0). destruct (Hms i0 h Hi0) as ((mu & sg) & Hq0 & Eh).
  assert (Hsg : 0 < sg) by (apply (Hp (mu, sg)); eapply nth_error_In; eauto).
  assert (Key : forall i c q, nth_error cs i = Some c -> nth_error ms i = Some q -> c <> 0 -> q = (mu, sg)).
  { intros i c q Hci Hq Hne. destruct (nth_some_ex pdfs i) as (t & Ht). { rewrite <- Lm. eapply nth_some_lt; eauto. }
    rewrite (Hsame i c t Hci Ht Hne) in Ht. destruct (Hms i h Ht) as (q' & Hq' & Eq'). congruence. }
  assert (Emp : rsum (zipwith (fun c q => c * fst q) cs ms) = mu).
  { rewrite (prop_sum cs _ mu); [rewrite Hs; ring|rewrite zipwith_length; lia|]. intros i c v Hci Hv. apply zw_nth_inv in Hv.
    destruct Hv as (c' & q & Hc' & Hq & ->). assert (c' = c) by congruence. subst c'. destruct (Req_dec c 0) as [->|Hne]; [lra|].
    rewrite (Key i c q); auto. }
  assert (Esp : rsum (zipwith (fun c q => c * snd q) cs ms) = sg).
  { rewrite (prop_sum cs _ sg); [rewrite Hs; ring|rewrite zipwith_length; lia|]. intros i c v Hci Hv. apply zw_nth_inv in Hv.
    destruct Hv as (c' & q & Hc' & Hq & ->). assert (c' = c) by congruence. subst c'. destruct (Req_dec c 0) as [->|Hne]; [lra|].
    rewrite (Key i c q); auto. }
  rewrite Esp, Emp in *. destruct (Reqb_spec sg 0); [lra|].
  match type of Eq with context [map ?g (seq 0 N)] => assert (Ef : map g (seq 0 N) = h) end.
  { apply nth_ext_eq; [rewrite f_length; auto|]. intros k u v Hu Hv. apply seq_map_nth in Hu. destruct Hu as (Hk & ->).
    rewrite (prop_sum cs _ v); [rewrite Hs; ring|rewrite map_length, zipwith_length, combine_length, map_length; lia|].
    intros i c x Hci Hx. apply map_nth_inv in Hx. destruct Hx as (r & Hr & ->). apply zw_nth_inv in Hr. destruct Hr as (ca & th & Hca & Hthi & ->).
    apply combine_nth_inv in Hca. destruct Hca as (Hc1 & Hc2). assert (Ec : fst ca = c) by congruence. rewrite Ec.
    apply map_nth_inv in Hc2. destruct Hc2 as (q & Hq & Ea). rewrite Ea.
    destruct (Req_dec c 0) as [->|Hne].
    - destruct (nth_in_or_default k (map (fun x => 0 * x * (snd q / sg)) th) 0) as [Hi| -> ]; [|lra].
      apply in_map_iff in Hi. destruct Hi as (y & <- & _). lra.
    - pose proof (Key i c q Hci Hq Hne) as Eqq. subst q. cbn [fst snd] in *.
      destruct (nth_some_ex pdfs i) as (t & Ht). { rewrite <- Lm. eapply nth_some_lt; eauto. }
      rewrite (Hsame i c t Hci Ht Hne) in Ht. destruct (Hth i h (mu, sg) Ht Hq) as (th' & Hth' & _ & El). assert (th' = th) by congruence. subst th'.
      cbn [fst snd] in El. replace (map (fun x => sg / sg * x + (mu - mu * (sg / sg))) (mids edges)) with (mids edges) in El.
      2:{ symmetry. rewrite <- (map_id (mids edges)) at 2. apply map_ext. intros x. field. lra. }
      rewrite (lookup_mids m edges He h Lh) in El. assert (h = th) by congruence. subst th.
      apply nth_error_nth. rewrite (map_nth_some (fun x => c * x * (sg / sg)) h k v Hv). f_equal. field. lra. }
  rewrite Ef in Eq. rewrite Eq. assert (Hq : 0 < rsum (zipwith Rmult h (ws m edges))) by (apply prob_pos; auto; lra).
  eexists. split; [reflexivity|]. destruct (Reqb_spec (rsum (zipwith Rmult h (ws m edges))) 0); [lra|].
  split; rewrite integral_ws by auto; auto.
Qed.
End Full.
End Slice.
