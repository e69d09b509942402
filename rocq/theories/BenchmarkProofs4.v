(** * Proofs about pyirf/benchmarks/energy_bias_resolution.py: from the energy dispersion *)
From Coq Require Import String Reals List Bool ZArith Arith Lia Lra.
From Verif Require Import Num Numpy Lists SpecBinning MorphProofs MorphProofs2 Quantile QuantileProofs2 QuantileProofs3 EstimatorProofs3 IRFProofs2 Benchmarks SpecBenchmarks.
Import ListNotations.
Open Scope R_scope.

Lemma at_nth (l : list R) k : (k < length l)%nat -> nth_error l k = Some (nth k l 0).
Proof. apply nth_error_nth'. Qed.
Lemma content_zero : forall h edges x, increasing edges -> (forall a, nth_error edges 0 = Some a -> x <= a) -> content_below edges h x = 0.
Proof.
  induction h as [|d h IH]; intros edges x Hi Hx; [destruct edges as [|? [|? ?]]; auto|]. destruct edges as [|a [|b edges]]; auto. cbn [content_below].
  assert (Hab : a < b) by (apply (Hi 0%nat a b); auto). specialize (Hx a eq_refl).
  assert (E : Rmax 0 (Rmin x b - a) = 0) by (rewrite Rmin_left by lra; apply Rmax_left; lra). rewrite E. change (d * 0 + content_below (b :: edges) h x = 0). rewrite (IH (b :: edges) x); [lra| |].
  - intros i y z Hy Hz. apply (Hi (S i) y z); auto.
  - intros q Hq. cbn in Hq. injection Hq as <-. lra.
Qed.
Lemma content_mono : forall h edges x y, (forall d, In d h -> 0 <= d) -> x <= y -> content_below edges h x <= content_below edges h y.
Proof.
  induction h as [|d h IH]; intros edges x y Hh Hxy; [destruct edges as [|? [|? ?]]; cbn; lra|]. destruct edges as [|a [|b edges]]; cbn [content_below]; [lra|lra|].
  pose proof (IH (b :: edges) x y (fun e He => Hh e (or_intror He)) Hxy) as I. change (d * Rmax 0 (Rmin x b - a) + content_below (b :: edges) h x <= d * Rmax 0 (Rmin y b - a) + content_below (b :: edges) h y).
  assert (Rmax 0 (Rmin x b - a) <= Rmax 0 (Rmin y b - a)). { apply Rle_max_compat_l. assert (Rmin x b <= Rmin y b); [|lra]. apply Rle_min_compat_r; auto. }
  assert (d * Rmax 0 (Rmin x b - a) <= d * Rmax 0 (Rmin y b - a)) by (apply Rmult_le_compat_l; auto; apply Hh; left; auto). lra.
Qed.
(** inside a bin *)
Lemma content_in_bin : forall h edges j a b d x, increasing edges -> nth_error edges j = Some a -> nth_error edges (S j) = Some b -> nth_error h j = Some d -> a <= x <= b ->
  content_below edges h x = content_below edges h a + d * (x - a).
Proof.
  induction h as [|d0 h IH]; intros edges j a b d x Hi Ha Hb Hd Hx; [destruct j; discriminate|]. destruct edges as [|e0 [|e1 edges]]; [destruct j; discriminate|destruct j; [discriminate|destruct j; discriminate]|].
  assert (H01 : e0 < e1) by (apply (Hi 0%nat); auto). assert (Hi' : increasing (e1 :: edges)) by (intros i y z Hy Hz; apply (Hi (S i) y z); auto).
  change (d0 * Rmax 0 (Rmin x e1 - e0) + content_below (e1 :: edges) h x = d0 * Rmax 0 (Rmin a e1 - e0) + content_below (e1 :: edges) h a + d * (x - a)).
  destruct j as [|j].
  - cbn in Ha, Hb, Hd. injection Ha as <-. injection Hb as <-. injection Hd as <-. rewrite (content_zero h (e1 :: edges) x Hi'), (content_zero h (e1 :: edges) e0 Hi').
    + rewrite !Rmin_left by lra. rewrite (Rmax_right 0 (x - e0)), (Rmax_left 0 (e0 - e0)) by lra. ring.
    + intros q Hq. cbn in Hq. injection Hq as <-. lra.
    + intros q Hq. cbn in Hq. injection Hq as <-. lra.
  - assert (e1 <= a). { destruct j as [|j]; [cbn in Ha; injection Ha as <-; lra|]. apply Rlt_le. apply (increasing_le (e0 :: e1 :: edges) 1 (S (S j))); auto; lia. }
    rewrite (Rmin_right x e1), (Rmin_right a e1) by lra. rewrite (IH (e1 :: edges) j a b d x Hi' Ha Hb Hd Hx). ring.
Qed.
Lemma cdf_content : forall h edges s j, increasing edges -> length edges = (length h + 1)%nat -> (j < length h)%nat ->
  nth j (cumsum_from s (zipwith Rmult h (diffR edges))) 0 = s + content_below edges h (nth (S j) edges 0).
Proof.
  induction h as [|d h IH]; intros edges s j Hi Hl Hj; [cbn in Hj; lia|]. destruct edges as [|e0 [|e1 edges]]; [cbn in Hl; lia|cbn in Hl; lia|].
  assert (H01 : e0 < e1) by (apply (Hi 0%nat); auto). assert (Hi' : increasing (e1 :: edges)) by (intros i y z Hy Hz; apply (Hi (S i) y z); auto).
  change (zipwith Rmult (d :: h) (diffR (e0 :: e1 :: edges))) with (d * (e1 - e0) :: zipwith Rmult h (diffR (e1 :: edges))). cbn [cumsum_from].
  destruct j as [|j].
  - cbn [nth]. change (s + d * (e1 - e0) = s + (d * Rmax 0 (Rmin e1 e1 - e0) + content_below (e1 :: edges) h e1)). rewrite (content_zero h (e1 :: edges) e1 Hi') by (intros q Hq; cbn in Hq; injection Hq as <-; lra).
    rewrite Rmin_left by lra. rewrite Rmax_right by lra. ring.
  - cbn [nth]. rewrite (IH (e1 :: edges) (s + d * (e1 - e0)) j Hi'); [|cbn in Hl |- *; lia|cbn in Hj; lia]. cbn [length] in Hj, Hl.
    change (nth (S j) (e1 :: edges) 0) with (nth j edges 0). set (x := nth j edges 0).
    change (s + d * (e1 - e0) + content_below (e1 :: edges) h x = s + (d * Rmax 0 (Rmin x e1 - e0) + content_below (e1 :: edges) h x)).
    assert (e1 < x). { apply (increasing_head_le e1 edges x Hi'). apply nth_In. lia. } rewrite Rmin_right by lra. rewrite Rmax_right by lra. ring.
Qed.
Lemma count_le_nd l q : (forall i a b, nth_error l i = Some a -> nth_error l (S i) = Some b -> a <= b) -> let c := count (fun a => Rleb a q) l in
  (c <= length l)%nat /\ (forall k, (k < c)%nat -> nth k l 0 <= q) /\ (forall k, (c <= k < length l)%nat -> q < nth k l 0).
Proof.
  induction l as [|a l IH]; intros Hs; [cbn; repeat split; intros; lia|]. assert (Hs' : forall i a b, nth_error l i = Some a -> nth_error l (S i) = Some b -> a <= b) by (intros i; apply (Hs (S i))).
  destruct (IH Hs') as (I1 & I2 & I3). cbv zeta. unfold count in *. cbn [filter]. destruct (Rleb_spec a q) as [Hle|Hgt%Rnot_le_lt].
  - cbn [length]. split; [lia|]. split; intros [|k] Hk; cbn [nth]; [auto|apply I2; lia|lia|apply I3; lia].
  - assert (Hall : forall k, (k < length l)%nat -> a <= nth k l 0).
    { intros k Hk. induction k as [|k IHk]; [apply (Hs 0%nat a (nth 0 l 0)); [auto|exact (at_nth l 0%nat Hk)]|]. specialize (IHk ltac:(lia)). pose proof (Hs' k _ _ (at_nth l k ltac:(lia)) (at_nth l (S k) Hk)). lra. }
    assert (E : filter (fun a => Rleb a q) l = []). { destruct (filter (fun a => Rleb a q) l) eqn:Ef; auto. assert (In r (filter (fun a => Rleb a q) l)) by (rewrite Ef; left; auto). apply filter_In in H. destruct H as (H & Hb). apply Rleb_true in Hb. apply (In_nth _ _ 0) in H. destruct H as (k & Hk & <-). specialize (Hall k Hk). lra. }
    rewrite E. cbn [length]. split; [lia|]. split; [intros; lia|]. intros [|k] Hk; cbn [nth]; [auto|]. specialize (Hall k ltac:(lia)). lra.
Qed.
Lemma interp_quantile edges h q : dispersion_column edges h -> dispersion_quantile edges h q (np_interp (cumsum (zipwith Rmult h (diffR edges))) (tl edges) q).
Proof.
  intros (Hi & Hl & Hn & Hh). set (cdf := cumsum (zipwith Rmult h (diffR edges))). set (n := length h) in *.
  assert (Lw : length (zipwith Rmult h (diffR edges)) = n) by (rewrite zipwith_length, diffR_length, Hl; unfold n; lia).
  assert (Pw : forall v, In v (zipwith Rmult h (diffR edges)) -> 0 <= v).
  { intros v Hv. apply In_nth_error in Hv. destruct Hv as (i & Hv). apply zw_nth_inv in Hv. destruct Hv as (d & w & Hd & Hw & ->). apply Rmult_le_pos; [apply Hh; eapply nth_error_In; eauto|].
    assert (i < length (diffR edges))%nat by (eapply nth_some_lt; eauto). rewrite diffR_length in H. destruct (nth_some_ex edges i) as (a & Ha); [lia|]. destruct (nth_some_ex edges (S i)) as (b & Hb); [lia|]. rewrite (diffR_nth _ _ _ _ Ha Hb) in Hw. injection Hw as <-. pose proof (Hi i a b Ha Hb). lra. }
  destruct (cumsum_spec _ 0 Pw) as (C1 & _ & C3 & _). change (cumsum_from 0 (zipwith Rmult h (diffR edges))) with cdf in C1, C3. rewrite Lw in C1.
  assert (CC : forall j, (j < n)%nat -> nth j cdf 0 = content_below edges h (nth (S j) edges 0)) by (intros j Hj; unfold cdf, cumsum; rewrite cdf_content; auto; lra).
  assert (TL : forall j, nth j (tl edges) 0 = nth (S j) edges 0) by (intros j; destruct edges; [destruct j; auto|auto]).
  destruct (count_le_nd cdf q C3) as (K1 & K2 & K3). set (c := count (fun a => Rleb a q) cdf) in *. rewrite C1 in K1, K3.
  exists (nth 1 edges 0), (nth n edges 0). split; [apply at_nth; lia|]. split; [replace (length edges - 1)%nat with n by lia; apply at_nth; lia|].
  unfold np_interp. fold c. rewrite C1, !TL. destruct (Nat.eqb_spec c 0) as [Hc|Hc].
  - assert (Hq : q < content_below edges h (nth 1 edges 0)) by (rewrite <- (CC 0%nat) by lia; apply K3; lia). split; [split; [lra|apply inc_nth_le; auto; lia]|]. split; [lra|]. split; [lra|]. split; [auto|].
    intros Hq'. exfalso. assert (content_below edges h (nth 1 edges 0) <= content_below edges h (nth n edges 0)) by (apply content_mono; auto; apply inc_nth_le; auto; lia). lra.
  - destruct (Nat.eqb_spec c n) as [Hcn|Hcn].
    + assert (Hq : content_below edges h (nth n edges 0) <= q). { replace n with (S (n - 1)) by lia. rewrite <- CC by lia. apply K2. lia. } replace (S (c - 1)) with n by lia.
      split; [split; [apply inc_nth_le; auto; lia|lra]|]. split; [lra|]. split; [auto|]. split; [|lra]. intros Hq'. exfalso.
      assert (content_below edges h (nth 1 edges 0) <= content_below edges h (nth n edges 0)) by (apply content_mono; auto; apply inc_nth_le; auto; lia). lra.
    + pose proof (K2 (c - 1)%nat ltac:(lia)) as A. pose proof (K3 c ltac:(lia)) as B. rewrite CC in A by lia. rewrite CC in B by lia. rewrite !CC by lia. replace (S (c - 1)) with c in * by lia.
      set (a := nth c edges 0) in *. set (b := nth (S c) edges 0) in *. assert (Hab : a < b) by (apply inc_nth_lt; auto; lia). set (d := nth c h 0).
      assert (Ha : nth_error edges c = Some a) by (apply at_nth; lia). assert (Hb : nth_error edges (S c) = Some b) by (apply at_nth; lia). assert (Hd : nth_error h c = Some d) by (apply at_nth; fold n; lia).
      pose proof (content_in_bin h edges c a b d b Hi Ha Hb Hd ltac:(lra)) as Eb. set (ca := content_below edges h a) in *.
      assert (Hd0 : 0 < d). { assert (0 < d * (b - a)) by lra. apply (Rmult_lt_reg_r (b - a)); lra. }
      set (x := if Reqb ca q then a else _). assert (Hx : a <= x < b /\ ca + d * (x - a) = q).
      { unfold x. destruct (Reqb_spec ca q) as [->|Hne]; [split; [lra|ring]|]. assert (Hcb : content_below edges h b - ca = d * (b - a)) by lra. rewrite Hcb.
        assert (E : (b - a) / (d * (b - a)) * (q - ca) + a = a + (q - ca) / d) by (field; lra). rewrite E. assert (0 <= (q - ca) / d) by (apply Rmult_le_pos; [lra|apply Rlt_le, Rinv_0_lt_compat; auto]).
        assert ((q - ca) / d < b - a). { apply (Rmult_lt_reg_l d); auto. replace (d * ((q - ca) / d)) with (q - ca) by (field; lra). lra. } split; [lra|field; lra]. }
      destruct Hx as (Hx & Hxq). assert (Ha1 : nth 1 edges 0 <= a) by (apply inc_nth_le; auto; lia). assert (Hbn : b <= nth n edges 0) by (apply inc_nth_le; auto; lia).
      assert (Cx : content_below edges h x = q) by (rewrite (content_in_bin h edges c a b d x Hi Ha Hb Hd ltac:(lra)); auto).
      assert (H1x : content_below edges h (nth 1 edges 0) <= q) by (rewrite <- Cx; apply content_mono; auto; lra).
      split; [lra|]. split; [auto|]. split; [|split; [lra|]].
      * intros _ y Hy Hyc. destruct (Rle_lt_dec y x) as [|Hlt]; auto. exfalso. set (y' := Rmin y b). assert (Hy' : x < y' <= b) by (split; [apply Rmin_glb_lt; lra|apply Rmin_r]).
        assert (content_below edges h y' <= content_below edges h y) by (apply content_mono; auto; apply Rmin_l). rewrite (content_in_bin h edges c a b d y' Hi Ha Hb Hd ltac:(lra)) in H. fold ca in H.
        assert (0 < d * (y' - x)) by (apply Rmult_lt_0_compat; lra). nra.
      * intros Hq'. exfalso. assert (content_below edges h x <= content_below edges h (nth n edges 0)) by (apply content_mono; auto; lra). lra.
Qed.
(** larger contents are reached later *)
Lemma quantile_order edges h p q x y : p <= q -> dispersion_quantile edges h p x -> dispersion_quantile edges h q y -> x <= y.
Proof.
  intros Hpq (e1 & el & H1 & H2 & Hx & X1 & X2 & X3 & X4) (e1' & el' & H1' & H2' & Hy & Y1 & Y2 & Y3 & Y4). rewrite H1 in H1'. injection H1' as <-. rewrite H2 in H2'. injection H2' as <-.
  destruct (Rlt_le_dec p (content_below edges h e1)) as [Hp|Hp]; [rewrite (X3 Hp); lra|]. destruct (Rlt_le_dec (content_below edges h el) q) as [Hq|Hq]; [rewrite (Y4 Hq); lra|].
  apply Y2; [lra|lra|]. rewrite X1; lra.
Qed.
Lemma zero_cdf edges h : dispersion_column edges h -> (forallb (fun c => Reqb c 0) (cumsum (zipwith Rmult h (diffR edges))) = true <-> forall d, In d h -> d = 0).
Proof.
  intros (Hi & Hl & Hn & Hh).
  assert (G : forall h edges s, increasing edges -> length edges = (length h + 1)%nat -> (forall d, In d h -> 0 <= d) -> s = 0 ->
     (forallb (fun c => Reqb c 0) (cumsum_from s (zipwith Rmult h (diffR edges))) = true <-> forall d, In d h -> d = 0)).
  { clear. induction h as [|d h IH]; intros edges s Hi Hl Hh Hs; [cbn; split; [contradiction|auto]|]. destruct edges as [|e0 [|e1 edges]]; [cbn in Hl; lia|cbn in Hl; lia|].
    assert (H01 : e0 < e1) by (apply (Hi 0%nat); auto). assert (Hi' : increasing (e1 :: edges)) by (intros i y z Hy Hz; apply (Hi (S i) y z); auto).
    change (zipwith Rmult (d :: h) (diffR (e0 :: e1 :: edges))) with (d * (e1 - e0) :: zipwith Rmult h (diffR (e1 :: edges))). cbn [cumsum_from forallb]. rewrite andb_true_iff, Reqb_true. subst s.
    assert (Hd : 0 + d * (e1 - e0) = 0 <-> d = 0). { split; [intros E|intros ->; ring]. assert (E' : d * (e1 - e0) = 0) by lra. apply Rmult_integral in E'. destruct E'; lra. } rewrite Hd. split.
    - intros (E & F) x [->|Hx]; auto. apply (IH (e1 :: edges) (0 + d * (e1 - e0)) Hi' ltac:(cbn in Hl |- *; lia) (fun y Hy => Hh y (or_intror Hy)) ltac:(rewrite E; ring)); auto.
    - intros H. assert (E : d = 0) by (apply H; left; auto). split; auto. apply (IH (e1 :: edges) (0 + d * (e1 - e0)) Hi' ltac:(cbn in Hl |- *; lia) (fun y Hy => Hh y (or_intror Hy)) ltac:(rewrite E; ring)). intros x Hx. apply H. right; auto. }
  apply G; auto.
Qed.
Lemma map_seq_at {A} (f : nat -> A) n j : (j < n)%nat -> nth_error (map f (seq 0 n)) j = Some (f j).
Proof. intros H. rewrite nth_error_map. assert (E : nth_error (seq 0 n) j = Some (nth j (seq 0 n) 0%nat)) by (apply nth_error_nth'; rewrite seq_length; auto). rewrite E, seq_nth by auto. auto. Qed.
Lemma from_dispersion lower upper ne nm no edisp edges : increasing edges -> (1 <= nm)%nat -> length edges = (nm + 1)%nat -> (forall e m o, 0 <= edisp e m o) -> lower <= upper ->
  exists out, bias_resolution_from_dispersion lower upper (ne, nm, no) edisp edges = Ok out /\ length out = ne /\
    forall e o, (e < ne)%nat -> (o < no)%nat -> exists row v, nth_error out e = Some row /\ length row = no /\ nth_error row o = Some v /\
      let h := map (fun m => edisp e m o) (seq 0 nm) in
      match v with
      | None => forall d, In d h -> d = 0
      | Some (b, r) => (exists d, In d h /\ d <> 0) /\ 0 <= r /\
          exists lo md hi, b = md - 1 /\ r = (hi - lo) / 2 /\ dispersion_quantile edges h lower lo /\ dispersion_quantile edges h (1/2) md /\ dispersion_quantile edges h upper hi
      end.
Proof.
  intros Hi Hn Hl Hp Hlu. unfold bias_resolution_from_dispersion. replace (length edges - 1)%nat with nm by lia. rewrite Nat.eqb_refl. eexists. split; [reflexivity|]. split; [rewrite map_length, seq_length; auto|].
  intros e o He Ho. do 2 eexists. split; [apply map_seq_at; auto|]. split; [rewrite map_length, seq_length; auto|]. split; [apply map_seq_at; auto|].
  cbv zeta. set (h := map (fun m => edisp e m o) (seq 0 nm)). assert (Hc : dispersion_column edges h).
  { repeat split; auto; try (unfold h; rewrite map_length, seq_length; auto). unfold h. intros d Hd. apply in_map_iff in Hd. destruct Hd as (m & <- & _). auto. }
  unfold column_bias_resolution. fold h. destruct (forallb _ _) eqn:E.
  - apply (zero_cdf edges h Hc); auto.
  - assert (Z : ~ (forall d, In d h -> d = 0)) by (intros X; apply (zero_cdf edges h Hc) in X; congruence). split; [|split].
    + destruct (Exists_dec (fun d => d <> 0) h (fun d => match Req_EM_T d 0 with left e => right (fun f => f e) | right n => left n end)) as [X|X]; [apply Exists_exists in X; auto|]. exfalso. apply Z. intros d Hd.
      destruct (Req_EM_T d 0); auto. exfalso. apply X. apply Exists_exists. eauto.
    + pose proof (quantile_order edges h lower upper _ _ Hlu (interp_quantile edges h lower Hc) (interp_quantile edges h upper Hc)). lra.
    + do 3 eexists. split; [reflexivity|]. split; [|split; [apply interp_quantile; auto|split; [apply interp_quantile; auto|apply interp_quantile; auto]]]. lra.
Qed.
Lemma dispersion_shape lower upper ne nm no edisp edges : nm <> (length edges - 1)%nat -> bias_resolution_from_dispersion lower upper (ne, nm, no) edisp edges = Err ValueError.
Proof. intros H. unfold bias_resolution_from_dispersion. destruct (Nat.eqb_spec nm (length edges - 1)); [congruence|auto]. Qed.
(** all events in the first bin: the median is said to be its upper edge and the resolution zero *)
Lemma first_bin lower upper edges h e1 v b r : dispersion_column edges h -> nth_error edges 1 = Some e1 -> 0 < lower -> lower <= upper -> lower <= 1/2 <= upper -> upper < content_below edges h e1 ->
  column_bias_resolution lower upper h edges = v -> v = Some (b, r) -> b = e1 - 1 /\ r = 0.
Proof.
  intros Hc H1 Hl Hlu Hm Hc1 E Ev. subst v. unfold column_bias_resolution in Ev. destruct (forallb _ _); [discriminate|]. injection Ev as <- <-.
  assert (F : forall q, q <= upper -> np_interp (cumsum (zipwith Rmult h (diffR edges))) (tl edges) q = e1).
  { intros q Hq. destruct (interp_quantile edges h q Hc) as (e1' & el & A & _ & _ & _ & _ & X & _). rewrite H1 in A. injection A as <-. apply X. lra. }
  rewrite !F by lra. split; lra.
Qed.
