(** * Proofs about the nearest facet, the nearest simplex and the extrapolators *)
From Coq Require Import Reals List Bool ZArith Arith Lia Lra.
From Verif Require Import Num Numpy Sort Table Binning SpecBinning BinningProofs Lists CutsProofs CutsProofs2 Utils SpecSimulations SpecIRF IRFProofs IRFProofs2 Morph SpecInterp MorphProofs MorphProofs2 Geometry GeometryProofs.
Import ListNotations.
Open Scope R_scope.

Lemma argbest_spec {A} (before : A -> A -> bool) (l : list A) :
  (forall a b c, before a b = false -> before b c = false -> before a c = false) ->
  (forall a b, before a b = true -> before b a = false) -> l <> [] ->
  exists k x, argbest before l = Ok k /\ nth_error l k = Some x /\ forall j y, nth_error l j = Some y -> before y x = false.
Proof.
  intros Ht Ha Hl. destruct l as [|a l]; [congruence|]. cbn [argbest].
  destruct (first_best_spec before Ht Ha l 1 (0%nat, a) [a] eq_refl eq_refl) as (x & Hx & Hm).
  { intros [|j] y Hj; cbn in Hj; [|destruct j; discriminate]. injection Hj as <-. cbn [snd].
    destruct (before a a) eqn:E; auto. pose proof (Ha _ _ E). congruence. }
  exists (first_best before (0%nat, a) 1 l), x. auto.
Qed.

Lemma facet_before_spec a b : facet_before a b = true <-> fst a < fst b \/ (fst a = fst b /\ snd a < snd b).
Proof.
  unfold facet_before. rewrite orb_true_iff, andb_true_iff.
  split; (intros [K|(K & K')]; [left|right]); rcmp; auto; split; rcmp; auto.
Qed.
Lemma facet_before_false a b : facet_before a b = false <-> fst b < fst a \/ (fst b = fst a /\ snd b <= snd a).
Proof.
  destruct (facet_before a b) eqn:E.
  - apply facet_before_spec in E. split; [discriminate|lra].
  - split; auto. intros _. destruct (Rlt_le_dec (fst b) (fst a)); auto. destruct (Rlt_le_dec (fst a) (fst b)).
    { assert (facet_before a b = true) by (apply facet_before_spec; auto). congruence. }
    right. split; [lra|]. destruct (Rlt_le_dec (snd a) (snd b)); auto.
    assert (facet_before a b = true) by (apply facet_before_spec; right; split; [lra|auto]). congruence.
Qed.
Lemma facet_trans a b c : facet_before a b = false -> facet_before b c = false -> facet_before a c = false.
Proof. rewrite !facet_before_false. lra. Qed.
Lemma facet_asym a b : facet_before a b = true -> facet_before b a = false.
Proof. rewrite facet_before_false, facet_before_spec. lra. Qed.

Lemma nearest_facet_spec facets target : facets <> [] -> exists k f, find_nearest_facet facets target = Ok k /\ nth_error facets k = Some f /\
  forall j g, nth_error facets j = Some g -> plumb_point_dist f target < plumb_point_dist g target \/
    (plumb_point_dist f target = plumb_point_dist g target /\ point_facet_angle f target <= point_facet_angle g target).
Proof.
  intros Hne. unfold find_nearest_facet.
  destruct (argbest_spec facet_before (map (fun line => (plumb_point_dist line target, point_facet_angle line target)) facets) facet_trans facet_asym)
    as (k & x & Ek & Hk & Hm). { destruct facets; [congruence|discriminate]. }
  rewrite Ek. apply map_nth_inv in Hk. destruct Hk as (f & Hf & ->). exists k, f. split; [auto|]. split; [auto|].
  intros j g Hg. specialize (Hm j _ (map_nth_some _ _ _ _ Hg)). apply facet_before_false in Hm. auto.
Qed.

(** *** C54: the nearest facet *)
Lemma c54_nearest (facets : list (point * point)) (target : point) :
  facets <> [] -> (forall f, In f facets -> fst f <> snd f) ->
  exists k f, find_nearest_facet facets target = Ok k /\ nth_error facets k = Some f /\
    forall g df dg, In g facets -> distance_to_segment (fst f) (snd f) target df -> distance_to_segment (fst g) (snd g) target dg ->
      df <= dg + 1/100000 * (distance (fst f) (snd f) + distance (fst g) (snd g)).
Proof.
  intros Hne Hd. destruct (nearest_facet_spec facets target Hne) as (k & f & Ek & Hf & Hm). exists k, f. split; [auto|]. split; [auto|].
  intros g df dg Hg Hdf Hdg. apply In_nth_error in Hg. destruct Hg as (j & Hj). specialize (Hm j g Hj).
  pose proof (c54_close (fst f) (snd f) target df (Hd f (nth_error_In _ _ Hf)) Hdf) as C1.
  pose proof (c54_close (fst g) (snd g) target dg (Hd g (nth_error_In _ _ Hj)) Hdg) as C2.
  rewrite <- surjective_pairing in C1, C2. revert C1 C2. generalize (distance (fst f) (snd f)) (distance (fst g) (snd g)). intros.
  assert (plumb_point_dist f target <= plumb_point_dist g target) by lra. unfold Rabs in *. destruct (Rcase_abs _); destruct (Rcase_abs _); lra.
Qed.
Lemma c54_nearest_exact (facets : list (point * point)) (target : point) :
  facets <> [] -> (forall f, In f facets -> fst f <> snd f) ->
  (forall f, In f facets -> exists s, foot_at (fst f) (snd f) target s /\ foot_clear s) ->
  exists k f, find_nearest_facet facets target = Ok k /\ nth_error facets k = Some f /\
    forall g df dg, In g facets -> distance_to_segment (fst f) (snd f) target df -> distance_to_segment (fst g) (snd g) target dg ->
      df <= dg /\ (df = dg -> point_facet_angle f target <= point_facet_angle g target).
Proof.
  intros Hne Hd Hc. destruct (nearest_facet_spec facets target Hne) as (k & f & Ek & Hf & Hm). exists k, f. split; [auto|]. split; [auto|].
  intros g df dg Hg Hdf Hdg. apply In_nth_error in Hg. destruct Hg as (j & Hj). specialize (Hm j g Hj).
  assert (U : forall q d, In q facets -> distance_to_segment (fst q) (snd q) target d -> d = plumb_point_dist q target).
  { intros q d Hq Hqd. destruct (Hc q Hq) as (s & Hs & Hcl). pose proof (c54_exact (fst q) (snd q) target s (Hd q Hq) Hs Hcl) as X.
    rewrite <- surjective_pairing in X. apply (seg_dist _ _ _ (Hd q Hq)) in X, Hqd. congruence. }
  rewrite (U f df (nth_error_In _ _ Hf) Hdf), (U g dg (nth_error_In _ _ Hj) Hdg). lra.
Qed.
Lemma c54_no_facet target : find_nearest_facet [] target = Err IndexError.
Proof. reflexivity. Qed.

(** *** the simplex of a facet *)
Lemma peqb_spec p q : peqb p q = true <-> p = q.
Proof. unfold peqb. rewrite andb_true_iff. destruct p, q; cbn [fst snd]. split; [intros (H & K); rcmp; congruence|intros E; injection E as -> ->; split; rcmp; auto]. Qed.
Lemma count_corners (s : triple) (p q : point) : fst (fst s) <> snd (fst s) -> fst (fst s) <> snd s -> snd (fst s) <> snd s -> p <> q ->
  let c := count (fun x => peqb x p || peqb x q) (corners s) in
  (c <= 2)%nat /\ (c = 2%nat <-> is_corner p s /\ is_corner q s).
Proof.
  destruct s as ((a, b), c). cbn [fst snd]. intros H1 H2 H3 Hpq. unfold corners, is_corner. cbn [fst snd].
  assert (E : forall x, {peqb x p || peqb x q = true /\ (x = p \/ x = q)} + {peqb x p || peqb x q = false /\ x <> p /\ x <> q}).
  { intros x. pose proof (peqb_spec x p). pose proof (peqb_spec x q). destruct (peqb x p) eqn:E1; [left; tauto|].
    destruct (peqb x q) eqn:E2; [left; tauto|]. right. split; auto. split; intros Q; [apply H in Q|apply H0 in Q]; discriminate. }
  unfold count. cbn [filter].
  destruct (E a) as [(-> & Ea)|(-> & Ea & Ea')]; destruct (E b) as [(-> & Eb)|(-> & Eb & Eb')]; destruct (E c) as [(-> & Ec)|(-> & Ec & Ec')]; cbn [length];
    (split; [|split; [intros Hn|intros (U & V)]]); try lia; clear E;
    repeat match goal with H : _ \/ _ |- _ => destruct H end; try congruence;
    repeat match goal with H : ?x = ?y |- _ => is_var x; is_var y; subst end; try congruence; auto.
Qed.

Lemma simplex_to_facet_spec (ss : list triple) (p q : point) :
  (forall s, In s ss -> fst (fst s) <> snd (fst s) /\ fst (fst s) <> snd s /\ snd (fst s) <> snd s) -> p <> q ->
  (exists s, In s ss /\ is_corner p s /\ is_corner q s) ->
  exists k s, find_simplex_to_facet ss (p, q) = Ok k /\ nth_error ss k = Some s /\ is_corner p s /\ is_corner q s.
Proof.
  intros Hd Hpq (s & Hs & Hc). unfold find_simplex_to_facet. cbn [fst snd].
  set (g := fun s : triple => count (fun x => peqb x p || peqb x q) (corners s)).
  destruct (argbest_spec (fun a b : nat => Nat.ltb b a) (map g ss)) as (k & x & Ek & Hk & Hm).
  { intros a b c. rewrite !Nat.ltb_ge. lia. } { intros a b. rewrite Nat.ltb_lt, Nat.ltb_ge. lia. } { destruct ss; [destruct Hs|discriminate]. }
  apply map_nth_inv in Hk. destruct Hk as (s' & Hs' & ->). exists k, s'. split; [auto|]. split; [auto|].
  apply In_nth_error in Hs. destruct Hs as (j & Hj). specialize (Hm j (g s) (map_nth_some _ _ _ _ Hj)). apply Nat.ltb_ge in Hm.
  destruct (Hd s (nth_error_In _ _ Hj)) as (D1 & D2 & D3). destruct (Hd s' (nth_error_In _ _ Hs')) as (D4 & D5 & D6).
  destruct (count_corners s p q D1 D2 D3 Hpq) as (_ & C1). destruct (count_corners s' p q D4 D5 D6 Hpq) as (C2 & C3).
  apply C3. apply C1 in Hc. fold (g s) in Hc. fold (g s') in C2, C3. fold (g s'). lia.
Qed.

Lemma proper_distinct (a b c : point) : proper_triangle a b c -> a <> b /\ a <> c /\ b <> c.
Proof. unfold proper_triangle, doubled_area. intros H. repeat split; intros E; apply H; subst; ring. Qed.
Lemma at_point_nth l i p : nth_error l i = Some p -> at_point l i = p.
Proof. intros H. unfold at_point. apply nth_error_nth; auto. Qed.

Section Mesh.
Variables (pts : list point) (sx : list (nat * nat * nat)) (hl : list (nat * nat)).
Hypothesis G : good_mesh pts sx hl.
Let T := mkTri pts sx hl.
Lemma simplex_nth k s t : nth_error sx k = Some s -> triangle_of pts s t -> nth_error (simplex_points T) k = Some t.
Proof.
  intros Hk (H1 & H2 & H3). unfold simplex_points. unfold T; cbn [simplices points].
  erewrite map_nth_some by exact Hk. destruct s as ((i & j) & l), t as ((a & b) & c). cbn [fst snd] in *.
  rewrite (at_point_nth _ _ _ H1), (at_point_nth _ _ _ H2), (at_point_nth _ _ _ H3). auto.
Qed.
Lemma simplex_inv k t : nth_error (simplex_points T) k = Some t -> exists s, nth_error sx k = Some s /\ triangle_of pts s t /\ proper_triangle (fst (fst t)) (snd (fst t)) (snd t).
Proof.
  intros Hk. unfold simplex_points in Hk. unfold T in Hk; cbn [simplices points] in Hk. pose proof Hk as Hk'. apply map_nth_inv in Hk. destruct Hk as (s & Hs & _).
  destruct G as (_ & G1 & _). destruct (G1 s (nth_error_In _ _ Hs)) as (t' & Ht' & Hp). pose proof (simplex_nth _ _ _ Hs Ht') as Q.
  assert (t' = t) by (unfold simplex_points in Q; unfold T in Q; cbn [simplices points] in Q; congruence). subst. eauto.
Qed.
Lemma simplex_distinct s : In s (simplex_points T) -> fst (fst s) <> snd (fst s) /\ fst (fst s) <> snd s /\ snd (fst s) <> snd s.
Proof. intros Hs. apply In_nth_error in Hs. destruct Hs as (k & Hk). apply simplex_inv in Hk. destruct Hk as (_ & _ & _ & Hp). apply proper_distinct; auto. Qed.
Lemma facet_inv k f : nth_error (facet_points T) k = Some f -> exists h, nth_error hl k = Some h /\ side_of pts h (fst f) (snd f) /\ fst f <> snd f /\
  exists s, In s (simplex_points T) /\ is_corner (fst f) s /\ is_corner (snd f) s.
Proof.
  intros Hk. unfold facet_points in Hk. unfold T in Hk; cbn [hull points] in Hk. apply map_nth_inv in Hk. destruct Hk as (h & Hh & ->).
  destruct G as (_ & _ & G2). destruct (G2 h (nth_error_In _ _ Hh)) as (p & q & s & t & (S1 & S2) & Hpq & Hs & Ht & C1 & C2).
  cbn [fst snd]. rewrite (at_point_nth _ _ _ S1), (at_point_nth _ _ _ S2). exists h. split; [auto|]. split; [split; auto|]. split; [auto|].
  apply In_nth_error in Hs. destruct Hs as (j & Hj). exists t. split; [|auto]. eapply nth_error_In. apply (simplex_nth j s t); auto.
Qed.
Lemma facet_in h p q : In h hl -> side_of pts h p q -> In (p, q) (facet_points T).
Proof.
  intros Hh (H1 & H2). unfold facet_points. unfold T; cbn [hull points]. apply in_map_iff. exists h. split; [|auto].
  rewrite (at_point_nth _ _ _ H1), (at_point_nth _ _ _ H2). auto.
Qed.
Lemma facets_ne : facet_points T <> [].
Proof. destruct G as (H & _). unfold facet_points. unfold T; cbn [hull]. destruct hl; [congruence|discriminate]. Qed.

Lemma weighted_rows_spec n c rows : length c = length rows -> weighted_columns n c rows (weighted_rows n c rows).
Proof.
  intros Hl. unfold weighted_columns, weighted_rows, column_sum. split; [rewrite map_length, seq_length; auto|].
  intros j x Hj. apply map_nth_inv in Hj. destruct Hj as (k & Hk & ->).
  assert (k = j). { pose proof (nth_some_lt _ _ _ Hk) as L. rewrite seq_length in L. pose proof (seq_nth 0 0%nat L) as Q. rewrite (nth_error_nth _ _ _ Hk) in Q. auto. } subst k.
  unfold weighted. refine (eq_trans _ (eq_sym (total_rsum _))). f_equal. clear Hk. revert rows Hl. induction c as [|u c IH]; intros [|r rows] Hl; cbn in Hl; try lia; cbn [zipwith map combine]; [auto|].
  f_equal; [|apply IH; lia]. cbn [fst snd]. clear. revert j. induction r as [|v r IH]; intros [|j]; cbn; auto; ring.
Qed.

Lemma extrapolate_from_spec n params k s t target : nth_error sx k = Some s -> triangle_of pts s t -> proper_triangle (fst (fst t)) (snd (fst t)) (snd t) ->
  exists c out, extrapolate_from n T params k target = Ok out /\ barycentric t target c /\
    weighted_columns n c [nth (fst (fst s)) params []; nth (snd (fst s)) params []; nth (snd s) params []] out.
Proof.
  intros Hk Ht Hp. unfold extrapolate_from. unfold T; cbn [simplices points]. rewrite Hk. destruct s as ((i & j) & l), t as ((a & b) & d). destruct Ht as (H1 & H2 & H3). cbn [fst snd] in *.
  rewrite (at_point_nth _ _ _ H1), (at_point_nth _ _ _ H2), (at_point_nth _ _ _ H3).
  set (c := barycentric_2D_interpolation_coefficients a b d target).
  destruct (c50_weights a b d target c) as (W1 & W2 & W3 & W4). { unfold proper_triangle, doubled_area in Hp. intros E. apply Hp. lra. } { auto. }
  exists c. eexists. split; [reflexivity|]. split; [unfold barycentric; cbn [fst snd]; auto|]. apply weighted_rows_spec. rewrite W1. auto.
Qed.

(** *** C52, two dimensions *)
Lemma c52_nearest n params target : exists k s t h f c out,
  find_nearest_simplex T target = Ok k /\ nth_error sx k = Some s /\ triangle_of pts s t /\
  In h hl /\ side_of pts h (fst f) (snd f) /\ is_corner (fst f) t /\ is_corner (snd f) t /\
  (forall h' f' d d', In h' hl -> side_of pts h' (fst f') (snd f') ->
     distance_to_segment (fst f) (snd f) target d -> distance_to_segment (fst f') (snd f') target d' ->
     d <= d' + 1/100000 * (distance (fst f) (snd f) + distance (fst f') (snd f'))) /\
  extrapolate2D n T params target = Ok out /\ barycentric t target c /\
  weighted_columns n c [nth (fst (fst s)) params []; nth (snd (fst s)) params []; nth (snd s) params []] out.
Proof.
  destruct (c54_nearest (facet_points T) target facets_ne) as (kf & f & Ef & Hf & Hm).
  { intros g Hg. apply In_nth_error in Hg. destruct Hg as (j & Hj). apply facet_inv in Hj. destruct Hj as (_ & _ & _ & H & _). auto. }
  destruct (facet_inv kf f Hf) as (h & Hh & Hside & Hfd & Hex).
  destruct (simplex_to_facet_spec (simplex_points T) (fst f) (snd f) simplex_distinct Hfd Hex) as (k & t & Ek & Hk & C1 & C2).
  rewrite <- surjective_pairing in Ek. destruct (simplex_inv k t Hk) as (s & Hs & Ht & Hp).
  destruct (extrapolate_from_spec n params k s t target Hs Ht Hp) as (c & out & Eo & Hb & Hw).
  assert (En : find_nearest_simplex T target = Ok k). { unfold find_nearest_simplex. rewrite Ef. cbn [rbind]. rewrite Hf. auto. }
  exists k, s, t, h, f, c, out. split; [auto|]. split; [auto|]. split; [auto|]. split; [eapply nth_error_In; eauto|]. split; [auto|]. split; [auto|]. split; [auto|].
  split; [|split; [|auto]].
  - intros h' f' d d' Hh' Hs' Hd Hd'. eapply Hm; eauto. rewrite (surjective_pairing f'). eapply facet_in; eauto.
  - unfold extrapolate2D. rewrite En. auto.
Qed.
Lemma affine_weighted (f : R * R -> R) t target c : affine_plane f -> barycentric t target c ->
  weighted c [f (fst (fst t)); f (snd (fst t)); f (snd t)] = f target.
Proof.
  intros (a & b & d & Hf) (Hl & H1 & H2 & H3). destruct c as [|x [|y [|z [|]]]]; cbn in Hl; try lia. unfold weighted in *. cbn in *. rewrite !Hf. 
  assert (E1 : z = 1 - x - y) by lra. rewrite <- H2, <- H3. subst z. ring.
Qed.
Lemma samples_row n f params i p : samples n f pts params -> nth_error pts i = Some p -> nth i params [] = map (fun j => f j p) (seq 0 n).
Proof.
  intros (Hl & H) Hi. destruct (nth_some_ex params i) as (row & Hr). { rewrite Hl. eapply nth_some_lt; eauto. }
  rewrite (nth_error_nth _ _ _ Hr). eauto.
Qed.
Lemma weighted_affine n f params s t target c out : samples n f pts params -> (forall j, affine_plane (f j)) -> triangle_of pts s t -> barycentric t target c ->
  weighted_columns n c [nth (fst (fst s)) params []; nth (snd (fst s)) params []; nth (snd s) params []] out -> out = map (fun j => f j target) (seq 0 n).
Proof.
  intros Hs Ha (H1 & H2 & H3) Hb (Hl & Hw). apply nth_ext_eq; [rewrite map_length, seq_length; auto|]. intros j x y E Ey.
  apply seq_map_nth in Ey. destruct Ey as (Hj & ->). rewrite (Hw _ _ E).
  rewrite (samples_row _ _ _ _ _ Hs H1), (samples_row _ _ _ _ _ Hs H2), (samples_row _ _ _ _ _ Hs H3). cbn [map].
  assert (N : forall p, nth j (map (fun j => f j p) (seq 0 n)) 0 = f j p).
  { intros p. rewrite (nth_indep _ 0 (f 0%nat p)) by (rewrite map_length, seq_length; auto). rewrite (map_nth (fun j => f j p)), seq_nth; auto. }
  rewrite !N. apply affine_weighted; auto.
Qed.
Lemma c52_affine_2d n f params target : samples n f pts params -> (forall j, affine_plane (f j)) ->
  extrapolate2D n T params target = Ok (map (fun j => f j target) (seq 0 n)).
Proof.
  intros Hs Ha. destruct (c52_nearest n params target) as (k & s & t & h & g & c & out & _ & _ & Ht & _ & _ & _ & _ & _ & Eo & Hb & Hw).
  rewrite Eo. f_equal. eapply weighted_affine; eauto.
Qed.
End Mesh.

(** *** C52, one dimension *)
Lemma fold_min_le l : forall a x, x = a \/ In x l -> fold_left Rmin l a <= x.
Proof.
  induction l as [|b l IH]; intros a x Hx; cbn [fold_left].
  - destruct Hx as [->|[]]. lra.
  - destruct Hx as [->|[->|Hx]]; [| |apply IH; auto].
    + apply Rle_trans with (Rmin a b); [apply IH; auto|apply Rmin_l].
    + apply Rle_trans with (Rmin a x); [apply IH; auto|apply Rmin_r].
Qed.
Lemma fold_min_in l : forall a, fold_left Rmin l a = a \/ In (fold_left Rmin l a) l.
Proof.
  induction l as [|b l IH]; intros a; cbn [fold_left]; auto. destruct (IH (Rmin a b)) as [E|E]; [|right; right; auto].
  rewrite E. unfold Rmin. destruct (Rle_dec a b); auto. right; left; auto.
Qed.
Lemma list_min_spec l : l <> [] -> In (list_min l) l /\ forall x, In x l -> list_min l <= x.
Proof.
  destruct l as [|a l]; [congruence|]. intros _. unfold list_min. split.
  - destruct (fold_min_in l a) as [->|H]; [left|right]; auto.
  - intros x [->|Hx]; apply fold_min_le; auto.
Qed.
Lemma pyget_end {A} (l : list A) k x : (0 < k)%nat -> (k <= length l)%nat -> nth_error l (length l - k) = Some x -> pyget l (- Z.of_nat k) = Ok x.
Proof.
  intros Hk Hl H. unfold pyget. destruct (Z.ltb_spec (- Z.of_nat k) 0); [|lia]. destruct (Z.ltb_spec (- Z.of_nat k + Z.of_nat (length l)) 0); [lia|].
  replace (Z.to_nat (- Z.of_nat k + Z.of_nat (length l))) with (length l - k)%nat by lia. rewrite H. auto.
Qed.
(** the two grid points used: the first two below the grid, the last two otherwise *)
Lemma segment_1d {A} (grid : list R) (rows : list A) target : (2 <= length grid)%nat -> length rows = length grid ->
  exists k a b ra rb, let '(i, j) := segment_inds grid target in
    pyget grid i = Ok a /\ pyget grid j = Ok b /\ pyget rows i = Ok ra /\ pyget rows j = Ok rb /\
    nth_error grid k = Some a /\ nth_error grid (S k) = Some b /\ nth_error rows k = Some ra /\ nth_error rows (S k) = Some rb /\
    (((forall x, In x grid -> target < x) /\ k = 0%nat) \/ ((exists x, In x grid /\ x <= target) /\ k = (length grid - 2)%nat)).
Proof.
  intros Hg Hr. unfold segment_inds.
  assert (Hne : grid <> []) by (destruct grid; [cbn in Hg; lia|discriminate]). destruct (list_min_spec grid Hne) as (M1 & M2).
  destruct (Rltb target (list_min grid)) eqn:E; rcmp.
  - destruct (nth_some_ex grid 0) as (a & Ha); [lia|]. destruct (nth_some_ex grid 1) as (b & Hb); [lia|].
    destruct (nth_some_ex rows 0) as (ra & Hra); [lia|]. destruct (nth_some_ex rows 1) as (rb & Hrb); [lia|].
    exists 0%nat, a, b, ra, rb. repeat (split; [first [exact (pyget_nat grid 0 a Ha)|exact (pyget_nat grid 1 b Hb)|exact (pyget_nat rows 0 ra Hra)|exact (pyget_nat rows 1 rb Hrb)|auto]|]).
    left. split; auto. intros x Hx. apply M2 in Hx. lra.
  - destruct (nth_some_ex grid (length grid - 2)) as (a & Ha); [lia|]. destruct (nth_some_ex grid (length grid - 1)) as (b & Hb); [lia|].
    destruct (nth_some_ex rows (length rows - 2)) as (ra & Hra); [lia|]. destruct (nth_some_ex rows (length rows - 1)) as (rb & Hrb); [lia|].
    assert (E1 : S (length grid - 2) = (length grid - 1)%nat) by lia.
    exists (length grid - 2)%nat, a, b, ra, rb. rewrite E1.
    split; [apply (pyget_end grid 2 a); auto; lia|]. split; [apply (pyget_end grid 1 b); auto; lia|].
    split; [apply (pyget_end rows 2 ra); auto; lia|]. split; [apply (pyget_end rows 1 rb); auto; lia|].
    rewrite <- Hr at 3 4. split; [auto|]. split; [auto|]. split; [auto|]. split; [auto|]. right. split; [|auto]. exists (list_min grid). split; auto.
Qed.
Lemma segment_1d_ne (grid : list R) (k : nat) a b : NoDup grid -> nth_error grid k = Some a -> nth_error grid (S k) = Some b -> a <> b.
Proof.
  intros Hn Ha Hb E. subst b. assert (k = S k); [|lia]. apply (proj1 (NoDup_nth_error grid) Hn); [eapply nth_some_lt; eauto|congruence].
Qed.
Lemma c52_segment n grid params target : NoDup grid -> (2 <= length grid)%nat -> length params = length grid ->
  exists k a b ra rb c out,
    nth_error grid k = Some a /\ nth_error grid (S k) = Some b /\ nth_error params k = Some ra /\ nth_error params (S k) = Some rb /\
    (((forall x, In x grid -> target < x) /\ k = 0%nat) \/ ((exists x, In x grid /\ x <= target) /\ k = (length grid - 2)%nat)) /\
    extrapolate1D n grid params target = Ok out /\ total c = 1 /\ weighted c [a; b] = target /\ List.length c = 2%nat /\
    weighted_columns n c [ra; rb] out.
Proof.
  intros Hn Hg Hp. destruct (segment_1d grid params target Hg Hp) as (k & a & b & ra & rb & H). unfold extrapolate1D.
  destruct (segment_inds grid target) as (i & j). destruct H as (E1 & E2 & E3 & E4 & N1 & N2 & N3 & N4 & Hk).
  pose proof (segment_1d_ne grid k a b Hn N1 N2) as Hab.
  pose proof (c49_weights a b target Hab) as Hw. set (c := [(b - target) / (b - a); (target - a) / (b - a)]) in *.
  destruct (c49_sum a b target c Hw) as (S1 & S2 & _).
  exists k, a, b, ra, rb, c, (weighted_rows n c [ra; rb]). split; [auto|]. split; [auto|]. split; [auto|]. split; [auto|]. split; [auto|].
  rewrite E1, E2. cbn [rbind]. rewrite Hw. cbn [rbind]. rewrite E3, E4. cbn [rbind]. split; [auto|]. split; [auto|]. split; [auto|]. split; [auto|].
  apply weighted_rows_spec. auto.
Qed.
Lemma c52_affine_1d n f grid params target : NoDup grid -> (2 <= length grid)%nat -> samples n f grid params -> (forall j, affine_line (f j)) ->
  extrapolate1D n grid params target = Ok (map (fun j => f j target) (seq 0 n)).
Proof.
  intros Hn Hg (Hl & Hs) Ha. destruct (c52_segment n grid params target Hn Hg Hl) as (k & a & b & ra & rb & c & out & N1 & N2 & N3 & N4 & _ & Eo & S1 & S2 & L & (Lo & Hw)).
  rewrite Eo. f_equal. apply nth_ext_eq; [rewrite map_length, seq_length; auto|]. intros j x y E Ey. apply seq_map_nth in Ey. destruct Ey as (Hj & ->). rewrite (Hw _ _ E).
  rewrite (Hs _ _ _ N1 N3), (Hs _ _ _ N2 N4). cbn [map].
  assert (N : forall p, nth j (map (fun j => f j p) (seq 0 n)) 0 = f j p).
  { intros p. rewrite (nth_indep _ 0 (f 0%nat p)) by (rewrite map_length, seq_length; auto). rewrite (map_nth (fun j => f j p)), seq_nth; auto. }
  rewrite !N. destruct (Ha j) as (u & v & Hf). rewrite !Hf. destruct c as [|c0 [|c1 [|]]]; cbn in L; try lia. unfold weighted in *. cbn in *.
  assert (E1 : c1 = 1 - c0) by lra. rewrite <- S2. subst c1. ring.
Qed.
