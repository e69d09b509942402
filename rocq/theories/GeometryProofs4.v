(** * Proofs about the visible edges extrapolator *)
From Coq Require Import Reals List Bool ZArith Arith Lia Lra.
From Verif Require Import Num Numpy Sort Table Binning SpecBinning BinningProofs Lists CutsProofs CutsProofs2 Utils SpecSimulations SpecIRF IRFProofs IRFProofs2 Morph SpecInterp MorphProofs MorphProofs2 Geometry GeometryProofs GeometryProofs2.
Import ListNotations.
Open Scope R_scope.

Lemma proper_rot (a b c : point) : proper_triangle a b c <-> proper_triangle b c a.
Proof. unfold proper_triangle, doubled_area. split; intros H E; apply H; lra. Qed.
Lemma proper_swap (a b c : point) : proper_triangle a b c <-> proper_triangle b a c.
Proof. unfold proper_triangle, doubled_area. split; intros H E; apply H; lra. Qed.

(** *** C53: the visible facets span a simplex with the target *)
Lemma c53_visible (full : list triple) (target p q : point) :
  (forall s, In s full -> proper_triangle (fst (fst s)) (snd (fst s)) (snd s)) ->
  In (p, q) (find_visible_facets full target) ->
  proper_triangle p q target /\ exists s, In s full /\ is_corner target s /\ is_corner p s /\ is_corner q s.
Proof.
  intros Hp Hin. unfold find_visible_facets in Hin. apply in_flat_map in Hin. destruct Hin as (s & Hs & Hin). specialize (Hp s Hs).
  destruct s as ((a & b) & c). cbn [fst snd] in Hp. unfold corners in Hin. cbn [filter] in Hin.
  assert (E : forall x, {peqb x target = true /\ x = target} + {peqb x target = false /\ x <> target}).
  { intros x. pose proof (peqb_spec x target) as Q. destruct (peqb x target) eqn:E; [left; tauto|]. right. split; auto. intros H. apply Q in H. discriminate. }
  unfold is_corner.
  destruct (E a) as [(Ea & Ha)|(Ea & Ha)]; destruct (E b) as [(Eb & Hb)|(Eb & Hb)]; destruct (E c) as [(Ec & Hc)|(Ec & Hc)]; rewrite Ea, Eb, Ec in Hin; cbn [negb] in Hin;
    try (destruct Hin; fail); destruct Hin as [Hin|[]]; injection Hin as <- <-.
  - split; [subst a; apply (proj1 (proper_rot target b c)); auto|]. exists (a, b, c). cbn [fst snd]. subst; tauto.
  - split; [subst b; apply (proj1 (proper_rot target a c)), (proj1 (proper_swap a target c)); auto|]. exists (a, b, c). cbn [fst snd]. subst; tauto.
  - split; [subst c; auto|]. exists (a, b, c). cbn [fst snd]. subst; tauto.
Qed.

Lemma angle_pos (p q target : point) : proper_triangle p q target -> 0 < acos (point_facet_angle (p, q) target).
Proof.
  intros H. destruct (proper_distinct p q target H) as (_ & H1 & H2). destruct (c54_angle p q target H1 H2) as (_ & _ & B). specialize (B H).
  apply (acos_bound_lt _ B).
Qed.
(** *** C53: the weights *)
Lemma c53_weights (visible : list (point * point)) (target : point) m : visible <> [] ->
  (forall f, In f visible -> proper_triangle (fst f) (snd f) target) ->
  let c := compute_extrapolation_weights visible target m in
  List.length c = List.length visible /\ (forall w, In w c -> 0 < w <= 1) /\ total c = 1.
Proof.
  intros Hne Hp. cbv zeta. unfold compute_extrapolation_weights. set (w := map (fun line => acos (point_facet_angle line target) ^ (m + 1)) visible).
  assert (Hw : forall x, In x w -> 0 < x).
  { intros x Hx. apply in_map_iff in Hx. destruct Hx as (f & <- & Hf). apply pow_lt. rewrite (surjective_pairing f). apply angle_pos; auto. }
  assert (Hs : 0 < rsum w). { apply rsum_pos; auto. unfold w. destruct visible; [congruence|discriminate]. }
  split; [unfold w; rewrite !map_length; auto|]. split.
  - intros x Hx. apply in_map_iff in Hx. destruct Hx as (y & <- & Hy). split; [apply Rdiv_lt_0_compat; auto|].
    apply (Rmult_le_reg_r (rsum w)); auto. unfold Rdiv. rewrite Rmult_assoc, Rinv_l by lra. rewrite Rmult_1_r, Rmult_1_l.
    clear -Hw Hy. revert Hw Hy. induction w as [|a w IH]; intros Hw Hy; [destruct Hy|]; destruct Hy as [->|Hy]; rewrite rsum_cons.
    + assert (0 <= rsum w) by (apply rsum_nonneg; intros z Hz; left; apply Hw; right; auto). lra.
    + assert (y <= rsum w) by (apply IH; auto; intros z Hz; apply Hw; right; auto). assert (0 < a) by (apply Hw; left; auto). lra.
  - rewrite total_rsum. assert (E : forall l s, s <> 0 -> rsum (map (fun x => x / s) l) = rsum l / s).
    { intros l s Hs0. induction l as [|a l IH]; cbn [map]; rewrite ?rsum_nil, ?rsum_cons; [field; auto|]. rewrite IH. field; auto. }
    rewrite E by lra. field. lra.
Qed.
(** *** C53: the check of m *)
Lemma c53_m v : check_m v = match v with
  | PNotNumber => Err TypeError
  | PNum x => if positive_integer x then Ok x else Err ValueError end.
Proof. destruct v; auto. Qed.
Lemma positive_integer_spec x : positive_integer x = true <-> exists k : nat, x = Fin (INR (S k)).
Proof.
  split.
  - destruct x as [r| | |]; cbn [positive_integer]; try discriminate. intros H. apply andb_true_iff in H. destruct H as (H1 & H2). apply negb_true_iff in H1. unfold is_integer in H2. rcmp.
    assert (H3 : 0 < IZR (Int_part r)) by (rewrite <- H2; lra). apply (lt_IZR 0) in H3.
    exists (Z.to_nat (Int_part r - 1)). assert (E : INR (S (Z.to_nat (Int_part r - 1))) = r); [|rewrite E; auto].
    rewrite (INR_IZR_INZ (S (Z.to_nat (Int_part r - 1)))). rewrite H2 at 2. f_equal. lia.
  - intros (k & ->). cbn [positive_integer]. assert (0 < INR (S k)) by (apply lt_0_INR; lia). apply andb_true_iff. split; [apply negb_true_iff; rcmp; lra|].
    unfold is_integer. rcmp. rewrite (INR_IZR_INZ (S k)). f_equal. pose proof (base_Int_part (IZR (Z.of_nat (S k)))) as (B1 & B2).
    apply le_IZR in B1. assert (IZR (Z.of_nat (S k)) < IZR (Int_part (IZR (Z.of_nat (S k))) + 1)) by (rewrite plus_IZR; lra). apply lt_IZR in H0. lia.
Qed.

(** *** C53: the blended extrapolation *)
Lemma find_simplex_some (ss : list triple) f : ss <> [] -> exists k s, find_simplex_to_facet ss f = Ok k /\ nth_error ss k = Some s.
Proof.
  intros Hne. unfold find_simplex_to_facet.
  destruct (argbest_spec (fun a b : nat => Nat.ltb b a) (map (fun s => count (fun p => peqb p (fst f) || peqb p (snd f)) (corners s)) ss)) as (k & x & Ek & Hk & _).
  { intros a b c. rewrite !Nat.ltb_ge. lia. } { intros a b. rewrite Nat.ltb_lt, Nat.ltb_ge. lia. } { destruct ss; [congruence|discriminate]. }
  apply map_nth_inv in Hk. destruct Hk as (s & Hs & _). eauto.
Qed.
Lemma kept_all pshape : ~ In 1%nat pshape -> filter (fun d => negb (Nat.eqb d 1)) pshape = pshape.
Proof.
  induction pshape as [|d l IH]; intros H; cbn; auto. destruct (Nat.eqb_spec d 1) as [->|N]; cbn; [exfalso; apply H; left; auto|].
  f_equal. apply IH. intros Hi. apply H. right; auto.
Qed.
Section Visible.
Variables (pts : list point) (sx : list (nat * nat * nat)) (hl : list (nat * nat)).
Hypothesis G : good_mesh pts sx hl.
Let T := mkTri pts sx hl.
Lemma mesh_simplices : simplex_points T <> [].
Proof.
  destruct G as (H & _ & G2). destruct hl as [|h hl']; [congruence|]. destruct (G2 h (or_introl eq_refl)) as (p & q & s & t & _ & _ & Hs & _).
  unfold simplex_points, T. cbn [simplices]. destruct sx; [destruct Hs|discriminate].
Qed.
(** every visible facet contributes the extrapolation from a simplex of the grid, from one that has
    this facet as a side if there is one *)
Lemma c53_blend n pshape params m visible target : (2 <= length visible)%nat -> ~ In 1%nat pshape ->
  (forall f, In f visible -> proper_triangle (fst f) (snd f) target) ->
  exists w ext out, visible_edges_extrapolate n pshape T params m visible target = Ok (1%nat :: pshape, out) /\
    List.length w = List.length visible /\ List.length ext = List.length visible /\ (forall x, In x w -> 0 < x <= 1) /\ total w = 1 /\
    weighted_columns n w ext out /\
    forall i f e, nth_error visible i = Some f -> nth_error ext i = Some e -> exists s t c,
      In s sx /\ triangle_of pts s t /\ barycentric t target c /\
      weighted_columns n c [nth (fst (fst s)) params []; nth (snd (fst s)) params []; nth (snd s) params []] e /\
      ((exists s' t', In s' sx /\ triangle_of pts s' t' /\ is_corner (fst f) t' /\ is_corner (snd f) t') -> is_corner (fst f) t /\ is_corner (snd f) t).
Proof.
  intros Hv Hsh Hp. assert (Hne : visible <> []) by (destruct visible; [cbn in Hv; lia|discriminate]).
  destruct (c53_weights visible target m Hne Hp) as (W1 & W2 & W3). set (w := compute_extrapolation_weights visible target m) in *.
  destruct (rmap_all_ok (find_simplex_to_facet (simplex_points T)) visible) as (inds & Ei).
  { intros f Hf. destruct (find_simplex_some (simplex_points T) f mesh_simplices) as (k & s & Ek & _). eauto. }
  destruct (rmap_nth _ _ _ Ei) as (Li & Hi).
  assert (Hind : forall i k, nth_error inds i = Some k -> exists f s t, nth_error visible i = Some f /\ find_simplex_to_facet (simplex_points T) f = Ok k /\ nth_error sx k = Some s /\
    nth_error (simplex_points T) k = Some t /\ triangle_of pts s t /\ proper_triangle (fst (fst t)) (snd (fst t)) (snd t)).
  { intros i k Hk. destruct (nth_some_ex visible i) as (f & Hf). { pose proof (nth_some_lt _ _ _ Hk) as L; rewrite Li in L; exact L. }
    destruct (Hi i f Hf) as (k' & Hk' & Ek'). assert (k' = k) by congruence. subst k'.
    destruct (find_simplex_some (simplex_points T) f mesh_simplices) as (k2 & t & Ek2 & Ht). assert (k2 = k) by congruence. subst k2.
    destruct (simplex_inv pts sx hl G k t Ht) as (s & Hs & H1 & H2). exists f, s, t. repeat (split; [solve [auto]|]). auto. }
  destruct (rmap_all_ok (fun i => extrapolate_from n T params i target) inds) as (ext & Ee).
  { intros k Hk. apply In_nth_error in Hk. destruct Hk as (i & Hk). destruct (Hind i k Hk) as (f & s & t & _ & _ & Hs & _ & Ht & Hpr).
    destruct (extrapolate_from_spec pts sx hl n params k s t target Hs Ht Hpr) as (c & out & Eo & _). eauto. }
  destruct (rmap_nth _ _ _ Ee) as (Le & He).
  exists w, ext, (weighted_rows n w ext). split.
  { unfold visible_edges_extrapolate. destruct visible as [|f1 [|f2 vis]]; [cbn in Hv; lia|cbn in Hv; lia|]. rewrite Ei. cbn [rbind]. rewrite Ee. cbn [rbind].
    fold w. unfold blend_visible. rewrite kept_all by auto. rewrite Nat.eqb_refl. auto. }
  split; [auto|]. split; [exact (eq_trans Le Li)|]. split; [auto|]. split; [auto|]. split; [apply weighted_rows_spec; exact (eq_trans W1 (eq_sym (eq_trans Le Li)))|].
  intros i f e Hf Hei. destruct (nth_some_ex inds i) as (k & Hk). { eapply eq_ind_r with (P := fun z => (i < z)%nat); [|exact Li]. exact (nth_some_lt _ _ _ Hf). }
  destruct (Hind i k Hk) as (f' & s & t & Hf' & Ek & Hs & Htk & Ht & Hpr). assert (f' = f) by congruence. subst f'.
  destruct (extrapolate_from_spec pts sx hl n params k s t target Hs Ht Hpr) as (c & out & Eo & Hb & Hw).
  destruct (He i k Hk) as (e' & He' & Ee'). assert (e' = e) by congruence. subst e'. assert (e = out) by (unfold T in Ee'; congruence). subst e.
  exists s, t, c. split; [eapply nth_error_In; eauto|]. split; [auto|]. split; [auto|]. split; [auto|].
  intros (s' & t' & Hs' & Ht' & C1 & C2). destruct (proper_distinct _ _ _ (Hp f (nth_error_In _ _ Hf))) as (Hd & _).
  destruct (simplex_to_facet_spec (simplex_points T) (fst f) (snd f) (simplex_distinct pts sx hl G) Hd) as (k2 & t2 & Ek2 & Ht2 & D1 & D2).
  { apply In_nth_error in Hs'. destruct Hs' as (j & Hj). exists t'. split; [|auto]. eapply nth_error_In. apply (simplex_nth pts sx hl j s' t'); auto. }
  rewrite <- surjective_pairing in Ek2. assert (k2 = k) by congruence. subst k2. assert (t2 = t) by congruence. subst t2. auto.
Qed.
Lemma c53_affine n f pshape params m visible target : (2 <= length visible)%nat -> ~ In 1%nat pshape ->
  (forall g, In g visible -> proper_triangle (fst g) (snd g) target) -> samples n f pts params -> (forall j, affine_plane (f j)) ->
  visible_edges_extrapolate n pshape T params m visible target = Ok (1%nat :: pshape, map (fun j => f j target) (seq 0 n)).
Proof.
  intros Hv Hsh Hp Hs Ha. destruct (c53_blend n pshape params m visible target Hv Hsh Hp) as (w & ext & out & Eo & Lw & Le & _ & W & (Lo & Ho) & Hx).
  rewrite Eo. do 2 f_equal.
  assert (Hall : forall e, In e ext -> e = map (fun j => f j target) (seq 0 n)).
  { intros e Hin. apply In_nth_error in Hin. destruct Hin as (i & Hi). destruct (nth_some_ex visible i) as (g & Hg). { pose proof (nth_some_lt _ _ _ Hi) as L; rewrite Le in L; exact L. }
    destruct (Hx i g e Hg Hi) as (s & t & c & _ & Ht & Hb & Hw & _). eapply weighted_affine; eauto. }
  apply nth_ext_eq; [rewrite map_length, seq_length; auto|]. intros j x y Hj Hy. rewrite (Ho j x Hj).
  assert (Hjn : (j < n)%nat) by (rewrite <- Lo; eapply nth_some_lt; eauto).
  apply seq_map_nth in Hy. destruct Hy as (_ & ->).
  assert (Hcol : forall e, In e ext -> nth j e 0 = f j target).
  { intros e He. rewrite (Hall e He). rewrite (nth_indep _ 0 (f 0%nat target)) by (rewrite map_length, seq_length; auto). rewrite (map_nth (fun j => f j target)), seq_nth; auto. }
  assert (Q : forall c l v, length c = length l -> (forall e, In e l -> nth j e 0 = v) -> weighted c (map (fun r => nth j r 0) l) = total c * v).
  { clear. unfold weighted. induction c as [|a c IH]; intros [|e l] v L H; cbn in L; try lia; cbn [map combine total]; [ring|]. rewrite IH with (v := v); [|lia|intros; apply H; right; auto].
    cbn [fst snd]. rewrite (H e (or_introl eq_refl)). ring. }
  rewrite (Q w ext (f j target)); auto; [rewrite W; ring|exact (eq_trans Lw (eq_sym Le))].
Qed.
Lemma c53_one n pshape params m g target : visible_edges_extrapolate n pshape T params m [g] target =
  (do e <- extrapolate2D n T params target; Ok (1%nat :: pshape, e)).
Proof. reflexivity. Qed.
(** with an axis of length 1 and several visible facets nothing is blended *)
Lemma ones_kept (l : list nat) : count (Nat.eqb 1) (filter (fun d => negb (Nat.eqb d 1)) l) = 0%nat /\
  (length (filter (fun d => negb (Nat.eqb d 1)) l) + count (Nat.eqb 1) l = length l)%nat.
Proof.
  induction l as [|d l (IH1 & IH2)]; [auto|]. cbn [filter]. rewrite count_cons. destruct (Nat.eqb_spec d 1) as [->|N]; cbn [negb length].
  - split; [auto|]. change (Nat.eqb 1 1) with true. cbv iota. lia.
  - rewrite count_cons, IH1. destruct (Nat.eqb_spec 1 d); [congruence|]. split; [auto|]. lia.
Qed.
Lemma blend_axis n pshape w ext : In 1%nat pshape -> (2 <= length ext)%nat -> rsum w = 1 ->
  exists sh, blend_visible n pshape w ext = (sh, concat ext) /\ sh <> 1%nat :: pshape.
Proof.
  intros H1 Hv Hw. unfold blend_visible. destruct (ones_kept pshape) as (K1 & K2).
  set (kept := filter (fun d => negb (Nat.eqb d 1)) pshape) in *.
  assert (Hc : (0 < count (Nat.eqb 1) pshape)%nat).
  { clear -H1. induction pshape as [|d l IH]; [destruct H1|]. rewrite count_cons. destruct H1 as [->|H1]; [cbn; lia|]. specialize (IH H1). lia. }
  destruct (Nat.eqb_spec (length kept) (length pshape)) as [E|E]; [lia|]. eexists. split.
  - f_equal. f_equal. transitivity (map (fun e : list R => e) ext); [|apply map_id]. apply map_ext. intros e. transitivity (map (fun v : R => v) e); [|apply map_id]. apply map_ext. intros v.
    replace (rsum (map (fun w0 => w0 * v) w)) with (rsum w * v); [rewrite Hw; ring|]. clear. induction w as [|a w IH]; cbn [map]; rewrite ?rsum_nil, ?rsum_cons; [ring|]. rewrite <- IH. ring.
  - intros E2. assert (Q : count (Nat.eqb 1) (1%nat :: repeat 1%nat (length pshape - length kept - 1) ++ length ext :: kept) = count (Nat.eqb 1) (1%nat :: pshape)) by (rewrite E2; auto).
    rewrite !count_cons, count_app, count_cons, K1 in Q. assert (R1 : forall k, count (Nat.eqb 1) (repeat 1%nat k) = k) by (induction k; cbn [repeat]; rewrite ?count_cons; cbn; auto).
    rewrite R1 in Q. destruct (Nat.eqb_spec 1 (length ext)); [lia|]. change (Nat.eqb 1 1) with true in Q. cbv iota in Q. lia.
Qed.
Lemma c53_axis n pshape params m visible target : (2 <= length visible)%nat -> In 1%nat pshape ->
  (forall f, In f visible -> proper_triangle (fst f) (snd f) target) ->
  exists ext sh, visible_edges_extrapolate n pshape T params m visible target = Ok (sh, concat ext) /\ sh <> 1%nat :: pshape /\
    List.length ext = List.length visible /\ forall e, In e ext -> List.length e = n.
Proof.
  intros Hv H1 Hp. assert (Hne : visible <> []) by (destruct visible; [cbn in Hv; lia|discriminate]).
  destruct (c53_weights visible target m Hne Hp) as (W1 & W2 & W3). rewrite total_rsum in W3.
  destruct (c53_blend n [] params m visible target Hv (fun x => x) Hp) as (w & ext & out & Eo & Lw & Le & _ & _ & _ & Hx).
  unfold visible_edges_extrapolate in *. destruct visible as [|f1 [|f2 vis]]; [cbn in Hv; lia|cbn in Hv; lia|].
  destruct (rmap (find_simplex_to_facet (simplex_points T)) (f1 :: f2 :: vis)) as [inds|] eqn:Ei; [|discriminate]. cbn [rbind] in *.
  destruct (rmap (fun i => extrapolate_from n T params i target) inds) as [ext'|] eqn:Ee; [|discriminate]. cbn [rbind] in *.
  destruct (rmap_nth _ _ _ Ei) as (Li & Hi). destruct (rmap_nth _ _ _ Ee) as (Le' & He).
  assert (L : length ext' = length (f1 :: f2 :: vis)) by exact (eq_trans Le' Li).
  destruct (blend_axis n pshape (compute_extrapolation_weights (f1 :: f2 :: vis) target m) ext' H1) as (sh & Eb & Hsh); [rewrite L; cbn; lia|auto|].
  exists ext', sh. rewrite Eb. split; [auto|]. split; [auto|]. split; [auto|].
  intros e Hin. apply In_nth_error in Hin. destruct Hin as (i & Hie). destruct (nth_some_ex inds i) as (k & Hk). { pose proof (nth_some_lt _ _ _ Hie) as Q; rewrite Le' in Q; exact Q. }
  destruct (He i k Hk) as (e' & He' & Ek). assert (e' = e) by congruence. subst e'. unfold extrapolate_from in Ek.
  destruct (nth_error (simplices T) k) as [((a, b), c)|]; [|discriminate]. injection Ek as <-. unfold weighted_rows, column_sum. rewrite map_length, seq_length. auto.
Qed.
End Visible.
