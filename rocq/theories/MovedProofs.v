(** * Proofs for C89: the grid coordinates in other units and with another origin *)
From Coq Require Import Reals List Bool ZArith Arith Lia Lra Permutation.
From Verif Require Import Num Numpy Sort Lists Table Binning BinningProofs Utils Morph Geometry Quantile Estimators PDFEstimators GridMethods
  SpecIRF SpecInterp SpecEstimators SpecMoved GeometryProofs GeometryProofs2 MorphProofs2 SpectralUnitsProofs4.
Import ListNotations.
Open Scope R_scope.

Section Affine.
  Variables s c : R.
  Hypothesis Hs : 0 < s.
  Let f := fun x => s * x + c.
  Lemma aff_lt x y : Rltb (f x) (f y) = Rltb x y.
  Proof. unfold f. destruct (Rltb_spec x y), (Rltb_spec (s * x + c) (s * y + c)); auto; exfalso; nra. Qed.
  Lemma aff_le x y : Rleb (f x) (f y) = Rleb x y.
  Proof. unfold f. destruct (Rleb_spec x y), (Rleb_spec (s * x + c) (s * y + c)); auto; exfalso; nra. Qed.
  Lemma aff_inj x y : f x = f y -> x = y.
  Proof. unfold f. intros. nra. Qed.
  Lemma aff_eq x y : Reqb (f x) (f y) = Reqb x y.
  Proof. destruct (Reqb_spec x y), (Reqb_spec (f x) (f y)); auto; exfalso; [subst; auto|apply n, aff_inj; auto]. Qed.
  Lemma mono_up_aff l : forall last, mono_up (Fin (f last)) (map Fin (map f l)) = mono_up (Fin last) (map Fin l).
  Proof. induction l as [|x l IH]; intros; cbn; auto. rewrite aff_lt, <- IH. auto. Qed.
  Lemma mono_down_aff l : forall last, mono_down (Fin (f last)) (map Fin (map f l)) = mono_down (Fin last) (map Fin l).
  Proof. induction l as [|x l IH]; intros; cbn; auto. rewrite aff_lt, <- IH. auto. Qed.
  Lemma skip_equal_aff l : forall last, exists r, skip_equal (Fin last) (map Fin l) = map Fin r /\
    skip_equal (Fin (f last)) (map Fin (map f l)) = map Fin (map f r).
  Proof.
    induction l as [|x l IH]; intros; cbn; [exists []; auto|]. rewrite aff_eq. destruct (Reqb x last); [apply IH|].
    exists (x :: l). auto.
  Qed.
  Lemma monotonicity_aff l : monotonicity (map Fin (map f l)) = monotonicity (map Fin l).
  Proof.
    destruct l as [|x l]; auto. cbn [map monotonicity]. destruct (skip_equal_aff l x) as (r & -> & ->).
    destruct r as [|y r]; auto. cbn [map]. rewrite mono_up_aff, mono_down_aff. cbn. rewrite aff_lt. auto.
  Qed.
  Lemma ss_right_aff l x : searchsorted_right (map Fin (map f l)) (Fin (f x)) = searchsorted_right (map Fin l) (Fin x).
  Proof.
    unfold searchsorted_right. rewrite !map_map, !count_map. apply count_ext. intros. unfold np_lt. cbn. rewrite aff_lt. auto.
  Qed.
  Lemma digitize_aff l x : digitize1 (Fin (f x)) (map Fin (map f l)) = digitize1 (Fin x) (map Fin l).
  Proof. unfold digitize1. rewrite monotonicity_aff, !map_length, <- !map_rev, !ss_right_aff. auto. Qed.
  Lemma fold_min_aff l : forall a, fold_left Rmin (map f l) (f a) = f (fold_left Rmin l a).
  Proof.
    induction l as [|b l IH]; intros; cbn; auto. rewrite <- IH. f_equal. unfold Rmin, f.
    destruct (Rle_dec a b), (Rle_dec (s * a + c) (s * b + c)); auto; exfalso; nra.
  Qed.
  Lemma fold_max_aff l : forall a, fold_left Rmax (map f l) (f a) = f (fold_left Rmax l a).
  Proof.
    induction l as [|b l IH]; intros; cbn; auto. rewrite <- IH. f_equal. unfold Rmax, f.
    destruct (Rle_dec a b), (Rle_dec (s * a + c) (s * b + c)); auto; exfalso; nra.
  Qed.
  Lemma list_min_aff l : l <> [] -> list_min (map f l) = f (list_min l).
  Proof. destruct l; [congruence|]. intros _. apply fold_min_aff. Qed.
  Lemma list_max_aff l : l <> [] -> list_max (map f l) = f (list_max l).
  Proof. destruct l; [congruence|]. intros _. apply fold_max_aff. Qed.
  Lemma pyget_map {A B} (h : A -> B) l i : pyget (map h l) i = match pyget l i with Ok x => Ok (h x) | Err e => Err e end.
  Proof.
    unfold pyget. rewrite map_length. destruct (_ <? 0)%Z; auto.
    all: match goal with |- context [if ?b then _ else _] => destruct b end; auto; rewrite nth_error_map; destruct (nth_error l _); auto.
  Qed.
  Lemma line_aff a b t : linesegment_1D_interpolation_coefficients (f a) (f b) (f t) = linesegment_1D_interpolation_coefficients a b t.
  Proof.
    destruct (Req_dec a b) as [->|H]; [rewrite !c49_degenerate; auto|].
    rewrite !c49_weights by (auto; intros E; apply H, aff_inj; auto). unfold f.
    do 2 f_equal; [|f_equal]; field; lra || (split; nra) || nra.
  Qed.
  Lemma segment_aff g t : g <> [] -> segment_inds (map f g) (f t) = segment_inds g t.
  Proof. intros H. unfold segment_inds. rewrite list_min_aff, aff_lt by auto. auto. Qed.
  Lemma extrapolate1D_aff n g params t : g <> [] -> extrapolate1D n (map f g) params (f t) = extrapolate1D n g params t.
  Proof.
    intros H. unfold extrapolate1D. rewrite segment_aff by auto. destruct (segment_inds g t) as (i, j). rewrite !pyget_map.
    destruct (pyget g i); cbn [rbind]; auto. destruct (pyget g j); cbn [rbind]; auto. rewrite line_aff. auto.
  Qed.
  Lemma morph_extrapolate1D_aff g e k tm n t : g <> [] -> morph_extrapolate1D (map f g) e k tm n (f t) = morph_extrapolate1D g e k tm n t.
  Proof.
    intros H. unfold morph_extrapolate1D. rewrite segment_aff by auto. destruct (segment_inds g t) as (i, j). rewrite !pyget_map.
    destruct (pyget g i); cbn [rbind]; auto. destruct (pyget g j); cbn [rbind]; auto. rewrite line_aff. auto.
  Qed.
  Lemma morph_interpolate1D_aff u g e k tm n t : morph_interpolate1D u (map f g) e k tm n (f t) = morph_interpolate1D u g e k tm n t.
  Proof.
    unfold morph_interpolate1D. rewrite digitize_aff. destruct (digitize1 _ _) as [b|]; cbn [rbind]; auto. rewrite !pyget_map.
    destruct (pyget g (Z.of_nat b - 1)); cbn [rbind]; auto. destruct (pyget g (Z.of_nat b)); cbn [rbind]; auto. rewrite line_aff. auto.
  Qed.
  Lemma rm_segment_aff g t : g <> [] -> rm_segment (map f g) (f t) = rm_segment g t.
  Proof. intros H. unfold rm_segment. rewrite list_min_aff, list_max_aff, !aff_lt, digitize_aff by auto. auto. Qed.
End Affine.

Lemma argbest_map {A B} (h : A -> B) (before : A -> A -> bool) (before' : B -> B -> bool) l :
  (forall a b, In a l -> In b l -> before' (h a) (h b) = before a b) -> argbest before' (map h l) = argbest before l.
Proof.
  destruct l as [|a l]; auto. intros H. cbn. f_equal.
  assert (G : forall l' i x k, In x (a :: l) -> incl l' (a :: l) -> first_best before' (i, h x) k (map h l') = first_best before (i, x) k l').
  { induction l' as [|y l' IH]; intros; cbn; auto. rewrite H by (auto; apply H1; cbn; auto).
    assert (In y (a :: l)) by (apply H1; cbn; auto). assert (incl l' (a :: l)) by (intros z Hz; apply H1; cbn; auto).
    destruct (before y x); apply IH; auto. }
  apply G; [cbn; auto|]. intros z Hz; cbn; auto.
Qed.

Section Plane.
  Variable s : R.
  Variable v : nat -> R.
  Hypothesis Hs : 0 < s.
  Let f := moved_xy s v.
  Lemma vsub_mv p q : vsub (f p) (f q) = vscale s (vsub p q).
  Proof. unfold vsub, vscale, f, moved_xy. cbn. f_equal; ring. Qed.
  Lemma dot_sc p q : dot (vscale s p) (vscale s q) = s * s * dot p q.
  Proof. unfold dot, vscale. cbn. ring. Qed.
  Lemma cross_sc p q : cross (vscale s p) (vscale s q) = s * s * cross p q.
  Proof. unfold cross, vscale. cbn. ring. Qed.
  Lemma vnorm_sc p : vnorm (vscale s p) = s * vnorm p.
  Proof.
    unfold vnorm, vscale. cbn. replace (s * fst p * (s * fst p) + s * snd p * (s * snd p)) with (s * s * (fst p * fst p + snd p * snd p)) by ring.
    rewrite sqrt_mult_alt, sqrt_square by nra. auto.
  Qed.
  Lemma mv_inj p q : f p = f q -> p = q.
  Proof. destruct p, q. unfold f, moved_xy. cbn. intros E. injection E as E1 E2. f_equal; nra. Qed.
  Lemma peqb_mv p q : peqb (f p) (f q) = peqb p q.
  Proof. unfold peqb, f, moved_xy. cbn [fst snd]. rewrite !aff_eq by auto. auto. Qed.
  Definition mv_line (l : point * point) : point * point := (f (fst l), f (snd l)).
  Lemma dot_pos p q : p <> q -> 0 < dot (vsub q p) (vsub q p).
  Proof.
    intros H. unfold dot, vsub. cbn. destruct p as (a, b), q as (c, d). cbn in *.
    assert (Z : forall x y : R, x <> y -> 0 < (y - x) * (y - x)).
    { intros x y N. destruct (Rdichotomy _ _ N); nra. }
    assert (Q : forall x : R, 0 <= x * x) by (intros; nra).
    destruct (Req_dec a c) as [->|N]; [destruct (Req_dec b d) as [->|N]; [congruence|]|].
    - pose proof (Z _ _ N). pose proof (Q (c - c)). lra.
    - pose proof (Z _ _ N). pose proof (Q (d - b)). lra.
  Qed.
  Lemma foot_mv A B P : A <> B ->
    vadd (f A) (vscale (/ dot (vsub (f B) (f A)) (vsub (f B) (f A))) (vscale (dot (vsub (f P) (f A)) (vsub (f B) (f A))) (vsub (f B) (f A)))) =
    f (vadd A (vscale (/ dot (vsub B A) (vsub B A)) (vscale (dot (vsub P A) (vsub B A)) (vsub B A)))).
  Proof.
    intros H. rewrite !vsub_mv, !dot_sc. pose proof (dot_pos A B H) as D. set (k := dot (vsub B A) (vsub B A)) in *.
    unfold vadd, vscale, f, moved_xy. cbn [fst snd]. f_equal; field; split; lra.
  Qed.
  Lemma ratio_mv a b x : (s * b + x) - (s * a + x) = s * (b - a). Proof. ring. Qed.
  Lemma sdiv a b : (s * a) / (s * b) = a / b.
  Proof.
    destruct (Req_dec b 0) as [->|]; [|field; lra]. rewrite Rmult_0_r. unfold Rdiv. rewrite Rinv_0. ring.
  Qed.
  Lemma plumb_mv l P : fst l <> snd l -> plumb_point_dist (mv_line l) (f P) = s * plumb_point_dist l P.
  Proof.
    destruct l as (A, B). cbn [fst snd]. intros H. unfold plumb_point_dist. cbn [fst snd mv_line]. rewrite (foot_mv A B P H), (foot_mv B A P) by auto.
    set (F1 := vadd A _). set (F2 := vadd B _). cbv zeta.
    assert (E : forall X Y F, (if Reqb (fst (f Y) - fst (f X)) 0 then (snd (f F) - snd (f X)) / (snd (f Y) - snd (f X)) else (fst (f F) - fst (f X)) / (fst (f Y) - fst (f X))) =
      (if Reqb (fst Y - fst X) 0 then (snd F - snd X) / (snd Y - snd X) else (fst F - fst X) / (fst Y - fst X))).
    { intros X Y F. unfold f, moved_xy. cbn [fst snd]. rewrite !ratio_mv, !sdiv.
      destruct (Reqb_spec (s * (fst Y - fst X)) 0), (Reqb_spec (fst Y - fst X) 0); auto; exfalso; nra. }
    rewrite (E A B F1), (E B A F2). destruct (_ && _).
    - rewrite !vsub_mv, cross_sc, vnorm_sc. rewrite Rabs_mult, (Rabs_pos_eq (s * s)) by nra.
      replace (s * s * Rabs (cross (vsub P A) (vsub B A))) with (s * (s * Rabs (cross (vsub P A) (vsub B A)))) by ring.
      rewrite sdiv. unfold Rdiv. ring.
    - rewrite !vsub_mv, !vnorm_sc. unfold Rmin. destruct (Rle_dec (vnorm (vsub A P)) (vnorm (vsub B P))), (Rle_dec (s * vnorm (vsub A P)) (s * vnorm (vsub B P))); auto; exfalso; nra.
  Qed.
  Lemma angle_mv l P : point_facet_angle (mv_line l) (f P) = point_facet_angle l P.
  Proof.
    unfold point_facet_angle. destruct l as (A, B). cbn [mv_line fst snd]. rewrite !vsub_mv, dot_sc, !vnorm_sc.
    replace (s * vnorm (vsub A P) * (s * vnorm (vsub B P))) with (s * (s * (vnorm (vsub A P) * vnorm (vsub B P)))) by ring.
    replace (s * s * dot (vsub B P) (vsub A P)) with (s * (s * dot (vsub B P) (vsub A P))) by ring. rewrite !sdiv. auto.
  Qed.
  Lemma nearest_facet_mv ls P : (forall l, In l ls -> fst l <> snd l) -> find_nearest_facet (map mv_line ls) (f P) = find_nearest_facet ls P.
  Proof.
    intros H. unfold find_nearest_facet. rewrite map_map.
    rewrite (map_ext_in _ (fun l => (fun da => (s * fst da, snd da)) (plumb_point_dist l P, point_facet_angle l P))).
    2:{ intros l Hl. cbn [fst snd]. rewrite plumb_mv, angle_mv by auto. auto. }
    rewrite <- (map_map (fun l => (plumb_point_dist l P, point_facet_angle l P)) (fun da => (s * fst da, snd da))). apply argbest_map. intros a b _ _.
    unfold facet_before. cbn [fst snd]. f_equal; [|f_equal].
    - destruct (Rltb_spec (fst a) (fst b)), (Rltb_spec (s * fst a) (s * fst b)); auto; exfalso; nra.
    - destruct (Reqb_spec (fst a) (fst b)), (Reqb_spec (s * fst a) (s * fst b)); auto; exfalso; nra.
  Qed.
  Lemma simplex_to_facet_mv sp l : find_simplex_to_facet (map (moved_triangle s v) sp) (mv_line l) = find_simplex_to_facet sp l.
  Proof.
    unfold find_simplex_to_facet. rewrite map_map. f_equal. apply map_ext. intros ((a, b), c). cbn [moved_triangle corners fst snd mv_line].
    fold f. rewrite <- !(fun x y z => eq_refl : map f [x; y; z] = [f x; f y; f z]), count_map. apply count_ext. intros x. rewrite !peqb_mv. auto.
  Qed.
  Lemma bary_mv a b c t : barycentric_2D_interpolation_coefficients (f a) (f b) (f c) (f t) = barycentric_2D_interpolation_coefficients a b c t.
  Proof.
    unfold barycentric_2D_interpolation_coefficients. unfold f, moved_xy. cbn [fst snd]. rewrite !ratio_mv.
    set (x1 := fst a - fst c). set (y1 := snd a - snd c). set (x2 := fst b - fst c). set (y2 := snd b - snd c). set (x := fst t - fst c). set (y := snd t - snd c).
    assert (E1 : (s * y2 * (s * x) + - (s * x2) * (s * y)) / (s * y2 * (s * x1) + - (s * x2) * (s * y1)) = (y2 * x + - x2 * y) / (y2 * x1 + - x2 * y1)).
    { rewrite <- (sdiv (y2 * x + - x2 * y)), <- (sdiv (s * (y2 * x + - x2 * y))). f_equal; ring. }
    assert (E2 : (- (s * y1) * (s * x) + s * x1 * (s * y)) / (s * y2 * (s * x1) + - (s * x2) * (s * y1)) = (- y1 * x + x1 * y) / (y2 * x1 + - x2 * y1)).
    { rewrite <- (sdiv (- y1 * x + x1 * y)), <- (sdiv (s * (- y1 * x + x1 * y))). f_equal; ring. }
    rewrite E1, E2. auto.
  Qed.
  Lemma at_point_mv l i : (i < length l)%nat -> at_point (map f l) i = f (at_point l i).
  Proof. intros H. unfold at_point. rewrite (nth_indep _ _ (f (0, 0))) by (rewrite map_length; auto). apply map_nth. Qed.
End Plane.

Section Mesh.
  Variable s : R.
  Variable v : nat -> R.
  Hypothesis Hs : 0 < s.
  Variable t : triangulation.
  Hypothesis G : good_mesh (points t) (simplices t) (hull t).
  Let f := moved_xy s v.
  Let t' := moved_triangulation s v t.
  Lemma corner_in i j k : In (i, j, k) (simplices t) -> (i < length (points t) /\ j < length (points t) /\ k < length (points t))%nat.
  Proof.
    destruct G as (_ & H & _). intros I. destruct (H _ I) as (c & (H1 & H2 & H3) & _). cbn in *.
    unfold point in *. split; [|split]; apply nth_error_Some; [rewrite H1|rewrite H2|rewrite H3]; discriminate.
  Qed.
  Lemma side_in i j : In (i, j) (hull t) -> (i < length (points t) /\ j < length (points t))%nat /\ at_point (points t) i <> at_point (points t) j.
  Proof.
    destruct G as (_ & _ & H). intros I. destruct (H _ I) as (p & q & _ & _ & (H1 & H2) & N & _). cbn in *. split.
    - unfold point in *. split; apply nth_error_Some; [rewrite H1|rewrite H2]; discriminate.
    - unfold at_point. rewrite (nth_error_nth _ _ _ H1), (nth_error_nth _ _ _ H2). auto.
  Qed.
  Lemma facet_points_mv : facet_points t' = map (mv_line s v) (facet_points t).
  Proof.
    unfold facet_points, t'. cbn [moved_triangulation hull points]. rewrite map_map. apply map_ext_in. intros (i, j) I.
    destruct (side_in _ _ I) as ((H1 & H2) & _). cbn [fst snd mv_line]. fold f. unfold f. rewrite !at_point_mv by auto. auto.
  Qed.
  Lemma simplex_points_mv : simplex_points t' = map (moved_triangle s v) (simplex_points t).
  Proof.
    unfold simplex_points, t'. cbn [moved_triangulation simplices points]. rewrite map_map. apply map_ext_in. intros ((i, j), k) I.
    destruct (corner_in _ _ _ I) as (H1 & H2 & H3). cbn [moved_triangle fst snd]. rewrite !at_point_mv by auto. auto.
  Qed.
  Lemma nearest_simplex_mv P : find_nearest_simplex t' (f P) = find_nearest_simplex t P.
  Proof.
    unfold find_nearest_simplex. rewrite facet_points_mv. unfold f. rewrite nearest_facet_mv; auto.
    2:{ intros l Hl. unfold facet_points in Hl. apply in_map_iff in Hl as ((i, j) & <- & I). apply side_in in I. cbn. tauto. }
    destruct (find_nearest_facet _ _) as [k|]; cbn [rbind]; auto. rewrite nth_error_map. destruct (nth_error (facet_points t) k); cbn [option_map]; auto.
    rewrite simplex_points_mv, simplex_to_facet_mv; auto.
  Qed.
  Lemma extrapolate_from_mv n params k P : extrapolate_from n t' params k (f P) = extrapolate_from n t params k P.
  Proof.
    unfold extrapolate_from. cbn [t' moved_triangulation simplices points]. destruct (nth_error (simplices t) k) as [((a, b), c)|] eqn:E; auto.
    apply nth_error_In, corner_in in E as (H1 & H2 & H3). unfold f. rewrite !at_point_mv, bary_mv by auto. auto.
  Qed.
  Lemma extrapolate2D_mv n params P : extrapolate2D n t' params (f P) = extrapolate2D n t params P.
  Proof. unfold extrapolate2D. rewrite nearest_simplex_mv. destruct (find_nearest_simplex t P); cbn [rbind]; auto. apply extrapolate_from_mv. Qed.
  Lemma morph_extrapolate2D_mv e k tm n P : morph_extrapolate2D t' e k tm n (f P) = morph_extrapolate2D t e k tm n P.
  Proof.
    unfold morph_extrapolate2D. rewrite nearest_simplex_mv. destruct (find_nearest_simplex t P) as [i|]; cbn [rbind]; auto.
    cbn [t' moved_triangulation simplices points]. destruct (nth_error (simplices t) i) as [((a, b), c)|] eqn:E; auto.
    apply nth_error_In, corner_in in E as (H1 & H2 & H3). unfold f. rewrite !at_point_mv, bary_mv by auto. auto.
  Qed.
  Lemma visible_facets_mv full P : find_visible_facets (map (moved_triangle s v) full) (f P) = map (mv_line s v) (find_visible_facets full P).
  Proof.
    unfold find_visible_facets. rewrite flat_map_concat_map, map_map, flat_map_concat_map, concat_map, map_map. f_equal. apply map_ext.
    intros ((a, b), c). cbn [corners moved_triangle fst snd]. fold f.
    cbn [filter]. unfold f. rewrite !peqb_mv by auto. destruct (peqb a P), (peqb b P), (peqb c P); reflexivity.
  Qed.
  Lemma weights_mv vis P m : compute_extrapolation_weights (map (mv_line s v) vis) (f P) m = compute_extrapolation_weights vis P m.
  Proof.
    unfold compute_extrapolation_weights.
    replace (map (fun line => acos (point_facet_angle line (f P)) ^ (m + 1)) (map (mv_line s v) vis))
      with (map (fun line => acos (point_facet_angle line P) ^ (m + 1)) vis); auto.
    rewrite map_map. apply map_ext. intros l. unfold f. rewrite angle_mv; auto.
  Qed.
  Lemma visible_mv n ps params m vis P :
    visible_edges_extrapolate n ps t' params m (map (mv_line s v) vis) (f P) = visible_edges_extrapolate n ps t params m vis P.
  Proof.
    assert (M : (do inds <- rmap (find_simplex_to_facet (simplex_points t')) (map (mv_line s v) vis);
      do ext <- rmap (fun i => extrapolate_from n t' params i (f P)) inds;
      Ok (blend_visible n ps (compute_extrapolation_weights (map (mv_line s v) vis) (f P) m) ext)) =
      (do inds <- rmap (find_simplex_to_facet (simplex_points t)) vis;
      do ext <- rmap (fun i => extrapolate_from n t params i P) inds;
      Ok (blend_visible n ps (compute_extrapolation_weights vis P m) ext))).
    { rewrite weights_mv. replace (rmap (find_simplex_to_facet (simplex_points t')) (map (mv_line s v) vis)) with (rmap (find_simplex_to_facet (simplex_points t)) vis).
      2:{ clear - Hs G. induction vis as [|a l IH]; auto. cbn [map rmap]. rewrite IH. rewrite simplex_points_mv. rewrite simplex_to_facet_mv by auto.
          auto. }
      destruct (rmap _ vis) as [inds|]; cbn [rbind]; auto.
      replace (rmap (fun i => extrapolate_from n t' params i (f P)) inds) with (rmap (fun i => extrapolate_from n t params i P) inds); auto.
      clear - Hs G. induction inds as [|a l IH]; auto. cbn [rmap]. rewrite extrapolate_from_mv. destruct (extrapolate_from n t params a P); cbn [rbind]; auto. rewrite IH. auto. }
    unfold visible_edges_extrapolate. destruct vis as [|l1 [|l2 vis]]; cbn [map]; auto. rewrite extrapolate2D_mv. auto.
  Qed.
End Mesh.
