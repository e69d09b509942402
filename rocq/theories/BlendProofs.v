(** * BlendProofs: proofs for C92 *)
From Coq Require Import String Reals List Bool ZArith Arith Lia Lra Permutation.
From Verif Require Import Num Numpy Sort Lists Table Binning Utils Morph Geometry Quantile Estimators PDFEstimators GridMethods SpecBinning SpecIRF SpecInterp SpecEstimators SpecBlend
  MorphProofs GeometryProofs EstimatorProofs IRFProofs CutsProofs GeometryProofs2 GeometryProofs4 MovedProofs MovedProofs2.
Import ListNotations.
Open Scope R_scope.

Definition rows_n (n : nat) (T : list (list R * list R)) : Prop := forall p, In p T -> List.length (fst p) = n /\ List.length (snd p) = n.
Definition bl (a b k : R) (p : list R * list R) : list R := blend a b k (fst p) (snd p).
Lemma combine_map_seq (f g : nat -> R) l : combine (map f l) (map g l) = map (fun j => (f j, g j)) l.
Proof. induction l; cbn; f_equal; auto. Qed.
Lemma blend_nth a b k x y n j : List.length x = n -> List.length y = n -> (j < n)%nat -> nth j (blend a b k x y) 0 = a * nth j x 0 + b * nth j y 0 + k.
Proof.
  intros <-. revert y j. unfold blend. induction x as [|u x IH]; intros [|v y] j L H; cbn in *; try lia. destruct j; cbn; auto. apply IH; lia.
Qed.
Lemma blend_length a b k x y : List.length (blend a b k x y) = Nat.min (List.length x) (List.length y).
Proof. unfold blend. rewrite map_length, combine_length. auto. Qed.
Lemma nth_times x r j : nth j (map (fun v : R => x * v) r) 0 = x * nth j r 0.
Proof. revert j. induction r; intros [|j]; cbn; auto; ring. Qed.
Lemma weighted_rows_seq n c rows : weighted_rows n c rows = map (fun j => rsum (zipwith (fun x r => x * nth j r 0) c rows)) (seq 0 n).
Proof.
  unfold weighted_rows, column_sum. apply map_ext. intros j. f_equal. revert rows. induction c as [|x c IH]; intros [|r rows]; cbn; auto. rewrite nth_times, IH. auto.
Qed.
Lemma weighted_rows_blend n c T a b k : List.length c = List.length T -> rows_n n T -> rsum c = 1 ->
  weighted_rows n c (map (bl a b k) T) = blend a b k (weighted_rows n c (map fst T)) (weighted_rows n c (map snd T)) /\
  List.length (weighted_rows n c (map fst T)) = List.length (weighted_rows n c (map snd T)).
Proof.
  intros L H S. rewrite !weighted_rows_seq. split; [|rewrite !map_length; auto]. unfold blend at 1. rewrite combine_map_seq, map_map. apply map_ext_in. intros j J. apply in_seq in J. cbn [fst snd].
  assert (E : rsum (zipwith (fun x r => x * nth j r 0) c (map (bl a b k) T)) =
    a * rsum (zipwith (fun x r => x * nth j r 0) c (map fst T)) + b * rsum (zipwith (fun x r => x * nth j r 0) c (map snd T)) + k * rsum c).
  { clear S. revert T L H. induction c as [|x c IH]; intros [|p T] L H; cbn in L; try discriminate; cbn [map zipwith rsum]; [unfold rsum; cbn; ring|].
    rewrite ?rsum_cons. destruct (H p (or_introl eq_refl)) as [H1 H2]. unfold bl at 1. rewrite (blend_nth a b k _ _ n j H1 H2) by lia.
    assert (E := IH T ltac:(lia) (fun q Hq => H q (or_intror Hq))). rewrite E. ring. }
  rewrite E, S. ring.
Qed.
(** sorting only looks at the points *)
Lemma combine_map_r {A B C} (f : B -> C) (l : list A) l' : combine l (map f l') = map (fun q => (fst q, f (snd q))) (combine l l').
Proof. revert l'. induction l; intros [|]; cbn; f_equal; auto. Qed.
Lemma insert_map {A B} (le : A -> A -> bool) (le' : B -> B -> bool) (f : A -> B) : (forall x y, le' (f x) (f y) = le x y) -> forall l, isort le' (map f l) = map f (isort le l).
Proof. intros H l. apply isort_map_in. intros. apply H. Qed.
Lemma sort_map {T U} (h : T -> U) d pts tm : sort_points d pts (map h tm) = map (fun q => (fst q, h (snd q))) (sort_points d pts tm).
Proof.
  unfold sort_points. rewrite combine_map_r. destruct (Nat.eqb d 1); auto. apply insert_map. intros. reflexivity.
Qed.
Lemma combine_fst_snd {A B} (l : list A) (l' : list B) : List.length l = List.length l' -> map fst (combine l l') = l /\ map snd (combine l l') = l'.
Proof. revert l'. induction l as [|x l IH]; intros [|y l'] E; cbn in *; try discriminate; auto. destruct (IH l' ltac:(lia)) as [-> ->]. auto. Qed.
Lemma blend_tables_bl a b k X Y : blend_tables a b k X Y = map (bl a b k) (combine X Y).
Proof. reflexivity. Qed.
Lemma rows_combine n X Y : tables n X -> tables n Y -> rows_n n (combine X Y).
Proof. intros HX HY [x y] I. cbn. split; [apply HX; eapply in_combine_l|apply HY; eapply in_combine_r]; eauto. Qed.
(** ** classes *)
Lemma follows_pairs d n (region : list (list R) -> list R -> Prop) pts m :
  (forall pts', as_passed d pts pts' -> forall a b k T, List.length T = List.length pts' -> rows_n n T ->
   match create m pts' (map fst T), create m pts' (map snd T), create m pts' (map (bl a b k) T) with
   | Ok f, Ok g, Ok h => forall t, List.length t = d -> region pts' t -> combined a b k (f t) (g t) (h t)
   | Err e, Err e', Err e'' => e = e' /\ e' = e''
   | _, _, _ => False
   end) -> follows d n region pts m.
Proof.
  intros H pts' P a b k X Y LX LY TX TY. rewrite blend_tables_bl. destruct (combine_fst_snd X Y ltac:(congruence)) as [EX EY].
  specialize (H pts' P a b k (combine X Y)). rewrite EX, EY in H. apply H; [rewrite combine_length; lia|apply rows_combine; auto].
Qed.
Lemma pairs_at n T i d : rows_n n T -> (i < List.length T)%nat -> rows_n n [nth i T d].
Proof. intros H L p [<-|[]]. apply H. apply nth_In. auto. Qed.
Lemma rows_n_list n T l d : rows_n n T -> (forall i, In i l -> (i < List.length T)%nat) -> rows_n n (map (fun i => nth i T d) l).
Proof. intros H L p I. apply in_map_iff in I as (i & <- & I). apply H, nth_In. auto. Qed.
Lemma nth_map_list {A B} (f : A -> B) T l d d' : (forall i, In i l -> (i < List.length T)%nat) -> map (fun i => nth i (map f T) d') l = map f (map (fun i => nth i T d) l).
Proof.
  intros L. rewrite map_map. apply map_ext_in. intros i I. rewrite (nth_indep _ d' (f d)) by (rewrite map_length; auto). apply map_nth.
Qed.
Lemma griddata_follows d n pts choose : served d pts choose -> follows d n (in_hull d) pts (griddata_method choose n).
Proof.
  intros (S1 & S2). apply follows_pairs. intros pts' (P & Q1 & Q2) a b k T LT HT. cbn [create griddata_method]. intros t Ht I.
  assert (LI : linear_interpolation d pts' choose).
  { destruct (Nat.eq_dec d 1) as [D|D]; [subst d; auto|rewrite (Q1 D); auto]. }
  destruct (LI t Ht I) as ((W1 & W2) & _). unfold combined, weighted_templates.
  assert (V : forall i, In i (map fst (choose pts' t)) -> (i < List.length T)%nat).
  { intros i Hi. apply in_map_iff in Hi as ((i', c) & <- & Hi). rewrite LT. cbn. exact (proj1 (W1 _ _ Hi)). }
  rewrite (nth_map_list fst T _ ([], []) []), (nth_map_list snd T _ ([], []) []), (nth_map_list (bl a b k) T _ ([], []) []) by auto.
  destruct (weighted_rows_blend n (map snd (choose pts' t)) (map (fun i => nth i T ([], [])) (map fst (choose pts' t))) a b k) as [E L]; [rewrite !map_length; auto|apply rows_n_list; auto| |split; auto].
  rewrite <- W2. symmetry. apply total_rsum.
Qed.
Lemma nearest_follows d n pts k : follows d n everywhere_ pts (nearest_method k).
Proof.
  apply follows_pairs. intros pts' _ a b c T LT HT. cbn [create nearest_method]. intros t _ _. destruct (nn_index pts' k t) as [i|e]; cbn [rbind]; [|cbn; auto].
  rewrite !nth_error_map. destruct (nth_error T i) as [p|] eqn:E; cbn; auto. apply nth_error_In, HT in E. destruct E. split; [congruence|auto].
Qed.
Lemma line_coefficients g0 g1 t : (exists w, linesegment_1D_interpolation_coefficients g0 g1 t = Ok [1 - w; w]) \/ linesegment_1D_interpolation_coefficients g0 g1 t = Err LinAlgError.
Proof.
  unfold linesegment_1D_interpolation_coefficients, inv2. cbn [pow]. destruct (Reqb _ 0) eqn:B; cbn [rbind]; [right; auto|left]. apply Reqb_false in B.
  exists ((t - g0) / (g1 - g0)). cbn [fst snd]. f_equal. assert (g1 - g0 <> 0) by (intros E; apply B; rewrite Rmult_1_r, E; ring). f_equal; [field; lra|f_equal; field; lra].
Qed.
Lemma pyget_In {A} (l : list A) i x : pyget l i = Ok x -> In x l.
Proof.
  unfold pyget. destruct (_ <? 0)%Z; try discriminate; repeat match goal with |- context [if ?b then _ else _] => destruct b end; try discriminate; destruct (nth_error l _) eqn:E; intros [= <-]; eapply nth_error_In; eauto.
Qed.
Lemma extrapolate1D_blend n grid T a b k t : rows_n n T ->
  combined a b k (extrapolate1D n grid (map fst T) t) (extrapolate1D n grid (map snd T) t) (extrapolate1D n grid (map (bl a b k) T) t).
Proof.
  intros HT. unfold extrapolate1D. destruct (segment_inds grid t) as [i j]. destruct (pyget grid i) as [g0|]; [|cbn; auto]. destruct (pyget grid j) as [g1|]; [|cbn; auto]. cbn [rbind].
  destruct (line_coefficients g0 g1 t) as [(w & ->) | ->]; [|cbn; auto]. cbn [rbind]. rewrite !pyget_map.
  destruct (pyget T i) as [p|] eqn:Ep; [|cbn; auto]. destruct (pyget T j) as [q|] eqn:Eq; [|cbn; auto]. cbn [rbind combined].
  destruct (weighted_rows_blend n [1 - w; w] [p; q] a b k) as [E L]; auto.
  { intros r [<-|[<-|[]]]; apply HT; eapply pyget_In; eauto. }
  { unfold rsum; cbn; ring. }
Qed.
Lemma extrapolate_from_blend n tr T a b k s P : rows_n n T -> (forall i j l, In (i, j, l) (simplices tr) -> (i < List.length T)%nat /\ (j < List.length T)%nat /\ (l < List.length T)%nat) ->
  combined a b k (extrapolate_from n tr (map fst T) s P) (extrapolate_from n tr (map snd T) s P) (extrapolate_from n tr (map (bl a b k) T) s P).
Proof.
  intros HT V. unfold extrapolate_from. destruct (nth_error (simplices tr) s) as [((i, j), l)|] eqn:E; [|cbn; auto]. apply nth_error_In, V in E. destruct E as (Vi & Vj & Vl).
  assert (R : forall (h : list R * list R -> list R) i, (i < List.length T)%nat -> nth i (map h T) [] = h (nth i T ([], []))).
  { intros h x Hx. rewrite (nth_indep _ [] (h ([], []))) by (rewrite map_length; auto). apply map_nth. }
  rewrite !R by auto. cbn [combined].
  destruct (weighted_rows_blend n (barycentric_2D_interpolation_coefficients (at_point (points tr) i) (at_point (points tr) j) (at_point (points tr) l) P)
    [nth i T ([], []); nth j T ([], []); nth l T ([], [])] a b k) as [E L]; auto.
  { intros r [<-|[<-|[<-|[]]]]; apply HT, nth_In; auto. }
  { unfold barycentric_2D_interpolation_coefficients, rsum; cbn. ring. }
Qed.
Lemma extrapolate2D_blend n tr T a b k P : rows_n n T -> (forall i j l, In (i, j, l) (simplices tr) -> (i < List.length T)%nat /\ (j < List.length T)%nat /\ (l < List.length T)%nat) ->
  combined a b k (extrapolate2D n tr (map fst T) P) (extrapolate2D n tr (map snd T) P) (extrapolate2D n tr (map (bl a b k) T) P).
Proof. intros. unfold extrapolate2D. destruct (find_nearest_simplex tr P); cbn [rbind]; [apply extrapolate_from_blend; auto|cbn; auto]. Qed.
Lemma mesh_valid pts tri n (T : list (list R * list R)) : meshed pts tri -> List.length T = List.length pts -> rows_n n T ->
  forall i j l, In (i, j, l) (simplices (tri pts)) -> (i < List.length T)%nat /\ (j < List.length T)%nat /\ (l < List.length T)%nat.
Proof.
  intros (E & _ & G & _) L _ i j l I. apply G in I as (t & (H1 & H2 & H3) & _). cbn [fst snd] in *.
  assert (Q : forall x y, nth_error (points (tri pts)) x = Some y -> (x < List.length T)%nat).
  { intros x y H. rewrite L. rewrite <- (map_length (fun p => (nth 0 p 0, nth 1 p 0)) pts), <- E. apply nth_error_Some. unfold point in *. intros Z. assert (Some y = None) by (rewrite <- H; exact Z). discriminate. }
  split; [eapply Q; exact H1|split; [eapply Q; exact H2|eapply Q; exact H3]].
Qed.
Lemma columns_d d (pts : list coords) : of_dimension d pts -> pts <> [] -> columns_of pts = d.
Proof. intros H N. destruct pts; [congruence|]. apply H. left. auto. Qed.
Lemma passed_columns d (pts pts' : list (list R)) : as_passed d pts pts' -> of_dimension d pts -> pts <> [] -> columns_of pts' = d.
Proof.
  intros (P & _) H N. apply columns_d; [intros p I; apply H; eapply Permutation_in; [apply Permutation_sym|]; eauto|]. intros ->. apply Permutation_sym, Permutation_nil in P. auto.
Qed.
Lemma simplex_follows d n pts tri : (1 <= d)%nat -> of_dimension d pts -> pts <> [] -> (d = 2%nat -> meshed pts tri) -> follows d n everywhere_ pts (simplex_method tri n).
Proof.
  intros D0 D N M. apply follows_pairs. intros pts' P a b k T LT HT. cbn [create simplex_method]. rewrite (passed_columns d pts pts') by auto.
  destruct (Nat.leb 3 d) eqn:E3; auto. intros t Lt _. destruct (Nat.eqb d 1) eqn:E1; [apply extrapolate1D_blend; auto|]. apply Nat.leb_gt in E3. apply Nat.eqb_neq in E1. destruct P as (P & P1 & _). rewrite (P1 E1) in *.
  assert (E2 : d = 2%nat) by lia. apply extrapolate2D_blend; auto. eapply mesh_valid; eauto.
Qed.
Lemma rmap_blend {A} n a b k (f g h : A -> res (list R)) l : (forall x, combined a b k (f x) (g x) (h x)) -> (forall x y, f x = Ok y -> List.length y = n) ->
  match rmap f l, rmap g l, rmap h l with
  | Ok fx, Ok gx, Ok hx => exists E, fx = map fst E /\ gx = map snd E /\ hx = map (bl a b k) E /\ rows_n n E /\ List.length E = List.length l
  | Err e, Err e', Err e'' => e = e' /\ e' = e''
  | _, _, _ => False
  end.
Proof.
  intros H HL. induction l as [|x l IH]; cbn [rmap].
  - exists []. repeat split; auto; destruct H0.
  - specialize (H x). destruct (f x) as [u|] eqn:Ef, (g x) as [v|], (h x) as [w|]; cbn [combined] in H; try contradiction; [|cbn; auto]. destruct H as [H1 H2]. apply HL in Ef.
    cbn [rbind]. destruct (rmap f l), (rmap g l), (rmap h l); try contradiction; [|cbn; auto]. destruct IH as (E & -> & -> & -> & R & L). cbn [rbind]. exists ((u, v) :: E). cbn [map fst snd List.length].
    split; auto. split; auto. split; [rewrite H2; reflexivity|]. split; [|auto]. intros p [<-|I]; [cbn; split; congruence|apply R; auto].
Qed.
Lemma blend_app a b k x y x' y' : List.length x = List.length y -> blend a b k (x ++ x') (y ++ y') = blend a b k x y ++ blend a b k x' y'.
Proof. unfold blend. revert y. induction x as [|u x IH]; intros [|v y] L; cbn in *; try discriminate; auto. f_equal. apply IH. lia. Qed.
Lemma concat_blend n a b k E : rows_n n E -> concat (map (bl a b k) E) = blend a b k (concat (map fst E)) (concat (map snd E)) /\ List.length (concat (map fst E)) = List.length (concat (map snd E)).
Proof.
  induction E as [|p E IH]; intros H; cbn [map concat]; auto. destruct (IH (fun q Hq => H q (or_intror Hq))) as [-> L]. destruct (H p (or_introl eq_refl)) as [L1 L2].
  rewrite !app_length, L, L1, L2, blend_app by congruence. auto.
Qed.
Lemma sum_times w v : rsum w = 1 -> rsum (map (fun x => x * v) w) = v.
Proof.
  intros S. assert (E : rsum (map (fun x => x * v) w) = rsum w * v). { clear S. induction w; cbn [map]; [unfold rsum; cbn; ring|]. rewrite !rsum_cons, IHw. ring. } rewrite E, S. ring.
Qed.
Lemma sum_times_rows w ext : rsum w = 1 -> map (map (fun v => rsum (map (fun x => x * v) w))) ext = ext.
Proof.
  intros S. rewrite <- (map_id ext) at 2. apply map_ext. intros r. rewrite <- (map_id r) at 2. apply map_ext. intros v. apply sum_times. auto.
Qed.
Lemma from_length n tr params s P y : extrapolate_from n tr params s P = Ok y -> List.length y = n.
Proof.
  unfold extrapolate_from. destruct (nth_error _ _) as [((i, j), l)|]; [|discriminate]. intros [= <-]. rewrite weighted_rows_seq, map_length, seq_length. auto.
Qed.
Lemma visible_blend n pshape tr T a b k m visible P : rows_n n T -> (forall i j l, In (i, j, l) (simplices tr) -> (i < List.length T)%nat /\ (j < List.length T)%nat /\ (l < List.length T)%nat) ->
  visible <> [] -> (forall f, In f visible -> proper_triangle (fst f) (snd f) P) ->
  combined a b k (do o <- visible_edges_extrapolate n pshape tr (map fst T) m visible P; Ok (snd o)) (do o <- visible_edges_extrapolate n pshape tr (map snd T) m visible P; Ok (snd o))
   (do o <- visible_edges_extrapolate n pshape tr (map (bl a b k) T) m visible P; Ok (snd o)).
Proof.
  intros HT V N Pr. destruct (c53_weights visible P m N Pr) as (W1 & _ & W3). rewrite total_rsum in W3. unfold visible_edges_extrapolate.
  set (w := compute_extrapolation_weights visible P m) in *.
  destruct visible as [|f [|f' vs]]; [congruence| |].
  - pose proof (extrapolate2D_blend n tr T a b k P HT V) as H.
    destruct (extrapolate2D n tr (map fst T) P), (extrapolate2D n tr (map snd T) P), (extrapolate2D n tr (map (bl a b k) T) P); cbn in *; auto.
  - destruct (rmap (find_simplex_to_facet (simplex_points tr)) (f :: f' :: vs)) as [inds|] eqn:Ei; cbn [rbind]; [|cbn; auto].
    destruct (rmap_nth _ _ _ Ei) as (Li & _).
    pose proof (rmap_blend n a b k (fun i => extrapolate_from n tr (map fst T) i P) (fun i => extrapolate_from n tr (map snd T) i P) (fun i => extrapolate_from n tr (map (bl a b k) T) i P) inds) as H.
    assert (H' := H (fun i => extrapolate_from_blend n tr T a b k i P HT V) (fun i => from_length n tr _ i P)). clear H.
    destruct (rmap _ inds), (rmap _ inds), (rmap _ inds); try contradiction; [|cbn; auto]. destruct H' as (E & -> & -> & -> & R & L). cbn [rbind]. unfold blend_visible.
    destruct (Nat.eqb _ _); cbn [snd combined].
    + destruct (weighted_rows_blend n w E a b k) as [E1 E2]; auto. rewrite W1. congruence.
    + rewrite !sum_times_rows by auto. destruct (concat_blend n a b k E R). auto.
Qed.
Lemma visible_exists full t s : In s full -> proper_triangle (fst (fst s)) (snd (fst s)) (snd s) -> is_corner t s -> find_visible_facets full t <> [].
Proof.
  intros I H C E.
  assert (Q : In (match filter (fun p => negb (peqb p t)) (corners s) with [p; q] => (p, q) | _ => (t, t) end) (find_visible_facets full t)); [|rewrite E in Q; destruct Q].
  unfold find_visible_facets. apply in_flat_map. exists s. split; auto. destruct s as ((x, y), z). cbn [fst snd] in *. destruct (proper_distinct _ _ _ H) as (D1 & D2 & D3). unfold is_corner in C. cbn [fst snd] in C.
  assert (B : forall u, (u = t -> peqb u t = true) /\ (u <> t -> peqb u t = false)).
  { intros u. pose proof (peqb_spec u t) as Q. destruct (peqb u t); split; intros W; auto; [destruct (W (proj1 Q eq_refl))|apply (proj2 Q W)]. }
  unfold corners. cbn [filter]. destruct C as [C|[C|C]]; subst t.
  - rewrite (proj1 (B x) eq_refl), (proj2 (B y)), (proj2 (B z)) by congruence. cbn. auto.
  - rewrite (proj1 (B y) eq_refl), (proj2 (B x)), (proj2 (B z)) by congruence. cbn. auto.
  - rewrite (proj1 (B z) eq_refl), (proj2 (B x)), (proj2 (B y)) by congruence. cbn. auto.
Qed.
Lemma visible_follows d n pts tri full pshape m : (1 <= d)%nat -> of_dimension d pts -> pts <> [] -> (d = 2%nat -> meshed pts tri /\ in_view pts full) ->
  follows d n (outside_hull d) pts (visible_method tri full n pshape m).
Proof.
  intros D0 D N M. apply follows_pairs. intros pts' P a b k T LT HT. cbn [create visible_method]. rewrite (passed_columns d pts pts') by auto.
  destruct (Nat.leb 3 d) eqn:E3; auto. intros t Lt O. destruct (Nat.eqb d 1) eqn:E1; [apply extrapolate1D_blend; auto|]. apply Nat.leb_gt in E3. apply Nat.eqb_neq in E1. destruct P as (P & P1 & _). rewrite (P1 E1) in *.
  assert (E2 : d = 2%nat) by lia. unfold outside_hull in O. rewrite E2 in *. destruct (M eq_refl) as [M1 M2]. destruct (M2 t Lt O) as (F1 & s & F2 & F3). apply visible_blend; auto; [eapply mesh_valid; eauto|eapply visible_exists; eauto|].
  intros (p, q) I. apply c53_visible in I; auto. tauto.
Qed.
(** ** estimators *)
Lemma follows_at d n (region : list (list R) -> list R -> Prop) pts m pts' a b k T : follows d n region pts m -> as_passed d pts pts' -> List.length T = List.length pts' -> rows_n n T ->
   match create m pts' (map fst T), create m pts' (map snd T), create m pts' (map (bl a b k) T) with
   | Ok f, Ok g, Ok h => forall t, List.length t = d -> region pts' t -> combined a b k (f t) (g t) (h t)
   | Err e, Err e', Err e'' => e = e' /\ e' = e''
   | _, _, _ => False
   end.
Proof.
  intros F P L R. specialize (F pts' P a b k (map fst T) (map snd T)). rewrite blend_tables_bl in F.
  assert (E : combine (map fst T) (map snd T) = T) by (clear; induction T as [|(x, y) T IH]; cbn; f_equal; auto). rewrite E in F.
  apply F; rewrite ?map_length; auto; intros r I; apply in_map_iff in I as (p & <- & I); apply R in I; tauto.
Qed.
Lemma target_length d tgt t : check_target d tgt = Ok t -> List.length t = d.
Proof.
  unfold check_target. destruct tgt as [|u|[|u [|]]]; cbn [rbind]; try discriminate; destruct (Nat.eqb_spec (List.length u) d); intros [= <-]; auto.
Qed.
Lemma float_base g d pts : float_grid g d pts -> if Nat.ltb (List.length pts) (d + 1) then base_init g = Err ValueError else base_init g = Ok (d, pts) /\ of_dimension d pts.
Proof.
  intros G. destruct (Nat.ltb_spec (List.length pts) (d + 1)) as [N|N]; [|apply base_ok; auto].
  destruct G as [(l & -> & -> & ->)|(-> & _)]; unfold base_init; cbn [rbind fst snd]; match goal with |- context [Nat.ltb ?x ?y] => replace (Nat.ltb x y) with true by (symmetry; apply Nat.ltb_lt; auto) end; auto.
Qed.
Lemma init_follow inside g d pts n a b k X Y m e : (1 <= d)%nat -> float_grid g d pts -> NoDup pts -> hull_test d pts inside ->
  List.length X = List.length Y -> tables n X -> tables n Y -> follows d n (in_hull d) pts m ->
  match e with Some e => follows d n (outside_hull d) pts e | None => True end ->
  match parametrized_init g (Some X) m e, parametrized_init g (Some Y) m e, parametrized_init g (Some (blend_tables a b k X Y)) m e with
  | Ok x, Ok y, Ok z => grid_dim x = grid_dim y /\ grid x = grid y /\ grid_dim x = grid_dim z /\ grid x = grid z /\
      forall tgt, combined_estimates a b k (estimator_call inside x tgt) (estimator_call inside y tgt) (estimator_call inside z tgt)
  | Err e, Err e', Err e'' => e = e' /\ e' = e''
  | _, _, _ => False
  end.
Proof.
  intros D G ND HT LXY TX TY Fm Fe. unfold parametrized_init. destruct (base_init g) as [(d', pts0)|] eqn:Eb; [|cbn; auto]. cbn [rbind fst snd].
  assert (B : d' = d /\ pts0 = pts /\ of_dimension d pts /\ pts <> []).
  { assert (Z := float_base g d pts G). rewrite Eb in Z. destruct (Nat.ltb_spec0 (List.length pts) (d + 1)) as [N|N]; [discriminate|]. destruct Z as [Z1 Z2]. injection Z1 as -> ->.
    repeat split; auto. intros E; rewrite E in N; cbn in N; lia. }
  destruct B as (-> & -> & Dm & Ne). clear Eb. rewrite blend_tables_bl, map_length, combine_length, <- LXY, Nat.min_id.
  match goal with |- context [Nat.eqb ?u ?v] => destruct (Nat.eqb_spec u v) as [L|] end; [|cbn; auto].
  destruct (combine_fst_snd X Y LXY) as [EX EY]. set (C := combine X Y) in *. assert (RC : rows_n n C) by (apply rows_combine; auto). rewrite <- EX, <- EY.
  assert (LC : List.length C = List.length pts) by (unfold C; rewrite combine_length, <- LXY, Nat.min_id; symmetry; exact L). clearbody C. clear EX EY TX TY L LXY X Y.
  unfold make_methods. rewrite !sort_map. set (S := sort_points d pts C). rewrite !map_map.
  assert (A := arranged_sort d pts C LC). fold S in A. set (pts' := map fst S) in *. set (T := map snd S) in *.
  assert (E3 : forall h : list R * list R -> list R, map (fun x : coords * (list R * list R) => h (snd x)) S = map h T) by (intros h; unfold T; rewrite map_map; auto).
  cbn [fst snd]. rewrite (E3 fst), (E3 snd), (E3 (bl a b k)).
  change (map (fun x : coords * (list R * list R) => fst x) S) with pts'.
  assert (LT : List.length T = List.length pts') by (unfold T, pts'; rewrite !map_length; auto).
  assert (RT : rows_n n T).
  { intros p I. apply RC. apply in_map_iff in I as ((q, p') & <- & I). eapply Permutation_in in I; [|apply Permutation_sym, sort_points_perm]. apply in_combine_r in I. auto. }
  assert (PA : as_passed d pts pts').
  { split; [|split].
    - unfold pts'. rewrite <- (proj1 (combine_fst_snd pts C (eq_sym LC))) at 1. apply Permutation_map, sort_points_perm.
    - intros N1. apply (proj1 (proj2 (proj2 A))). auto.
    - intros E1. unfold pts', S. rewrite E1 in *. apply sort_points_in_order; auto. }
  assert (Dm' : of_dimension d pts') by (intros p I; apply Dm; eapply Permutation_in; [apply Permutation_sym; apply PA|auto]).
  assert (Ne' : pts' <> []) by (intros E; destruct PA as (P & _); rewrite E in P; apply Permutation_sym, Permutation_nil in P; auto).
  assert (HT' : hull_test d pts' inside) by (intros D2; rewrite (proj1 (proj2 PA)) by lia; apply HT; auto).
  clearbody T pts' S. clear A LC RC C.
  destruct (is_interpolator m); [|cbn; auto].
  pose proof (follows_at d n _ pts m pts' a b k T Fm PA LT RT) as Hm.
  destruct (create m pts' (map fst T)) as [f|], (create m pts' (map snd T)) as [f'|], (create m pts' (map (bl a b k) T)) as [f''|]; try contradiction; [|cbn; auto]. cbn [rbind].
  destruct e as [e|].
  - destruct (is_extrapolator e); [|cbn; auto]. pose proof (follows_at d n _ pts e pts' a b k T Fe PA LT RT) as He.
    destruct (create e pts' (map fst T)) as [h|], (create e pts' (map snd T)) as [h'|], (create e pts' (map (bl a b k) T)) as [h''|]; try contradiction; [|cbn; auto]. cbn [rbind].
    do 4 (split; [reflexivity|]). intros tgt. unfold estimator_call. cbn [grid_dim grid interpolator extrapolator]. destruct (check_target d tgt) as [t|] eqn:Et; [|cbn; auto]. cbn [rbind]. apply target_length in Et.
    pose proof (in_grid_spec inside d pts' t HT' D Dm' Et Ne') as I. destruct (target_in_grid inside d pts' t).
    + specialize (Hm t Et (proj1 I eq_refl)). destruct (f t), (f' t), (f'' t); cbn in *; tauto.
    + specialize (He t Et (fun H => match Bool.diff_false_true (proj2 I H) with end)). destruct (h t), (h' t), (h'' t); cbn in *; tauto.
  - cbn [rbind]. do 4 (split; [reflexivity|]). intros tgt. unfold estimator_call. cbn [grid_dim grid interpolator extrapolator]. destruct (check_target d tgt) as [t|] eqn:Et; [|cbn; auto]. cbn [rbind]. apply target_length in Et.
    pose proof (in_grid_spec inside d pts' t HT' D Dm' Et Ne') as I. destruct (target_in_grid inside d pts' t); [|cbn; auto].
    specialize (Hm t Et (proj1 I eq_refl)). destruct (f t), (f' t), (f'' t); cbn in *; tauto.
Qed.
Lemma estimators_follow inside g d pts n a b k X Y m e tgt : (1 <= d)%nat -> float_grid g d pts -> NoDup pts -> hull_test d pts inside ->
  List.length X = List.length Y -> tables n X -> tables n Y -> follows d n (in_hull d) pts m ->
  match e with Some e => follows d n (outside_hull d) pts e | None => True end ->
  combined_estimates a b k (do est <- parametrized_init g (Some X) m e; estimator_call inside est tgt) (do est <- parametrized_init g (Some Y) m e; estimator_call inside est tgt)
    (do est <- parametrized_init g (Some (blend_tables a b k X Y)) m e; estimator_call inside est tgt).
Proof.
  intros D G ND HT LXY TX TY Fm Fe. pose proof (init_follow inside g d pts n a b k X Y m e D G ND HT LXY TX TY Fm Fe) as H.
  destruct (parametrized_init g (Some X) m e), (parametrized_init g (Some Y) m e), (parametrized_init g (Some (blend_tables a b k X Y)) m e); try contradiction; [apply H|cbn; auto].
Qed.
Lemma self_blend a k r : blend a 0 k r r = map (fun v => a * v + k) r.
Proof. unfold blend. induction r as [|v r IH]; cbn; auto. f_equal; [ring|auto]. Qed.
Lemma self_tables a k X : blend_tables a 0 k X X = map (map (fun v => a * v + k)) X.
Proof. unfold blend_tables. induction X as [|r X IH]; cbn; auto. f_equal; [apply self_blend|auto]. Qed.
Lemma ltb_scale c x y : 0 < c -> Rltb (c * x) (c * y) = Rltb x y.
Proof. intros C. apply eq_true_iff_eq. rewrite !Rltb_true. split; nra. Qed.
Lemma leb_scale c x y : 0 < c -> Rleb (c * x) (c * y) = Rleb x y.
Proof. intros C. apply eq_true_iff_eq. rewrite !Rleb_true. split; nra. Qed.
Lemma min_scale c x y : 0 < c -> Rmin (c * x) (c * y) = c * Rmin x y.
Proof. intros C. unfold Rmin. destruct (Rle_dec x y), (Rle_dec (c * x) (c * y)); auto; exfalso; nra. Qed.
Lemma max_scale c x y : 0 < c -> Rmax (c * x) (c * y) = c * Rmax x y.
Proof. intros C. unfold Rmax. destruct (Rle_dec x y), (Rle_dec (c * x) (c * y)); auto; exfalso; nra. Qed.
Lemma floor_scale c mn v : 0 < c -> 0 < mn -> ln (floor_at (c * mn) (c * v)) = ln (floor_at mn v) + ln c.
Proof.
  intros C M. unfold floor_at. rewrite ltb_scale by auto. destruct (Rltb v mn) eqn:B; [|apply Rltb_false in B]; rewrite ln_mult by lra; ring.
Qed.
Lemma c92_effective_area inside g d pts n c areas mn m e tgt : 0 < c -> 0 < mn -> (1 <= d)%nat -> float_grid g d pts -> NoDup pts -> hull_test d pts inside ->
  tables n areas -> follows d n (in_hull d) pts m -> match e with Some e => follows d n (outside_hull d) pts e | None => True end ->
  (do est <- aeff_init g (map (times c) areas) (c * mn) m e; aeff_call inside est (c * mn) tgt) =
  times_result c (do est <- aeff_init g areas mn m e; aeff_call inside est mn tgt).
Proof.
  intros C M D G ND HT T Fm Fe. unfold aeff_init, aeff_call. set (X := map (map (fun a => ln (floor_at mn a))) areas).
  assert (E : map (map (fun a => ln (floor_at (c * mn) a))) (map (times c) areas) = blend_tables 1 0 (ln c) X X).
  { rewrite self_tables. unfold X, times. rewrite !map_map. apply map_ext. intros r. rewrite !map_map. apply map_ext. intros v. rewrite floor_scale by auto. ring. }
  rewrite E. assert (TX : tables n X) by (intros r I; apply in_map_iff in I as (r' & <- & I); rewrite map_length; apply T; auto).
  pose proof (init_follow inside g d pts n 1 0 (ln c) X X m e D G ND HT eq_refl TX TX Fm Fe) as H.
  destruct (parametrized_init g (Some X) m e) as [x|], (parametrized_init g (Some (blend_tables 1 0 (ln c) X X)) m e) as [z|]; try contradiction; cbn [rbind].
  2:{ cbn. f_equal. destruct H; congruence. }
  destruct H as (_ & _ & _ & _ & H). specialize (H tgt). destruct (estimator_call inside x tgt) as [(w, u)|], (estimator_call inside z tgt) as [(w', v)|]; try contradiction; cbn [rbind fst snd times_result]; [|cbn in H; f_equal; destruct H; congruence].
  destruct H as (_ & -> & _ & ->). rewrite self_blend. f_equal. f_equal. unfold times. rewrite !map_map. apply map_ext. intros q. rewrite Rmult_1_l, exp_plus, exp_ln by auto.
  rewrite (Rmult_comm (exp q)), ltb_scale by auto. destruct (Rltb _ _); ring.
Qed.
Lemma fold_max_times c l : 0 < c -> forall a, fold_left Rmax (times c l) (c * a) = c * fold_left Rmax l a.
Proof. intros C. unfold times. induction l; intros; cbn; auto. rewrite max_scale, IHl; auto. Qed.
Lemma list_max_times c l : 0 < c -> list_max (times c l) = c * list_max l.
Proof. intros C. destruct l; cbn; [ring|]. apply fold_max_times. auto. Qed.
Lemma concat_times c X : concat (map (times c) X) = times c (concat X).
Proof. unfold times. rewrite concat_map. auto. Qed.
Lemma min_entry_times c v : 0 < c -> min_entry (c * v) = c * min_entry v.
Proof. intros C. unfold min_entry. rewrite <- (Rmult_0_r c) at 1. rewrite ltb_scale by auto. destruct (Rltb v 0); ring. Qed.
Lemma cap_times c f x : 0 < c -> cap (c * f) (c * x) = c * cap f x.
Proof. intros C. unfold cap. rewrite ltb_scale by auto. destruct (Rltb f x); ring. Qed.
Lemma fill_1D_times c f a b x : 0 < c -> fill_1D (c * f) (c * a) (c * b) (c * x) = c * fill_1D f a b x.
Proof. intros C. unfold fill_1D. rewrite !leb_scale by auto. rewrite <- cap_times by auto. destruct (_ || _); auto. Qed.
Lemma fill_2D_times c f a b d x : 0 < c -> fill_2D (c * f) (c * a) (c * b) (c * d) (c * x) = c * fill_2D f a b d x.
Proof.
  intros C. unfold fill_2D, count. cbn [filter]. rewrite !leb_scale, !min_scale by auto. rewrite <- cap_times by auto.
  destruct (Rleb f a), (Rleb f b), (Rleb f d); cbn [List.length Nat.eqb orb]; auto.
Qed.
Lemma zip_1D_times c f a b x : 0 < c -> zip3 (fill_1D (c * f)) (times c a) (times c b) (times c x) = times c (zip3 (fill_1D f) a b x).
Proof. intros C. unfold times. revert b x. induction a as [|u a IH]; intros [|v b] [|w x]; cbn; auto. rewrite IH, fill_1D_times; auto. Qed.
Lemma zip_2D_times c f a b d x : 0 < c ->
  zip3 (fun ab c' e => fill_2D (c * f) (fst ab) (snd ab) c' e) (combine (times c a) (times c b)) (times c d) (times c x) =
  times c (zip3 (fun ab c e => fill_2D f (fst ab) (snd ab) c e) (combine a b) d x).
Proof. intros C. unfold times. revert b d x. induction a as [|u a IH]; intros [|v b] [|w d] [|z x]; cbn; auto. rewrite IH, fill_2D_times; auto. Qed.
Lemma active_times c f : 0 < c -> active_fill (option_map (Rmult c) f) = option_map (Rmult c) (active_fill f).
Proof.
  intros C. destruct f as [v|]; cbn; auto. destruct (Reqb v 0) eqn:B.
  - apply Reqb_true in B. subst. rewrite Rmult_0_r. rewrite (proj2 (Reqb_true 0 0) eq_refl). auto.
  - apply Reqb_false in B. assert (B' : Reqb (c * v) 0 = false) by (apply Reqb_false; intros E; apply B; nra). rewrite B'. auto.
Qed.
Lemma full_times c l : 0 < c -> map min_entry (times c l) = times c (map min_entry l).
Proof. intros C. unfold times. rewrite !map_map. apply map_ext. intros. apply min_entry_times. auto. Qed.
Lemma c92_rad_max inside tri find two g d pts n c rad_max fill m e tgt : 0 < c -> (1 <= d)%nat -> float_grid g d pts -> NoDup pts -> hull_test d pts inside ->
  tables n rad_max -> follows d n (in_hull d) pts m -> match e with Some e => follows d n (outside_hull d) pts e | None => True end ->
  (do est <- rad_max_init g (map (times c) rad_max) (times_fill c fill) m e; rad_max_call inside tri find two est tgt) =
  times_result c (do est <- rad_max_init g rad_max fill m e; rad_max_call inside tri find two est tgt).
Proof.
  intros C D G ND HT T Fm Fe. unfold rad_max_init. assert (E : map (times c) rad_max = blend_tables c 0 0 rad_max rad_max).
  { rewrite self_tables. apply map_ext. intros r. unfold times. apply map_ext. intros; ring. }
  pose proof (init_follow inside g d pts n c 0 0 rad_max rad_max m e D G ND HT eq_refl T T Fm Fe) as H. rewrite <- E in H. clear E.
  destruct (parametrized_init g (Some rad_max) m e) as [x|], (parametrized_init g (Some (map (times c) rad_max)) m e) as [z|]; try contradiction; cbn [rbind].
  2:{ cbn. f_equal. destruct H; congruence. }
  destruct H as (_ & _ & H1 & H2 & H). specialize (H tgt).
  set (ff := match fill with FillNone => None | FillInfer => Some (list_max (concat rad_max)) | FillValue v => Some v end).
  assert (E : match times_fill c fill with FillNone => None | FillInfer => Some (list_max (concat (map (times c) rad_max))) | FillValue v => Some v end = option_map (Rmult c) ff).
  { unfold ff. destruct fill; cbn; auto. rewrite concat_times, list_max_times by auto. auto. }
  rewrite E. clear E. clearbody ff. rewrite active_times by auto. rewrite <- H1.
  set (k := is_nearest m). set (k' := match e with Some e => is_nearest e | None => false end). clearbody k k'.
  assert (M : rad_max_call inside tri find two (mkRM z (map (times c) rad_max) (option_map (Rmult c) ff) k k') tgt =
    times_result c (rad_max_call inside tri find two (mkRM x rad_max ff k k') tgt)).
  { unfold rad_max_call. cbn [rm_est rm_params fill_val interp_nearest extrap_nearest]. rewrite <- H1, <- H2, active_times by auto.
    destruct (estimator_call inside x tgt) as [(w, u)|], (estimator_call inside z tgt) as [(w', v)|]; try contradiction; cbn [rbind fst snd times_result]; [|cbn in H; f_equal; destruct H; congruence].
    destruct H as (_ & -> & _ & ->). rewrite self_blend. replace (map (fun q => c * q + 0) u) with (times c u) by (unfold times; apply map_ext; intros; ring). rewrite full_times by auto.
    destruct (check_target (grid_dim x) tgt) as [t|]; cbn [rbind]; auto. destruct (active_fill ff) as [f|]; cbn [option_map]; auto. destruct (Nat.eqb (grid_dim x) 1).
    - destruct (_ || k); auto. destruct (rm_segment _ _) as [(i, j)|]; cbn [rbind fst snd]; auto. rewrite !pyget_map. destruct (pyget rad_max i); cbn [rbind]; auto. destruct (pyget rad_max j); cbn [rbind]; auto.
      destruct two; auto. cbn [times_result]. rewrite zip_1D_times; auto.
    - destruct (_ || k); auto. destruct (match find t with Some i => Ok i | None => _ end) as [i|]; cbn [rbind]; auto. destruct (nth_error (simplices tri) i) as [((p, q), r)|]; auto.
      rewrite !pyget_map. destruct (pyget rad_max _); cbn [rbind]; auto. destruct (pyget rad_max _); cbn [rbind]; auto. destruct (pyget rad_max _); cbn [rbind]; auto.
      destruct two; auto. cbn [times_result]. rewrite zip_2D_times; auto. }
  destruct (active_fill ff); cbn [option_map]; [destruct (Nat.leb 3 (grid_dim x)); auto|]; cbn [rbind]; auto.
Qed.
Lemma c92_constant inside g d pts n k X m e tgt : (1 <= d)%nat -> float_grid g d pts -> NoDup pts -> hull_test d pts inside ->
  tables n X -> (forall r v, In r X -> In v r -> v = k) -> follows d n (in_hull d) pts m ->
  match e with Some e => follows d n (outside_hull d) pts e | None => True end ->
  match (do est <- parametrized_init g (Some X) m e; estimator_call inside est tgt) with Ok (_, x) => forall v, In v x -> v = k | Err _ => True end.
Proof.
  intros D G ND HT TX H Fm Fe. pose proof (estimators_follow inside g d pts n 0 0 k X X m e tgt D G ND HT eq_refl TX TX Fm Fe) as Q.
  assert (E : blend_tables 0 0 k X X = X).
  { rewrite self_tables. rewrite <- (map_id X) at 2. apply map_ext_in. intros r Hr. rewrite <- (map_id r) at 2. apply map_ext_in. intros v Hv. rewrite (H r v Hr Hv). ring. }
  rewrite E in Q. destruct (do est <- _; _) as [(w, x)|]; auto. cbn in Q. destruct Q as (_ & _ & _ & Q). rewrite self_blend in Q. rewrite Q. intros v I. apply in_map_iff in I as (q & <- & _). ring.
Qed.
(** a triangulation of the triangle and a target: the triangles of the target and a side *)
Definition full_fan (pts : list coords) (t : coords) : list triple :=
  filter (fun s => negb (Reqb (SpecInterp.doubled_area (fst (fst s)) (snd (fst s)) (snd s)) 0))
    [(plane (nth 0 pts []), plane (nth 1 pts []), plane t); (plane (nth 1 pts []), plane (nth 2 pts []), plane t); (plane (nth 0 pts []), plane (nth 2 pts []), plane t)].
Lemma fan_in_view a b c : SpecInterp.proper_triangle (plane a) (plane b) (plane c) -> in_view [a; b; c] full_fan.
Proof.
  intros H t _ _. split.
  - intros s I. apply filter_In in I as [_ I]. apply negb_true_iff, Reqb_false in I. exact I.
  - assert (K : forall s, In s [(plane a, plane b, plane t); (plane b, plane c, plane t); (plane a, plane c, plane t)] -> SpecInterp.doubled_area (fst (fst s)) (snd (fst s)) (snd s) <> 0 -> exists s, In s (full_fan [a; b; c] t) /\ is_corner (nth 0 t 0, nth 1 t 0) s).
    { intros s I A. exists s. split; [apply filter_In; split; [exact I|apply negb_true_iff, Reqb_false; auto]|]. unfold is_corner, plane. destruct I as [<-|[<-|[<-|[]]]]; cbn; auto. }
    destruct (Req_dec (SpecInterp.doubled_area (plane a) (plane b) (plane t)) 0) as [A1|A1]; [|apply (K (plane a, plane b, plane t)); cbn; auto].
    destruct (Req_dec (SpecInterp.doubled_area (plane b) (plane c) (plane t)) 0) as [A2|A2]; [|apply (K (plane b, plane c, plane t)); cbn; auto].
    destruct (Req_dec (SpecInterp.doubled_area (plane a) (plane c) (plane t)) 0) as [A3|A3]; [|apply (K (plane a, plane c, plane t)); cbn; auto].
    destruct H. unfold SpecInterp.proper_triangle, SpecInterp.doubled_area in *. lra.
Qed.
