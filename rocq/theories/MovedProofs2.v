(** * Proofs for C89: classes and estimators *)
From Coq Require Import String Reals List Bool ZArith Arith Lia Lra Permutation.
From Verif Require Import Num Numpy Sort Lists Table Binning Utils Morph Geometry Quantile Tensor Quantities Estimators PDFEstimators GridMethods
  SpecIRF SpecInterp SpecEstimators SpecMoved MovedProofs.
Import ListNotations.
Open Scope R_scope.

Section Coordinates.
  Variable s : R.
  Variable v : nat -> R.
  Hypothesis Hs : 0 < s.
  Let mv := moved s v.
  Lemma moved_length p : List.length (mv p) = List.length p.
  Proof. unfold mv, moved. rewrite map_length, seq_length. auto. Qed.
  Lemma moved_nth p j : (j < List.length p)%nat -> nth j (mv p) 0 = s * nth j p 0 + v j.
  Proof.
    intros H. unfold mv, moved. rewrite (nth_indep _ 0 (s * nth 0 p 0 + v 0%nat)) by (rewrite map_length, seq_length; auto).
    rewrite (map_nth (fun j => s * nth j p 0 + v j)), seq_nth by auto. auto.
  Qed.
  Lemma moved_1 x : mv [x] = [s * x + v 0%nat]. Proof. reflexivity. Qed.
  Lemma moved_hd t : List.length t = 1%nat -> hd 0 (mv t) = s * hd 0 t + v 0%nat.
  Proof. destruct t as [|x [|]]; try discriminate. intros _. reflexivity. Qed.
  Lemma moved_concat pts : of_dimension 1 pts -> concat (map mv pts) = map (fun x => s * x + v 0%nat) (concat pts).
  Proof.
    induction pts as [|p pts IH]; intros H; auto. assert (L : List.length p = 1%nat) by (apply H; cbn; auto).
    destruct p as [|x [|]]; try discriminate. cbn [map concat app]. rewrite IH by (intros q Hq; apply H; cbn; auto). reflexivity.
  Qed.
  Lemma moved_plane p : List.length p = 2%nat -> plane (mv p) = moved_xy s v (plane p).
  Proof. intros H. unfold plane, moved_xy. cbn [fst snd]. rewrite !moved_nth by lia. auto. Qed.
  Lemma moved_columns pts : columns_of (map mv pts) = columns_of pts.
  Proof. unfold columns_of. destruct pts as [|p pts]; auto. cbn [map hd]. apply moved_length. Qed.
  Lemma columns_dim d pts : of_dimension d pts -> pts <> [] -> columns_of pts = d.
  Proof. intros H N. destruct pts as [|p pts]; [congruence|]. apply H. cbn. auto. Qed.
  Lemma root_sc p x : (0 < p)%nat -> 0 <= x -> root p (s ^ p * x) = s * root p x.
  Proof.
    intros Hp Hx. unfold root. assert (P : 0 < s ^ p) by (apply pow_lt; auto).
    destruct (Reqb_spec x 0) as [->|N].
    { rewrite Rmult_0_r. destruct (Reqb_spec 0 0); lra. }
    destruct (Reqb_spec (s ^ p * x) 0) as [E|N'].
    - exfalso. apply Rmult_integral in E. lra.
    - rewrite <- Rpower_mult_distr by lra. f_equal. rewrite <- (Rpower_pow p s), Rpower_mult by auto.
      replace (INR p * / INR p) with 1; [apply Rpower_1; auto|]. field. apply not_0_INR. lia.
  Qed.
  Lemma pnorm_sc p l : (0 < p)%nat -> pnorm p (map (Rmult s) l) = s * pnorm p l.
  Proof.
    intros Hp. unfold pnorm. rewrite <- root_sc; auto.
    - f_equal. rewrite map_map, <- rsum_scale, map_map. f_equal. apply map_ext. intros x. rewrite Rabs_mult, (Rabs_pos_eq s), Rpow_mult_distr by lra. auto.
    - clear. induction l as [|x l IH]; cbn [map]; [unfold rsum; cbn; lra|]. rewrite rsum_cons. assert (0 <= Rabs x ^ p) by (apply pow_le, Rabs_pos). lra.
  Qed.
End Coordinates.
Lemma moved_cons s v x p : moved s v (x :: p) = (s * x + v 0%nat) :: moved s (fun j => v (S j)) p.
Proof. unfold moved. cbn [List.length seq map]. f_equal. rewrite <- seq_shift, map_map. reflexivity. Qed.
Lemma moved_diff s : forall g t v, List.length g = List.length t -> zipwith Rminus (moved s v g) (moved s v t) = map (Rmult s) (zipwith Rminus g t).
Proof.
  induction g as [|x g IH]; intros [|y t] v L; try discriminate; auto. rewrite !moved_cons. cbn [zipwith map]. f_equal; [ring|]. apply IH. cbn in L. lia.
Qed.
Lemma isort_map_in {A B} (le : A -> A -> bool) (le' : B -> B -> bool) (f : A -> B) : forall l,
  (forall a b, In a l -> In b l -> le' (f a) (f b) = le a b) -> isort le' (map f l) = map f (isort le l).
Proof.
  assert (I : forall a l, (forall b, In b l -> le' (f a) (f b) = le a b) -> insert le' (f a) (map f l) = map f (insert le a l)).
  { intros a l. induction l as [|b l IH]; intros H; cbn; auto. rewrite H by (cbn; auto). destruct (le a b); cbn; auto. rewrite IH; auto. intros; apply H; cbn; auto. }
  induction l as [|a l IH]; intros H; cbn; auto. rewrite IH by (intros; apply H; cbn; auto). apply I. intros b Hb. apply H; cbn; auto.
  right. apply (Permutation_in b (Permutation_sym (isort_perm le l))); auto.
Qed.

Section Classes.
  Variable s : R.
  Variable v : nat -> R.
  Hypothesis Hs : 0 < s.
  Let mv := moved s v.
  Lemma passed_dim d (pts pts' : list coords) : passed d pts pts' -> of_dimension d pts -> of_dimension d pts'.
  Proof. intros (P & _) H p Hp. apply H. eapply Permutation_in; [apply Permutation_sym, P|auto]. Qed.
  Lemma passed_nonempty d (pts pts' : list coords) : passed d pts pts' -> pts <> [] -> pts' <> [].
  Proof. intros (P & _) H ->. apply Permutation_sym, Permutation_nil in P. auto. Qed.
  Lemma concat_nonempty pts : of_dimension 1 pts -> pts <> [] -> concat pts <> [].
  Proof. destruct pts as [|p pts]; [congruence|]. intros H _. assert (L : List.length p = 1%nat) by (apply H; cbn; auto). destruct p; discriminate. Qed.
  Lemma nn_index_mv d pts k t : (0 < k)%nat -> of_dimension d pts -> List.length t = d -> nn_index (map mv pts) k (mv t) = nn_index pts k t.
  Proof.
    intros Hk H L. unfold nn_index. rewrite map_map.
    rewrite (map_ext_in _ (fun g => s * pnorm k (zipwith Rminus g t))).
    2:{ intros g Hg. unfold mv. rewrite moved_diff, pnorm_sc; auto. rewrite L. apply H. auto. }
    rewrite <- (map_map (fun g => pnorm k (zipwith Rminus g t)) (Rmult s)). apply argbest_map. intros a b _ _.
    destruct (Rltb_spec a b), (Rltb_spec (s * a) (s * b)); auto; exfalso; nra.
  Qed.
  Lemma nearest_indifferent d pts k : (0 < k)%nat -> of_dimension d pts -> indifferent s v d pts (nearest_method k).
  Proof.
    intros Hk H pts' P tm. cbn. intros t L. fold mv. rewrite (nn_index_mv d); auto. eapply passed_dim; eauto.
  Qed.
  Lemma nearest_pdf_indifferent d pts k e : (0 < k)%nat -> of_dimension d pts -> indifferent s v d pts (nearest_pdf_method k e).
  Proof.
    intros Hk H pts' P tm. cbn. intros t L. fold mv. rewrite (nn_index_mv d); auto. eapply passed_dim; eauto.
  Qed.
  Lemma choose_1D_mv pts t : of_dimension 1 pts -> pts <> [] -> List.length t = 1%nat -> choose_1D (map mv pts) (mv t) = choose_1D pts t.
  Proof.
    intros H N L. unfold choose_1D. unfold mv. rewrite moved_concat, moved_hd by auto. cbv zeta. rewrite map_length.
    pose proof (concat_nonempty pts H N) as NX. set (x := concat pts) in *. set (f := fun y => s * y + v 0%nat).
    assert (C : count (fun a => Rltb a (s * hd 0 t + v 0%nat)) (map f x) = count (fun a => Rltb a (hd 0 t)) x).
    { rewrite count_map. apply count_ext. intros a. unfold f. rewrite aff_lt; auto. }
    rewrite C. set (hi := Nat.min _ _).
    assert (I : (hi < List.length x)%nat) by (unfold hi; destruct x; [congruence|cbn; lia]).
    assert (G : forall i, (i < List.length x)%nat -> nth i (map f x) 0 = f (nth i x 0)).
    { intros i Hi. rewrite (nth_indep _ 0 (f 0)) by (rewrite map_length; auto). apply map_nth. }
    rewrite !G by lia. unfold f. rewrite !ratio_mv, sdiv by auto. auto.
  Qed.
  Lemma griddata_indifferent d pts choose n : (forall pts', passed d pts pts' -> same_choice s v d pts' choose) -> indifferent s v d pts (griddata_method choose n).
  Proof. intros C pts' P tm. cbn. intros t L. rewrite C; auto. Qed.
  Lemma quantile_indifferent d pts choose nq k n e : (forall pts', passed d pts pts' -> same_choice s v d pts' choose) ->
    indifferent s v d pts (quantile_method choose nq k n e).
  Proof.
    intros C pts' P tm. cbn. destruct (rmap _ (seq 0 k)) as [eps|]; cbn [rbind]; auto. intros t L. rewrite C; auto.
  Qed.
  Lemma linear_choice pts : of_dimension 1 pts -> pts <> [] -> forall pts', passed 1 pts pts' -> same_choice s v 1 pts' choose_1D.
  Proof. intros H N pts' P t L. apply choose_1D_mv; auto; [eapply passed_dim; eauto|eapply passed_nonempty; eauto]. Qed.
  Lemma morph_indifferent_1 pts find u k n e : of_dimension 1 pts -> pts <> [] -> indifferent s v 1 pts (morph_method find u k n e).
  Proof.
    intros H N pts' P tm. cbn. rewrite moved_columns. pose proof (passed_dim _ _ _ P H) as H'. pose proof (passed_nonempty _ _ _ P N) as N'.
    rewrite (columns_dim 1) by auto. cbn. intros t L. rewrite moved_concat, moved_hd, morph_interpolate1D_aff by auto. auto.
  Qed.
  Lemma morph_extrapolator_indifferent_1 pts tri u k n e : of_dimension 1 pts -> pts <> [] -> indifferent s v 1 pts (morph_extrapolator tri u k n e).
  Proof.
    intros H N pts' P tm. cbn. rewrite moved_columns. pose proof (passed_dim _ _ _ P H) as H'. pose proof (passed_nonempty _ _ _ P N) as N'.
    rewrite (columns_dim 1) by auto. cbn. intros t L. destruct u; auto.
    rewrite moved_concat, moved_hd, morph_extrapolate1D_aff by (auto using concat_nonempty). auto.
  Qed.
  Lemma simplex_indifferent_1 pts tri n : of_dimension 1 pts -> pts <> [] -> indifferent s v 1 pts (simplex_method tri n).
  Proof.
    intros H N pts' P tm. cbn. rewrite moved_columns. pose proof (passed_dim _ _ _ P H) as H'. pose proof (passed_nonempty _ _ _ P N) as N'.
    rewrite (columns_dim 1) by auto. cbn. intros t L. rewrite moved_concat, moved_hd, extrapolate1D_aff by (auto using concat_nonempty). auto.
  Qed.
  Lemma visible_indifferent_1 pts tri full n ps m : of_dimension 1 pts -> pts <> [] -> indifferent s v 1 pts (visible_method tri full n ps m).
  Proof.
    intros H N pts' P tm. cbn. rewrite moved_columns. pose proof (passed_dim _ _ _ P H) as H'. pose proof (passed_nonempty _ _ _ P N) as N'.
    rewrite (columns_dim 1) by auto. cbn. intros t L. rewrite moved_concat, moved_hd, extrapolate1D_aff by (auto using concat_nonempty). auto.
  Qed.
  (** two dimensions *)
  Lemma passed_2 (pts pts' : list coords) : passed 2 pts pts' -> pts' = pts.
  Proof. intros (_ & H). apply H. lia. Qed.
  Lemma plane_map pts : of_dimension 2 pts -> map plane (map mv pts) = map (moved_xy s v) (map plane pts).
  Proof. intros H. rewrite !map_map. apply map_ext_in. intros p Hp. apply moved_plane. apply H. auto. Qed.
  Lemma simplex_indifferent_2 pts tri n : of_dimension 2 pts -> pts <> [] -> same_mesh s v pts tri -> indifferent s v 2 pts (simplex_method tri n).
  Proof.
    intros H N (M1 & M2 & M3) pts' P tm. apply passed_2 in P. subst pts'. cbn. rewrite moved_columns, (columns_dim 2) by auto. cbn. intros t L.
    rewrite M3, moved_plane, extrapolate2D_mv by auto. auto.
  Qed.
  Lemma morph_extrapolator_indifferent_2 pts tri u k n e : of_dimension 2 pts -> pts <> [] -> same_mesh s v pts tri ->
    indifferent s v 2 pts (morph_extrapolator tri u k n e).
  Proof.
    intros H N (M1 & M2 & M3) pts' P tm. apply passed_2 in P. subst pts'. cbn. rewrite moved_columns, (columns_dim 2) by auto. cbn. intros t L.
    destruct u; auto. rewrite M3, moved_plane, morph_extrapolate2D_mv by auto. auto.
  Qed.
  Lemma visible_indifferent_2 pts tri full n ps m : of_dimension 2 pts -> pts <> [] -> same_mesh s v pts tri -> same_view s v pts full ->
    indifferent s v 2 pts (visible_method tri full n ps m).
  Proof.
    intros H N (M1 & M2 & M3) W pts' P tm. apply passed_2 in P. subst pts'. cbn. rewrite moved_columns, (columns_dim 2) by auto. cbn. intros t L.
    rewrite M3, W, moved_plane, (visible_facets_mv s v Hs), visible_mv by auto. auto.
  Qed.
  Lemma morph_indifferent_2 pts find u k n e : of_dimension 2 pts -> pts <> [] -> same_choice s v 2 pts find ->
    indifferent s v 2 pts (morph_method find u k n e).
  Proof.
    intros H N C pts' P tm. apply passed_2 in P. subst pts'. cbn. rewrite moved_columns, (columns_dim 2) by auto. cbn. intros t L.
    fold mv. rewrite plane_map by auto. unfold mv. rewrite C, moved_plane by auto. unfold morph_interpolate2D. destruct (find pts t) as ((a, b), c).
    generalize (map plane pts). intros g. rewrite !nth_error_map. unfold point, coords in *.
    destruct (nth_error g a), (nth_error g b), (nth_error g c), (nth_error tm a), (nth_error tm b), (nth_error tm c); cbn [option_map]; auto.
    rewrite bary_mv by auto. auto.
  Qed.
End Classes.
