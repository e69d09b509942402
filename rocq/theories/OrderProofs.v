(** * OrderProofs: the order of the events *)
From Coq Require Import String Reals List Bool ZArith Lia Lra Permutation FunctionalExtensionality.
From Verif Require Import Num Numpy Sort Table Binning Percentile Cuts Utils Sensitivity CutOptimization Simulations Tensor IRF
  Benchmarks BinningProofs HistProofs PercentileProofs CutsProofs Lists SpecOrder.
Import ListNotations.
Open Scope R_scope.

Lemma wsum_perm {A} (w : A -> R) p l l' : Permutation l l' -> wsum w p l = wsum w p l'.
Proof. intros H. unfold wsum. apply rsum_perm, Permutation_map, perm_filter, H. Qed.
Lemma histogramdd_perm {A} dims (w : A -> R) l l' : Permutation l l' -> histogramdd dims w l = histogramdd dims w l'.
Proof.
  intros H. unfold histogramdd. destruct (existsb _ _); auto. destruct (existsb _ _); auto.
  do 2 f_equal. extensionality ix. f_equal. apply wsum_perm, H.
Qed.
Section IRFs.
Variables (l l' : list dl2) (H : Permutation l l').
Lemma order_aeff_fov s e f : effective_area_per_energy_and_fov l s e f = effective_area_per_energy_and_fov l' s e f.
Proof. unfold effective_area_per_energy_and_fov. rewrite (histogramdd_perm _ _ _ _ H). reflexivity. Qed.
Lemma order_aeff_polar s e f p : effective_area_3d_polar l s e f p = effective_area_3d_polar l' s e f p.
Proof. unfold effective_area_3d_polar. rewrite (histogramdd_perm _ _ _ _ H). reflexivity. Qed.
Lemma order_aeff_lonlat s e lon lat k : effective_area_3d_lonlat l s e lon lat k = effective_area_3d_lonlat l' s e lon lat k.
Proof. unfold effective_area_3d_lonlat. rewrite (histogramdd_perm _ _ _ _ H). reflexivity. Qed.
Lemma order_edisp e f m : energy_dispersion l e f m = energy_dispersion l' e f m.
Proof. unfold energy_dispersion. rewrite (histogramdd_perm _ _ _ _ H). reflexivity. Qed.
Lemma order_migration e r f : energy_migration_matrix l e r f = energy_migration_matrix l' e r f.
Proof. unfold energy_migration_matrix. rewrite (histogramdd_perm _ _ _ _ H). reflexivity. Qed.
Lemma order_psf e s f : psf_table l e s f = psf_table l' e s f.
Proof. unfold psf_table. rewrite (histogramdd_perm _ _ _ _ H). reflexivity. Qed.
Lemma order_bg2 e f t : background_2d l e f t = background_2d l' e f t.
Proof. unfold background_2d. rewrite (histogramdd_perm _ _ _ _ H). reflexivity. Qed.
Lemma order_bg3 e lon lat t : background_3d_lonlat l e lon lat t = background_3d_lonlat l' e lon lat t.
Proof. unfold background_3d_lonlat. rewrite (histogramdd_perm _ _ _ _ H). reflexivity. Qed.
End IRFs.

(** ** row-wise functions *)
Definition one_error {A B} (f : A -> res B) : Prop := forall a b e e', f a = Err e -> f b = Err e' -> e = e'.
Lemma rmap_ok_map {A B} (d : B) (f : A -> res B) l : (forall a, In a l -> exists b, f a = Ok b) ->
  rmap f l = Ok (map (fun a => match f a with Ok b => b | Err _ => d end) l).
Proof.
  induction l as [|a l IH]; intros H; [reflexivity|]. cbn [rmap map]. destruct (H a (or_introl eq_refl)) as [b E]. rewrite E. cbn [rbind].
  rewrite IH by (intros x I; apply H; right; auto). reflexivity.
Qed.
Lemma rmap_err {A B} (f : A -> res B) l e : one_error f -> (exists a, In a l /\ f a = Err e) -> rmap f l = Err e.
Proof.
  intros O. induction l as [|a l IH]; intros (x & I & E); [destruct I|]. cbn [rmap]. destruct (f a) as [b|e'] eqn:Ea; cbn [rbind].
  - destruct I as [->|I]; [congruence|]. rewrite IH by eauto. reflexivity.
  - f_equal. eapply O; eauto.
Qed.
Lemma all_ok_or {A B} (f : A -> res B) l : (forall a, In a l -> exists b, f a = Ok b) \/ exists e a, In a l /\ f a = Err e.
Proof.
  induction l as [|a l IH]; [left; intros a []|]. destruct IH as [IH|(e & x & I & E)]; [|right; exists e, x; split; [right|]; auto].
  destruct (f a) as [b|e] eqn:Ea; [left|right; exists e, a; split; [left|]; auto]. intros x [<-|I]; eauto.
Qed.
Lemma rmap_perm {A B} (d : B) (f : A -> res B) l l' : one_error f -> Permutation l l' ->
  (exists g, rmap f l = Ok (map g l) /\ rmap f l' = Ok (map g l')) \/ exists e, rmap f l = Err e /\ rmap f l' = Err e.
Proof.
  intros O P. destruct (all_ok_or f l) as [H|(e & a & I & E)].
  - left. eexists. split; apply (rmap_ok_map d); auto. intros a I. apply H. eapply Permutation_in; [symmetry|]; eauto.
  - right. exists e. split; apply rmap_err; auto; exists a; split; auto. eapply Permutation_in; eauto.
Qed.
Lemma forallb_perm {A} (p : A -> bool) l l' : Permutation l l' -> forallb p l = forallb p l'.
Proof. induction 1; cbn; auto; [rewrite IHPermutation; auto| |congruence]. destruct (p x), (p y); auto. Qed.
Lemma existsb_perm {A} (p : A -> bool) l l' : Permutation l l' -> existsb p l = existsb p l'.
Proof. induction 1; cbn; auto; [rewrite IHPermutation; auto| |congruence]. destruct (p x), (p y); auto. Qed.

Lemma rmap_comp {A B C} (f : B -> res C) (x : A -> B) l : rmap f (map x l) = rmap (fun e => f (x e)) l.
Proof. induction l as [|a l IH]; [reflexivity|]. cbn [map rmap]. rewrite IH. reflexivity. Qed.
Lemma bin_index1_err bins a e : bin_index1 bins a = Err e -> e = ValueError.
Proof. unfold bin_index1, digitize1. repeat destruct (_ =? _)%Z; cbn; congruence. Qed.
(** either both orders fail in the same way, or the indices of the bins are functions of the event *)
Lemma raw_perm {E} (x : E -> num) bins rows rows' : Permutation rows rows' ->
  (exists i v, calculate_bin_indices_raw (map x rows) bins = Ok (map i rows, map v rows) /\ calculate_bin_indices_raw (map x rows') bins = Ok (map i rows', map v rows')) \/
  exists e, calculate_bin_indices_raw (map x rows) bins = Err e /\ calculate_bin_indices_raw (map x rows') bins = Err e.
Proof.
  intros P. unfold calculate_bin_indices_raw. destruct (Z.eqb _ _); [right; eauto|]. rewrite !rmap_comp.
  destruct (rmap_perm (0%Z, false) (fun e => bin_index1 bins (x e)) rows rows') as [(g & H1 & H2)|(e & H1 & H2)]; auto.
  - intros a b e e' H1 H2. apply bin_index1_err in H1, H2. congruence.
  - left. exists (fun e => fst (g e)), (fun e => snd (g e)). rewrite H1, H2. cbn [rbind]. rewrite !map_map. auto.
  - right. exists e. rewrite H1, H2. auto.
Qed.
Lemma indices_perm {E} (x : E -> num) u bins rows rows' : Permutation rows rows' ->
  (exists i v, calculate_bin_indices (mkArr (map x rows) u) bins = Ok (map i rows, map v rows) /\ calculate_bin_indices (mkArr (map x rows') u) bins = Ok (map i rows', map v rows')) \/
  exists e, calculate_bin_indices (mkArr (map x rows) u) bins = Err e /\ calculate_bin_indices (mkArr (map x rows') u) bins = Err e.
Proof.
  intros P. unfold calculate_bin_indices. cbn [a_unit a_val]. destruct u as [ud|], (a_unit bins) as [ub|].
  - unfold Table.to_value. rewrite Nat.eqb_refl. cbn [rbind]. destruct (Nat.eqb _ _); cbn [rbind]; [|right; eauto].
    rewrite !map_map. apply (raw_perm (fun e => _ (x e)) _ _ _ P).
  - right; eauto.
  - destruct (Nat.eqb _ _).
    + unfold Table.to_value. destruct (Nat.eqb _ _); cbn [rbind]; [|right; eauto]. rewrite !map_map. apply (raw_perm (fun e => _ (x e)) _ _ _ P).
    + rewrite (forallb_perm _ _ _ (Permutation_map x P)). destruct (forallb _ _); [apply raw_perm; auto|right; eauto].
  - apply raw_perm; auto.
Qed.

Lemma combine_maps {E A B} (f : E -> A) (g : E -> B) l : combine (map f l) (map g l) = map (fun e => (f e, g e)) l.
Proof. induction l as [|a l IH]; [reflexivity|]. cbn. rewrite IH. reflexivity. Qed.
Lemma filter_map {E A} (f : E -> A) (p : A -> bool) l : filter p (map f l) = map f (filter (fun e => p (f e)) l).
Proof. induction l as [|a l IH]; [reflexivity|]. cbn. rewrite IH. destruct (p (f a)); reflexivity. Qed.
Lemma bin_group_rows {E A} (f : E -> A) i v l k : bin_group (map f l) (map i l) (map v l) k = map f (filter (fun e => v e && Z.eqb (i e) k) l).
Proof. unfold bin_group. rewrite combine_maps, combine_maps, filter_map, map_map. reflexivity. Qed.
Lemma bin_group_perm {E A} (f : E -> A) i v l l' k : Permutation l l' ->
  Permutation (bin_group (map f l) (map i l) (map v l) k) (bin_group (map f l') (map i l') (map v l') k).
Proof. intros P. rewrite !bin_group_rows. apply Permutation_map, perm_filter, P. Qed.
Lemma bin_keys_perm {E} i v (l l' : list E) : Permutation l l' -> bin_keys (map i l) (map v l) = bin_keys (map i l') (map v l').
Proof.
  intros P. unfold bin_keys. apply isort_perm_eq.
  - intros a b. destruct (Z.leb_spec a b); auto. right. apply Z.leb_le. lia.
  - intros a b c. rewrite !Z.leb_le. lia.
  - intros a b. rewrite !Z.leb_le. lia.
  - apply NoDup_Permutation; try apply NoDup_nodup. intros z. rewrite !nodup_In, !combine_maps.
    assert (Q : Permutation (map fst (filter (fun p : Z * bool => snd p) (map (fun e => (i e, v e)) l))) (map fst (filter (fun p : Z * bool => snd p) (map (fun e => (i e, v e)) l'))))
      by (apply Permutation_map, perm_filter, Permutation_map, P).
    split; apply Permutation_in; auto. symmetry; auto.
Qed.
Lemma cut_loop_perm {E} (f : E -> num) i v l l' b fill lo hi me ps keys acc : Permutation l l' ->
  cut_loop b fill lo hi me ps (map f l) (map i l) (map v l) keys acc = cut_loop b fill lo hi me ps (map f l') (map i l') (map v l') keys acc.
Proof.
  intros P. revert acc. induction keys as [|k keys IH]; intros acc; [reflexivity|]. cbn [cut_loop]. cbv zeta.
  rewrite (group_cut_perm _ _ _ _ _ _ _ _ (bin_group_perm f i v l l' k P)), (Permutation_length (bin_group_perm f i v l l' k P)).
  destruct (group_cut _ _ _ _ _ _ _); cbn [rbind]; auto.
Qed.
Lemma percentile_cut_rows {E} (f x : E -> num) (l l' : list E) b u ux bins fill p lo hi sm me : Permutation l l' ->
  calculate_percentile_cut b (mkArr (map f l) u) (mkArr (map x l) ux) bins fill p lo hi sm me =
  calculate_percentile_cut b (mkArr (map f l') u) (mkArr (map x l') ux) bins fill p lo hi sm me.
Proof.
  intros P. unfold calculate_percentile_cut. cbn [a_unit a_val]. rewrite !map_length, !Nat.eqb_refl.
  destruct (match u with Some _ => _ | None => _ end) as [fl|e]; cbn [rbind]; auto.
  destruct (bound_to _ _) as [lo'|e]; cbn [rbind]; auto. destruct (bound_to _ _) as [hi'|e]; cbn [rbind]; auto.
  destruct (indices_perm x ux bins l l' P) as [(i & v & H1 & H2)|(e & H1 & H2)]; rewrite H1, H2; cbn [rbind]; auto. cbn [negb fst snd].
  rewrite (existsb_perm _ _ _ (Permutation_map v P)). destruct (existsb _ _); cbn [negb]; auto.
  destruct (cast _ _); cbn [rbind]; auto. rewrite (bin_keys_perm i v l l' P), (cut_loop_perm f i v l l' _ _ _ _ _ _ _ _ P). reflexivity.
Qed.
(** ** masks *)
Lemma eval_rows_rmap {E} op cuts (f : E -> num) i v l : eval_rows op cuts (map f l) (map i l) (map v l) =
  rmap (fun e => if v e then do c <- np_index cuts (i e); Ok (op (f e) c) else Ok false) l.
Proof. induction l as [|a l IH]; [reflexivity|]. cbn [map eval_rows rmap]. rewrite IH. reflexivity. Qed.
Lemma np_index_err {A} (l : list A) z e : np_index l z = Err e -> e = IndexError.
Proof. unfold np_index. destruct (_ || _); [congruence|]. destruct (nth_error _ _); congruence. Qed.
Lemma eval_rows_perm {E} op cuts (f : E -> num) i v l l' : Permutation l l' ->
  (exists g, eval_rows op cuts (map f l) (map i l) (map v l) = Ok (map g l) /\ eval_rows op cuts (map f l') (map i l') (map v l') = Ok (map g l')) \/
  exists e, eval_rows op cuts (map f l) (map i l) (map v l) = Err e /\ eval_rows op cuts (map f l') (map i l') (map v l') = Err e.
Proof.
  intros P. rewrite !eval_rows_rmap. apply (rmap_perm false); auto.
  intros a b e e'. destruct (v a), (v b); try discriminate.
  destruct (np_index cuts (i a)) eqn:E1; cbn [rbind]; [discriminate|]. destruct (np_index cuts (i b)) eqn:E2; cbn [rbind]; [discriminate|].
  apply np_index_err in E1, E2. congruence.
Qed.
Lemma by_index_perm {E} q op cuts (f : E -> num) i v l l' : Permutation l l' ->
  (exists g, evaluate_binned_cut_by_index q (map f l) (map i l) (map v l) cuts op = Ok (map g l) /\ evaluate_binned_cut_by_index q (map f l') (map i l') (map v l') cuts op = Ok (map g l')) \/
  exists e, evaluate_binned_cut_by_index q (map f l) (map i l) (map v l) cuts op = Err e /\ evaluate_binned_cut_by_index q (map f l') (map i l') (map v l') cuts op = Err e.
Proof.
  intros P. unfold evaluate_binned_cut_by_index. destruct q; cbn [negb]; [|right; eauto]. rewrite !map_length, !Nat.eqb_refl. cbn [negb].
  apply eval_rows_perm; auto.
Qed.
Lemma binned_cut_perm {E} q op cuts (f x : E -> num) ux low high u l l' : Permutation l l' ->
  (exists g, evaluate_binned_cut q (map f l) (mkArr (map x l) ux) low high u cuts op = Ok (map g l) /\ evaluate_binned_cut q (map f l') (mkArr (map x l') ux) low high u cuts op = Ok (map g l')) \/
  exists e, evaluate_binned_cut q (map f l) (mkArr (map x l) ux) low high u cuts op = Err e /\ evaluate_binned_cut q (map f l') (mkArr (map x l') ux) low high u cuts op = Err e.
Proof.
  intros P. unfold evaluate_binned_cut. destruct q; cbn [negb]; [|right; eauto]. destruct (rev high); [right; eauto|].
  destruct (indices_perm x ux (mkArr (low ++ [n]) u) l l' P) as [(i & v & H1 & H2)|(e & H1 & H2)]; rewrite H1, H2; cbn [rbind fst snd]; [|right; eauto].
  apply by_index_perm; auto.
Qed.
Lemma select_rows {E} g (l : list E) : select (map g l) l = filter g l.
Proof. unfold select. induction l as [|a l IH]; [reflexivity|]. cbn [map combine filter snd fst]. destruct (g a); cbn [map fst]; rewrite IH; reflexivity. Qed.
Lemma mask_and_rows {E} g h (l : list E) : mask_and (map g l) (map h l) = map (fun e => g e && h e) l.
Proof. unfold mask_and. induction l as [|a l IH]; [reflexivity|]. cbn. rewrite IH. reflexivity. Qed.

(** ** background and optimisation *)
Lemma order_background l l' hw hp bins c t a lo hi : Permutation l l' ->
  estimate_background l hw hp bins c t a lo hi = estimate_background l' hw hp bins c t a lo hi.
Proof.
  intros P. unfold estimate_background. cbv zeta.
  match goal with |- context [filter ?p l] => rewrite (hist_perm (map bg_ev (filter p l)) (map bg_ev (filter p l'))) end; [reflexivity|].
  apply Permutation_map, perm_filter, P.
Qed.
Lemma nmax_comm a b : nmax a b = nmax b a.
Proof. unfold nmax. rewrite orb_comm. destruct (is_nan b || is_nan a) eqn:E; auto. destruct a, b; cbn in *; try discriminate; auto. destruct (Rleb_spec r r0), (Rleb_spec r0 r); auto; try lra. f_equal; lra. Qed.
Lemma nmin_comm a b : nmin a b = nmin b a.
Proof. unfold nmin. rewrite orb_comm. destruct (is_nan b || is_nan a) eqn:E; auto. destruct a, b; cbn in *; try discriminate; auto. destruct (Rleb_spec r r0), (Rleb_spec r0 r); auto; try lra. f_equal; lra. Qed.
Lemma nmax_assoc a b c : nmax (nmax a b) c = nmax a (nmax b c).
Proof. unfold nmax. destruct a, b, c; cbn; auto; repeat (match goal with |- context [Rleb ?x ?y] => destruct (Rleb_spec x y); cbn end); auto; try lra; try (f_equal; lra). Qed.
Lemma nmin_assoc a b c : nmin (nmin a b) c = nmin a (nmin b c).
Proof. unfold nmin. destruct a, b, c; cbn; auto; repeat (match goal with |- context [Rleb ?x ?y] => destruct (Rleb_spec x y); cbn end); auto; try lra; try (f_equal; lra). Qed.
Lemma fold_op_perm (f : num -> num -> num) : (forall a b, f a b = f b a) -> (forall a b c, f (f a b) c = f a (f b c)) ->
  forall l l', Permutation l l' -> match l with [] => l' = [] | x :: r => match l' with [] => False | x' :: r' => fold_left f r x = fold_left f r' x' end end.
Proof.
  intros C A. assert (S : forall r a b, fold_left f r (f a b) = f a (fold_left f r b)) by (induction r; intros; cbn; auto; rewrite A; apply IHr).
  assert (Q : forall l l', Permutation l l' -> forall a, fold_left f l a = fold_left f l' a).
  { induction 1; intros a; cbn; auto; [|congruence]. f_equal. rewrite !A. f_equal. apply C. }
  induction 1; cbn; auto.
  - rewrite C. reflexivity.
  - destruct l as [|a l]; [subst; auto|]. destruct l' as [|a' l']; [destruct IHPermutation1|]. destruct l'' as [|a'' l'']; [destruct IHPermutation2|]. congruence.
Qed.
Lemma np_max_perm l l' : Permutation l l' -> np_max l = np_max l'.
Proof. intros P. pose proof (fold_op_perm nmax nmax_comm nmax_assoc l l' P) as H. unfold np_max. destruct l, l'; try discriminate; try tauto. congruence. Qed.
Lemma np_min_perm l l' : Permutation l l' -> np_min l = np_min l'.
Proof. intros P. pose proof (fold_op_perm nmin nmin_comm nmin_assoc l l' P) as H. unfold np_min. destruct l, l'; try discriminate; try tauto. congruence. Qed.

Lemma rmap_ext_all {A B} (f g : A -> res B) l : (forall a, f a = g a) -> rmap f l = rmap g l.
Proof. intros H. induction l as [|a l IH]; [reflexivity|]. cbn. rewrite H, IH. reflexivity. Qed.
Section Optimize.
Variables (brentq : (R -> num) -> R -> R -> res R) (sf : num -> num -> num -> num) (sa : list num -> list num -> num -> res (list num)).
Variables (sw sp bw bp : bool) (signal signal' background background' : list opt_event) (bins : list num).
Variables (alpha fmin fmax min_significance min_signal_events min_excess : num).
Hypothesis PS : Permutation signal signal'.
Hypothesis PB : Permutation background background'.
Lemma order_selected ss ss' bs bs' c t : Permutation ss ss' -> Permutation bs bs' ->
  selected_sensitivity brentq sf sa sw sp bw bp bins alpha fmin fmax min_significance min_signal_events min_excess ss bs c t =
  selected_sensitivity brentq sf sa sw sp bw bp bins alpha fmin fmax min_significance min_signal_events min_excess ss' bs' c t.
Proof.
  intros P Q. unfold selected_sensitivity. rewrite (hist_perm (map o_ev ss) (map o_ev ss')) by (apply Permutation_map, P).
  rewrite (order_background (map _ bs) (map _ bs') bw bp bins c t alpha fmin fmax (Permutation_map _ Q)). reflexivity.
Qed.
Lemma order_gh_scan op g c t cuts k :
  gh_scan brentq sf sa sw sp bw bp signal background bins alpha fmin fmax min_significance min_signal_events min_excess op (map g signal) c t cuts k =
  gh_scan brentq sf sa sw sp bw bp signal' background' bins alpha fmin fmax min_significance min_signal_events min_excess op (map g signal') c t cuts k.
Proof.
  unfold gh_scan. cbv zeta.
  destruct (binned_cut_perm true op (cut_col (cut_rows cuts) k) o_gh o_energy None (ct_low cuts) (ct_high cuts) None _ _ PS) as [(m & H1 & H2)|(e & H1 & H2)];
    rewrite H1, H2; cbn [rbind]; auto.
  destruct (binned_cut_perm true op (cut_col (cut_rows cuts) k) o_gh o_energy None (ct_low cuts) (ct_high cuts) None _ _ PB) as [(b & H3 & H4)|(e & H3 & H4)];
    rewrite H3, H4; cbn [rbind]; auto.
  rewrite !mask_and_rows, !select_rows. apply order_selected; apply perm_filter; auto.
Qed.
Lemma order_optimize_gh op eff lo hi c t :
  optimize_gh_cut brentq sf sa sw sp bw bp signal background bins alpha fmin fmax min_significance min_signal_events min_excess op eff lo hi c t =
  optimize_gh_cut brentq sf sa sw sp bw bp signal' background' bins alpha fmin fmax min_significance min_signal_events min_excess op eff lo hi c t.
Proof.
  unfold optimize_gh_cut. cbv zeta.
  destruct (binned_cut_perm true nle t o_theta o_energy None lo hi None _ _ PS) as [(g & H1 & H2)|(e & H1 & H2)]; rewrite H1, H2; cbn [rbind]; auto.
  rewrite (np_min_perm (map o_gh signal) (map o_gh signal')), (np_max_perm (map o_gh signal) (map o_gh signal')) by (apply Permutation_map, PS).
  destruct (if op (Fin (-1)) (Fin 1) then _ else _) as [fl|e]; cbn [rbind]; auto.
  rewrite (percentile_cut_rows o_gh o_energy _ _ _ _ _ _ _ _ _ _ _ _ PS).
  destruct (calculate_percentile_cut _ _ _ _ _ _ _ _ _ _) as [cuts|e]; cbn [rbind]; auto.
  rewrite (rmap_ext_all _ _ (seq 0 (List.length eff)) (order_gh_scan op g c t cuts)). reflexivity.
Qed.
Lemma order_cuts_scan i v ib vb mc gh th k j :
  cuts_scan brentq sf sa sw sp bw bp signal background bins alpha fmin fmax min_significance min_signal_events min_excess (map i signal, map v signal) (map ib background, map vb background) mc gh th k j =
  cuts_scan brentq sf sa sw sp bw bp signal' background' bins alpha fmin fmax min_significance min_signal_events min_excess (map i signal', map v signal') (map ib background', map vb background') mc gh th k j.
Proof.
  unfold cuts_scan. cbv zeta. cbn [fst snd].
  destruct (by_index_perm true nle (cut_col (cut_rows th) j) o_theta i v _ _ PS) as [(g1 & H1 & H2)|(e & H1 & H2)]; rewrite H1, H2; cbn [rbind]; auto.
  destruct (by_index_perm true nge (cut_col (cut_rows gh) k) o_gh i v _ _ PS) as [(g2 & H3 & H4)|(e & H3 & H4)]; rewrite H3, H4; cbn [rbind]; auto.
  destruct (by_index_perm true nge (cut_col (cut_rows gh) k) o_gh ib vb _ _ PB) as [(g3 & H5 & H6)|(e & H5 & H6)]; rewrite H5, H6; cbn [rbind]; auto.
  rewrite !mask_and_rows, !select_rows. apply order_selected; apply perm_filter; auto.
Qed.
Lemma order_mult_scan i v ib vb fill ge te tmin tmax mi mc :
  mult_scan brentq sf sa sw sp bw bp signal background bins alpha fmin fmax min_significance min_signal_events min_excess (map i signal, map v signal) (map ib background, map vb background) fill ge te tmin tmax mi mc =
  mult_scan brentq sf sa sw sp bw bp signal' background' bins alpha fmin fmax min_significance min_signal_events min_excess (map i signal', map v signal') (map ib background', map vb background') fill ge te tmin tmax mi mc.
Proof.
  unfold mult_scan. cbv zeta. rewrite !select_rows.
  assert (PF : Permutation (filter (fun e => nge (o_mult e) mc) signal) (filter (fun e => nge (o_mult e) mc) signal')) by (apply perm_filter, PS).
  rewrite (percentile_cut_rows o_gh o_energy _ _ _ _ _ _ _ _ _ _ _ _ PF), (percentile_cut_rows o_theta o_energy _ _ _ _ _ _ _ _ _ _ _ _ PF).
  destruct (calculate_percentile_cut _ _ _ _ _ _ _ _ _ _) as [gh|e]; cbn [rbind]; auto.
  destruct (calculate_percentile_cut _ _ _ _ _ _ _ _ _ _) as [th|e]; cbn [rbind]; auto.
  rewrite (rmap_ext_all _ (fun p => do t <- cuts_scan brentq sf sa sw sp bw bp signal' background' bins alpha fmin fmax min_significance min_signal_events min_excess (map i signal', map v signal') (map ib background', map vb background') mc gh th (fst p) (snd p);
                         Ok (mkPoint mi (snd p) (fst p), t)) _) by (intros p; rewrite order_cuts_scan; reflexivity). reflexivity.
Qed.
Lemma order_optimize mult ge te tmin tmax :
  optimize_cuts brentq sf sa sw sp bw bp signal background bins alpha fmin fmax min_significance min_signal_events min_excess mult ge te tmin tmax =
  optimize_cuts brentq sf sa sw sp bw bp signal' background' bins alpha fmin fmax min_significance min_signal_events min_excess mult ge te tmin tmax.
Proof.
  unfold optimize_cuts. rewrite (np_max_perm (map o_gh signal) (map o_gh signal')) by (apply Permutation_map, PS).
  destruct (np_max _) as [fill|e]; cbn [rbind]; auto.
  destruct (indices_perm o_energy None (mkArr bins None) _ _ PS) as [(i & v & H1 & H2)|(e & H1 & H2)]; rewrite H1, H2; cbn [rbind]; auto.
  destruct (indices_perm o_energy None (mkArr bins None) _ _ PB) as [(ib & vb & H3 & H4)|(e & H3 & H4)]; rewrite H3, H4; cbn [rbind]; auto.
  rewrite (rmap_ext_all _ (fun p => mult_scan brentq sf sa sw sp bw bp signal' background' bins alpha fmin fmax min_significance min_signal_events min_excess (map i signal', map v signal') (map ib background', map vb background') fill ge te tmin tmax (fst p) (snd p)) _)
    by (intros p; apply order_mult_scan). reflexivity.
Qed.
End Optimize.

(** ** benchmarks *)
Lemma fill_bins_perm {E} names g (f : E -> num) i v l l' keys t : (forall a b, Permutation a b -> g a = g b) -> Permutation l l' ->
  fill_bins names g (map f l) (map i l) (map v l) keys t = fill_bins names g (map f l') (map i l') (map v l') keys t.
Proof.
  intros G P. revert t. induction keys as [|k keys IH]; intros t; [reflexivity|]. cbn [fill_bins]. cbv zeta.
  rewrite (G _ _ (bin_group_perm f i v l l' k P)), (Permutation_length (bin_group_perm f i v l l' k P)). destruct (g _); cbn [rbind]; auto.
Qed.
Lemma group_and_fill_perm {E} names g (f : E -> num) i v l l' t : (forall a b, Permutation a b -> g a = g b) -> Permutation l l' ->
  group_and_fill names g (map f l) (map i l, map v l) t = group_and_fill names g (map f l') (map i l', map v l') t.
Proof.
  intros G P. unfold group_and_fill. cbn [fst snd]. rewrite (existsb_perm _ _ _ (Permutation_map v P)). destruct (existsb _ _); auto.
  rewrite (bin_keys_perm i v l l' P). apply fill_bins_perm; auto.
Qed.
Lemma getitem_map {A B} (f : A -> B) (t : list (string * A)) k : getitem (map (fun c => (fst c, f (snd c))) t) k = option_map f (getitem t k).
Proof. induction t as [|[n a] t IH]; [reflexivity|]. cbn [map getitem fst snd]. destruct (String.eqb _ _); auto. Qed.
Lemma getitem_in {A} (t : list (string * A)) k a : getitem t k = Some a -> In (k, a) t.
Proof. induction t as [|[n b] t IH]; [discriminate|]. cbn [getitem]. destruct (String.eqb_spec k n); intros H; [left; congruence|right; auto]. Qed.
Lemma nth_seq (l : list num) : map (fun i => nth i l NaN) (seq 0 (List.length l)) = l.
Proof. apply nth_ext with NaN NaN; [rewrite map_length, seq_length; auto|]. intros k Hk. rewrite map_length, seq_length in Hk.
  rewrite (nth_indep _ NaN (nth 0%nat l NaN)) by (rewrite map_length, seq_length; auto). change (nth 0%nat l NaN) with ((fun i => nth i l NaN) 0%nat). rewrite map_nth, seq_nth by auto. reflexivity. Qed.
Lemma col_rows (c : arr) n : List.length (a_val c) = n -> c = mkArr (map (fun i => nth i (a_val c) NaN) (seq 0 n)) (a_unit c).
Proof. intros <-. rewrite nth_seq. destruct c; reflexivity. Qed.
Lemma zipwith_maps_ {E A B C} (f : A -> B -> C) (g : E -> A) (h : E -> B) l : zipwith f (map g l) (map h l) = map (fun e => f (g e) (h e)) l.
Proof. induction l as [|a l IH]; [reflexivity|]. cbn. rewrite IH. reflexivity. Qed.
Lemma zip_rows {C} (f : num -> num -> C) a b n : List.length a = n -> List.length b = n -> zipwith f a b = map (fun i => f (nth i a NaN) (nth i b NaN)) (seq 0 n).
Proof. intros La Lb. rewrite <- (nth_seq a) at 1. rewrite <- (nth_seq b) at 1. rewrite La, Lb. apply zipwith_maps_. Qed.
Definition reorder (p : list nat) (c : arr) : arr := mkArr (map (fun i => nth i (a_val c) NaN) p) (a_unit c).
Section Bench.
Variables (events : columns) (n : nat) (p : list nat).
Hypothesis P : Permutation (seq 0 n) p.
Hypothesis L : forall c, In c events -> List.length (a_val (snd c)) = n.
Let events' : columns := map (fun c => (fst c, reorder p (snd c))) events.
Lemma n_rows_same : n_rows events' = n_rows events.
Proof. unfold events', n_rows. destruct events as [|[k c] t]; [reflexivity|]. cbn. rewrite map_length, <- (Permutation_length P), seq_length. symmetry. apply (L (k, c)). left; auto. Qed.
Lemma get_column_reorder k : (exists c, List.length (a_val c) = n /\ get_column events k = Ok c /\ get_column events' k = Ok (reorder p c)) \/ (get_column events k = Err KeyError /\ get_column events' k = Err KeyError).
Proof.
  unfold get_column, events'. rewrite (getitem_map (reorder p)). destruct (getitem events k) as [c|] eqn:E; [left|right; auto].
  exists c. split; [|auto]. apply getitem_in in E. apply (L _ E).
Qed.
Lemma order_angular bins et q : angular_resolution events bins et q = angular_resolution events' bins et q.
Proof.
  unfold angular_resolution.
  destruct (get_column_reorder (et ++ "_energy")) as [(c & Lc & -> & ->)|[-> ->]]; cbn [rbind]; auto.
  destruct (get_column_reorder "theta") as [(t & Lt & -> & ->)|[-> ->]]; cbn [rbind]; auto.
  rewrite (col_rows c n Lc) at 1.
  destruct (indices_perm (fun i => nth i (a_val c) NaN) (a_unit c) bins _ _ P) as [(i & v & H1 & H2)|(e & H1 & H2)];
    unfold reorder; rewrite H1, H2; cbn [rbind]; auto.
  destruct q; cbn [rbind]; auto; rewrite n_rows_same; destruct (Nat.eqb _ _); auto;
    rewrite (col_rows t n Lt) at 1; cbn [a_val];
    apply (group_and_fill_perm _ _ (fun i => nth i (a_val t) NaN)); auto;
    intros a b Q; (apply rmap_ext_all; intros x; apply nanpercentile_perm; auto).
Qed.
Lemma order_bias_resolution bins et bf rf : (forall a b, Permutation a b -> bf a = bf b) -> (forall a b, Permutation a b -> rf a = rf b) ->
  energy_bias_resolution events bins et bf rf = energy_bias_resolution events' bins et bf rf.
Proof.
  intros B1 B2. unfold energy_bias_resolution.
  destruct (get_column_reorder "true_energy") as [(t & Lt & -> & ->)|[-> ->]]; cbn [rbind]; auto.
  destruct (get_column_reorder "reco_energy") as [(r & Lr & -> & ->)|[-> ->]]; cbn [rbind]; auto.
  assert (RE : exists h, (relative_error r t = Ok (map h (seq 0 n)) /\ relative_error (reorder p r) (reorder p t) = Ok (map h p)) \/ exists e, relative_error r t = Err e /\ relative_error (reorder p r) (reorder p t) = Err e).
  { unfold relative_error, reorder. cbn [a_unit a_val].
    destruct (a_unit r), (a_unit t); try destruct (Nat.eqb _ _); rewrite ?(zip_rows _ _ _ n Lr Lt), ?zipwith_maps_;
      solve [eexists; left; split; reflexivity | exists (fun _ => NaN); right; eauto]. }
  destruct RE as (h & [[-> ->]|(e & -> & ->)]); cbn [rbind]; auto. rewrite n_rows_same. destruct (Nat.eqb _ _); auto.
  assert (EN : (exists c, List.length (a_val c) = n /\ (if String.eqb et "true" then Ok t else if String.eqb et "reco" then Ok r else Err KeyError) = Ok c /\
      (if String.eqb et "true" then Ok (reorder p t) else if String.eqb et "reco" then Ok (reorder p r) else Err KeyError) = Ok (reorder p c)) \/
      ((if String.eqb et "true" then Ok t else if String.eqb et "reco" then Ok r else Err KeyError) = Err KeyError /\
      (if String.eqb et "true" then Ok (reorder p t) else if String.eqb et "reco" then Ok (reorder p r) else Err KeyError) = Err KeyError))
    by (destruct (String.eqb et "true"); [eauto|]; destruct (String.eqb et "reco"); eauto).
  destruct EN as [(c & Lc & -> & ->)|[-> ->]]; cbn [rbind]; auto.
  rewrite (col_rows c n Lc) at 1.
  destruct (indices_perm (fun i => nth i (a_val c) NaN) (a_unit c) bins _ _ P) as [(i & v & H1 & H2)|(e & H1 & H2)];
    unfold reorder; rewrite H1, H2; cbn [rbind]; auto.
  apply group_and_fill_perm; auto. intros a b Q. rewrite (B1 a b Q), (B2 a b Q). reflexivity.
Qed.
End Bench.
Lemma nabs_perm a b q : Permutation a b -> energy_resolution_absolute_68 q a = energy_resolution_absolute_68 q b.
Proof. intros Q. unfold energy_resolution_absolute_68, nanquantile. apply nanpercentile_perm, Permutation_map, Q. Qed.
Lemma iqd_perm lo hi a b : Permutation a b -> inter_quantile_distance lo hi a = inter_quantile_distance lo hi b.
Proof. intros Q. unfold inter_quantile_distance, nanquantile. rewrite (nanpercentile_perm a b _ Q), (nanpercentile_perm a b _ Q). reflexivity. Qed.
Lemma nanmedian_perm a b : Permutation a b -> nanmedian a = nanmedian b.
Proof. intros Q. unfold nanmedian. rewrite (nsort_perm_eq _ _ (drop_nan_perm _ _ Q)). reflexivity. Qed.

(** ** statements of the properties *)
Lemma comb_fst {A B} (l : list A) (l' : list B) : List.length l' = List.length l -> map fst (combine l l') = l.
Proof. revert l'. induction l; intros [|b l'] E; try discriminate; auto. cbn. rewrite IHl; auto. Qed.
Lemma comb_snd {A B} (l : list A) (l' : list B) : List.length l' = List.length l -> map snd (combine l l') = l'.
Proof. revert l'. induction l; intros [|b l'] E; try discriminate; auto. cbn. rewrite IHl; auto. Qed.
Lemma c72_percentile is_int v x v' x' u ux bins fill p lo hi sm me : List.length x = List.length v -> List.length x' = List.length v' ->
  Permutation (combine v x) (combine v' x') ->
  calculate_percentile_cut is_int (mkArr v u) (mkArr x ux) bins fill p lo hi sm me = calculate_percentile_cut is_int (mkArr v' u) (mkArr x' ux) bins fill p lo hi sm me.
Proof.
  intros L L' P. pose proof (percentile_cut_rows fst snd _ _ is_int u ux bins fill p lo hi sm me P) as H.
  rewrite !comb_fst, !comb_snd in H by auto. exact H.
Qed.
Lemma c72_marks is_qtable v x v' x' ux low high u cuts op : List.length x = List.length v -> List.length x' = List.length v' ->
  Permutation (combine v x) (combine v' x') ->
  same_marks (combine v x) (combine v' x') (evaluate_binned_cut is_qtable v (mkArr x ux) low high u cuts op) (evaluate_binned_cut is_qtable v' (mkArr x' ux) low high u cuts op).
Proof.
  intros L L' P. pose proof (binned_cut_perm is_qtable op cuts fst snd ux low high u _ _ P) as H.
  rewrite !comb_fst, !comb_snd in H by auto. unfold same_marks.
  destruct H as [(g & -> & ->)|(e & -> & ->)]; auto. rewrite !map_length. split; auto. split; auto.
  assert (C : forall l : list (num * num), combine l (map g l) = map (fun r => (r, g r)) l) by (induction l; cbn; congruence).
  rewrite !C. apply Permutation_map, P.
Qed.
Lemma c72_angular ev ev' bins et q : reordered ev ev' -> angular_resolution ev bins et q = angular_resolution ev' bins et q.
Proof. intros (n & p & P & L & ->). apply (order_angular ev n p); auto. symmetry; auto. Qed.
Lemma c72_bias ev ev' bins et bf rf : reordered ev ev' -> symmetric bf -> symmetric rf -> energy_bias_resolution ev bins et bf rf = energy_bias_resolution ev' bins et bf rf.
Proof. intros (n & p & P & L & ->) B1 B2. apply (order_bias_resolution ev n p); auto. symmetry; auto. Qed.
Lemma order_aeff_energy l l' hw hp s bins : Permutation l l' -> effective_area_per_energy (mkEvents l hw hp) s bins = effective_area_per_energy (mkEvents l' hw hp) s bins.
Proof. intros P. unfold effective_area_per_energy. rewrite (hist_perm _ _ _ _ _ _ P). reflexivity. Qed.
Lemma c72_symmetric lo hi q : symmetric nanmedian /\ symmetric (inter_quantile_distance lo hi) /\ symmetric (energy_resolution_absolute_68 q).
Proof. split; [exact nanmedian_perm|split; [exact (iqd_perm lo hi)|intros a b H; apply nabs_perm, H]]. Qed.
