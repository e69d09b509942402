(** * MergeProofs: two samples of events *)
From Coq Require Import String Reals List Bool ZArith Lia Lra Permutation FunctionalExtensionality.
From Verif Require Import Num Numpy Table Binning Utils Simulations Tensor IRF SpecBinning SpecIRF SpecMerge
  BinningProofs HistProofs TensorProofs IRFProofs IRFProofs2 IRFProofs3 Lists.
Import ListNotations.
Open Scope R_scope.

Definition comb (c c1 c2 : R) (x x1 x2 : num) : Prop :=
  forall a1 a2, x1 = Fin a1 -> x2 = Fin a2 -> exists a, x = Fin a /\ c * a = c1 * a1 + c2 * a2.
Definition tadds (c c1 c2 : R) (a a1 a2 : tensor) : Prop :=
  shape a1 = shape a /\ shape a2 = shape a /\ forall ix, comb c c1 c2 (at_ a ix) (at_ a1 ix) (at_ a2 ix).
Lemma comb_div c c1 c2 x x1 x2 y : comb c c1 c2 x x1 x2 -> comb c c1 c2 (ndiv x y) (ndiv x1 y) (ndiv x2 y).
Proof.
  intros H b1 b2 E1 E2. unfold ndiv in *. destruct x1 as [a1| | |], x2 as [a2| | |], y as [q| | |]; try discriminate;
    repeat match goal with
    | E : context [Rltb ?a ?b] |- _ => destruct (Rltb a b); try discriminate
    | E : context [Reqb ?a ?b] |- _ => destruct (Reqb_spec a b); try discriminate
    end; destruct (H a1 a2 eq_refl eq_refl) as (a & -> & E); injection E1 as <-; injection E2 as <-.
  all: try (destruct (Reqb_spec q 0); [contradiction|]); eexists; (split; [reflexivity|]); try ring.
  all: replace (c * (a / q)) with (c * a / q) by (field; auto); rewrite E; field; auto.
Qed.
Lemma comb_mul c c1 c2 x x1 x2 q : comb c c1 c2 x x1 x2 -> comb c c1 c2 (nmul x (Fin q)) (nmul x1 (Fin q)) (nmul x2 (Fin q)).
Proof.
  intros H b1 b2 E1 E2. unfold nmul, inf_signed in *. destruct x1 as [a1| | |], x2 as [a2| | |]; try discriminate;
    repeat match goal with
    | E : context [Rltb ?a ?b] |- _ => destruct (Rltb a b); try discriminate
    | E : context [Reqb ?a ?b] |- _ => destruct (Reqb a b); try discriminate
    end.
  destruct (H a1 a2 eq_refl eq_refl) as (a & -> & E); injection E1 as <-; injection E2 as <-.
  eexists. split; [reflexivity|]. replace (c * (a * q)) with (c * a * q) by ring. rewrite E. ring.
Qed.
(** division by numbers that are proportional to [t], [t1], [t2] *)
Lemma comb_div_scaled c c1 c2 t t1 t2 x x1 x2 y : 0 < t -> 0 < t1 -> 0 < t2 -> comb c c1 c2 x x1 x2 ->
  comb (c * t) (c1 * t1) (c2 * t2) (ndiv x (nmul y (Fin t))) (ndiv x1 (nmul y (Fin t1))) (ndiv x2 (nmul y (Fin t2))).
Proof.
  intros Ht Ht1 Ht2 H b1 b2 E1 E2.
  assert (Y : y = PInf \/ y = NInf \/ y = NaN \/ exists q, y = Fin q) by (destruct y; eauto). destruct Y as [->|[->|[->|[q ->]]]].
  - assert (I : forall u, 0 < u -> nmul PInf (Fin u) = PInf) by (intros u Hu; cbn; unfold inf_signed; rsolve; auto). rewrite I in * by auto.
    destruct (comb_div c c1 c2 x x1 x2 PInf H b1 b2 E1 E2) as (a & Ea & _). exists a. split; auto.
    assert (Z : forall z b, ndiv z PInf = Fin b -> b = 0) by (intros [] b; cbn; congruence). rewrite (Z _ _ Ea), (Z _ _ E1), (Z _ _ E2). ring.
  - assert (I : forall u, 0 < u -> nmul NInf (Fin u) = NInf) by (intros u Hu; cbn; unfold inf_signed; rsolve; auto). rewrite I in * by auto.
    destruct (comb_div c c1 c2 x x1 x2 NInf H b1 b2 E1 E2) as (a & Ea & _). exists a. split; auto.
    assert (Z : forall z b, ndiv z NInf = Fin b -> b = 0) by (intros [] b; cbn; congruence). rewrite (Z _ _ Ea), (Z _ _ E1), (Z _ _ E2). ring.
  - destruct x1; discriminate.
  - cbn [nmul] in *. destruct (Req_dec q 0) as [->|Hq].
    { rewrite Rmult_0_l in E1. destruct x1 as [a| | |]; cbn in E1; [|destruct (Rltb 0 0); discriminate..|discriminate]. revert E1. destruct (Reqb_spec 0 0); [|congruence].
      destruct (Reqb a 0); [discriminate|]. destruct (Rltb 0 a); discriminate. }
    assert (N : forall u, 0 < u -> q * u <> 0) by (intros u Hu; apply Rmult_integral_contrapositive_currified; lra).
    assert (F : forall z u b, 0 < u -> ndiv z (Fin (q * u)) = Fin b -> exists a, z = Fin a /\ b = a / (q * u)).
    { intros z u b Hu E. destruct z as [a| | |]; cbn in E; try discriminate.
      - revert E. destruct (Reqb_spec (q * u) 0) as [E0|_]; [destruct (N u Hu E0)|]. intros E. injection E as <-. eauto.
      - destruct (Rltb _ _); discriminate.
      - destruct (Rltb _ _); discriminate. }
    destruct (F _ _ _ Ht1 E1) as (a1 & A1 & ->). destruct (F _ _ _ Ht2 E2) as (a2 & A2 & ->).
    destruct (H a1 a2 A1 A2) as (a & -> & E). exists (a / (q * t)). split.
    + rewrite ndiv_fin by auto. reflexivity.
    + replace (c * t * (a / (q * t))) with (c * a / q) by (field; lra). rewrite E. field. repeat split; lra.
Qed.

Lemma histogramdd_app {A} dims (w : A -> R) l l' :
  match histogramdd dims w (l ++ l'), histogramdd dims w l, histogramdd dims w l' with
  | Ok a, Ok a1, Ok a2 => tadds 1 1 1 a a1 a2
  | Err e, Err e1, Err e2 => e1 = e /\ e2 = e
  | _, _, _ => False
  end.
Proof.
  unfold histogramdd. destruct (existsb _ _); auto. destruct (existsb _ _); auto. split; [reflexivity|]. split; [reflexivity|].
  intros ix a1 a2 E1 E2. cbn [at_] in *. injection E1 as <-. injection E2 as <-. eexists. split; [reflexivity|].
  unfold wsum. rewrite filter_app, map_app, rsum_app. ring.
Qed.
Definition radds c c1 c2 (r r1 r2 : res tensor) : Prop :=
  match r, r1, r2 with
  | Ok a, Ok a1, Ok a2 => tadds c c1 c2 a a1 a2
  | Err e, Err e1, Err e2 => e1 = e /\ e2 = e
  | _, _, _ => False
  end.
Lemma radds_adds_up c c1 c2 r r1 r2 : radds c c1 c2 r r1 r2 -> adds_up c c1 c2 r r1 r2.
Proof. destruct r, r1, r2; cbn; auto. Qed.
Lemma tmap_adds c c1 c2 c' c1' c2' f f1 f2 a a1 a2 : (forall x x1 x2, comb c c1 c2 x x1 x2 -> comb c' c1' c2' (f x) (f1 x1) (f2 x2)) ->
  tadds c c1 c2 a a1 a2 -> tadds c' c1' c2' (tmap f a) (tmap f1 a1) (tmap f2 a2).
Proof. intros F (S1 & S2 & H). split; [exact S1|]. split; [exact S2|]. intros ix. apply F, H. Qed.
Lemma tbin_adds c c1 c2 a a1 a2 b : tadds c c1 c2 a a1 a2 -> radds c c1 c2 (tbin ndiv a b) (tbin ndiv a1 b) (tbin ndiv a2 b).
Proof.
  intros (S1 & S2 & H). unfold tbin. rewrite S1, S2. destruct (bshape _ _); cbn; auto. split; [reflexivity|]. split; [reflexivity|].
  intros ix. cbn [at_]. apply comb_div, H.
Qed.
Lemma transpose_adds c c1 c2 a a1 a2 : tadds c c1 c2 a a1 a2 -> tadds c c1 c2 (transpose2 a) (transpose2 a1) (transpose2 a2).
Proof. intros (S1 & S2 & H). unfold transpose2. split; [|split]; cbn [shape]; try congruence. intros ix. cbn [at_]. apply H. Qed.
Lemma radds_bind c c1 c2 c' c1' c2' r r1 r2 f f1 f2 : radds c c1 c2 r r1 r2 ->
  (forall a a1 a2, tadds c c1 c2 a a1 a2 -> radds c' c1' c2' (f a) (f1 a1) (f2 a2)) -> radds c' c1' c2' (rbind r f) (rbind r1 f1) (rbind r2 f2).
Proof. intros H F. destruct r, r1, r2; cbn in *; try tauto. auto. Qed.

(** ** background *)
Lemma ndiv_time t x : 0 < t -> ndiv x (Fin t) = ndiv x (nmul (Fin 1) (Fin t)).
Proof. intros Ht. cbn [nmul]. rewrite Rmult_1_l. reflexivity. Qed.
Section Background.
Variables (e1 e2 : list dl2) (t t1 t2 : R).
Hypotheses (Ht : 0 < t) (Ht1 : 0 < t1) (Ht2 : 0 < t2).
Lemma time_adds a a1 a2 : tadds 1 1 1 a a1 a2 -> tadds t t1 t2 (tmap (fun x => ndiv x (Fin t)) a) (tmap (fun x => ndiv x (Fin t1)) a1) (tmap (fun x => ndiv x (Fin t2)) a2).
Proof.
  apply tmap_adds. intros x x1 x2 H. rewrite (ndiv_time t), (ndiv_time t1), (ndiv_time t2) by auto.
  pose proof (comb_div_scaled 1 1 1 t t1 t2 x x1 x2 (Fin 1) Ht Ht1 Ht2 H) as K. rewrite !Rmult_1_l in K. exact K.
Qed.
Lemma merge_bg2 eb fb : radds t t1 t2 (background_2d (e1 ++ e2) eb fb t) (background_2d e1 eb fb t1) (background_2d e2 eb fb t2).
Proof.
  unfold background_2d. apply radds_bind with (1 := histogramdd_app _ weight e1 e2). intros a a1 a2 H.
  apply radds_bind with (c := 1) (c1 := 1) (c2 := 1); [apply tbin_adds, transpose_adds, H|]. clear a a1 a2 H. intros a a1 a2 H. cbv zeta.
  apply tbin_adds, time_adds, transpose_adds, H.
Qed.
Lemma merge_bg3 eb lon lat : radds t t1 t2 (background_3d_lonlat (e1 ++ e2) eb lon lat t) (background_3d_lonlat e1 eb lon lat t1) (background_3d_lonlat e2 eb lon lat t2).
Proof.
  unfold background_3d_lonlat. apply radds_bind with (1 := histogramdd_app _ weight e1 e2). intros a a1 a2 H.
  apply radds_bind with (c := 1) (c1 := 1) (c2 := 1); [apply tbin_adds, H|]. clear a a1 a2 H. intros a a1 a2 H.
  destruct (rectangle_solid_angles lon lat); cbn [rbind]; [|cbn; auto]. apply tbin_adds, time_adds, H.
Qed.
End Background.
(** ** effective area *)
From Verif Require Import SpectralUnitsProofs.
Definition with_showers (s : sim_info) (n : Z) : sim_info := mkSim n (energy_min s) (energy_max s) (max_impact s) (spectral_index s) (viewcone_min s) (viewcone_max s).
Lemma same_with s s' : same_conditions s s' -> with_showers s' 1 = with_showers s 1.
Proof. intros (A & B & C & D & E & F). unfold with_showers. congruence. Qed.
Definition times (n : R) (x : num) : num := nmul x (Fin n).
Lemma mul_comm x y : nmul x y = nmul y x.
Proof. destruct x, y; cbn; auto. f_equal. ring. Qed.
Lemma one_times x : nmul (nz 1) x = x.
Proof. unfold nz. apply BinningProofs.nmul_1. Qed.
Lemma times_mul n x y : 0 < n -> nmul (times n x) y = times n (nmul x y).
Proof. intros H. unfold times. symmetry. apply nmul_swap; auto. Qed.
Lemma div_1 x : ndiv x (nz 1) = x.
Proof. destruct x; cbn; auto; destruct (Reqb_spec 1 0); try lra; rsolve; auto. f_equal. field. Qed.
Lemma times_div n x y : 0 < n -> ndiv (times n x) y = times n (ndiv x y).
Proof. intros H. unfold times. pose proof (div_convert x y n 1 H Rlt_0_1) as K.
  rewrite (mul_comm y), BinningProofs.nmul_1 in K. unfold Rdiv in K. rewrite Rinv_1, Rmult_1_r in K. auto. Qed.
Lemma times_div_self n x : 0 < n -> ndiv (times n x) (Fin n) = x.
Proof.
  intros H. unfold times. destruct x; cbn; auto.
  - destruct (Reqb_spec n 0); [lra|]. f_equal. field. auto.
  - unfold inf_signed. rsolve. cbn. rsolve. auto.
  - unfold inf_signed. rsolve. cbn. rsolve. auto.
Qed.
Lemma times_nan n : times n NaN = NaN. Proof. reflexivity. Qed.

Section Showers.
Variable s : sim_info.
Hypothesis Hn : (0 < n_showers s)%Z.
Let n := IZR (n_showers s).
Let Pn : 0 < n. Proof. apply IZR_lt. auto. Qed.
Let one := with_showers s 1.
Lemma zipwith_map_out {A B C D} (f : A -> B -> C) (g : C -> D) l m : zipwith (fun a b => g (f a b)) l m = map g (zipwith f l m).
Proof. revert m. induction l as [|a l IH]; intros [|b m]; cbn; auto. rewrite IH. auto. Qed.
Lemma zipwith_ext2 {A B C} (f g : A -> B -> C) l m : (forall a b, f a b = g a b) -> zipwith f l m = zipwith g l m.
Proof. intros H. revert m. induction l as [|a l IH]; intros [|b m]; cbn; auto. rewrite IH, H. auto. Qed.
Lemma showers_energy bins : calculate_n_showers_per_energy s bins = map (times n) (calculate_n_showers_per_energy one bins).
Proof.
  unfold calculate_n_showers_per_energy. rewrite <- zipwith_map_out. apply zipwith_ext2. intros a b. cbn [one with_showers n_showers]. rewrite one_times.
  unfold times. rewrite mul_comm. reflexivity.
Qed.
Lemma showers_fov bins : calculate_n_showers_per_fov s bins = (do l <- calculate_n_showers_per_fov one bins; Ok (map (times n) l)).
Proof.
  unfold calculate_n_showers_per_fov. cbn [one with_showers n_showers viewcone_min viewcone_max]. destruct (viewcone_pdf_integral _ _ _ _) as [l|e]; cbn [rbind]; auto.
  f_equal. rewrite map_map. apply map_ext. intros x. rewrite one_times. unfold times. rewrite mul_comm. reflexivity.
Qed.
Lemma scale_prod a b : ndiv (nmul (times n a) (times n b)) (nz (n_showers s)) = times n (ndiv (nmul a b) (nz 1)).
Proof.
  rewrite div_1, (mul_comm _ (times n b)), times_mul, times_div, (mul_comm b), times_mul by auto. unfold nz. fold n. rewrite times_div_self by auto. reflexivity.
Qed.
Lemma showers_energy_fov eb fb : calculate_n_showers_per_energy_and_fov s eb fb = (do l <- calculate_n_showers_per_energy_and_fov one eb fb; Ok (map (map (times n)) l)).
Proof.
  unfold calculate_n_showers_per_energy_and_fov. rewrite showers_fov. destruct (calculate_n_showers_per_fov one fb) as [l|e]; cbn [rbind]; auto.
  f_equal. rewrite showers_energy, !map_map. apply map_ext. intros e. rewrite !map_map. apply map_ext. intros f. apply scale_prod.
Qed.
Lemma showers_polar eb fb pb : calculate_n_showers_3d_polar s eb fb pb = (do l <- calculate_n_showers_3d_polar one eb fb pb; Ok (map (map (map (times n))) l)).
Proof.
  unfold calculate_n_showers_3d_polar. cbn [viewcone_min viewcone_max one with_showers n_showers]. rewrite showers_energy_fov, showers_fov.
  fold one. destruct (calculate_n_showers_per_energy_and_fov one eb fb) as [l|e]; cbn [rbind]; auto.
  destruct (calculate_n_showers_per_fov one _) as [[|v [|w r]]|e]; cbn [rbind map]; auto.
  f_equal. rewrite !map_map. apply map_ext. intros row. rewrite !map_map. apply map_ext. intros x. rewrite !map_map.
  rewrite times_div by auto. set (q := ndiv v _). generalize (List.length pb - 1)%nat. intros k.
  induction k as [|k IH]; cbn; auto. rewrite scale_prod, IH. reflexivity.
Qed.
Lemma zipwith_map_r {A B C} (f : A -> B -> C) (g : B -> B) (h : C -> C) l m : (forall a b, f a (g b) = h (f a b)) -> zipwith f l (map g m) = map h (zipwith f l m).
Proof. intros H. revert m. induction l as [|a l IH]; intros [|b m]; cbn; auto. rewrite IH, H. auto. Qed.
Lemma overlap_times o g : times_overlap o (map (map (times n)) g) = map (map (times n)) (times_overlap o g).
Proof.
  assert (M : forall a b, nmul a (times n b) = times n (nmul a b)) by (intros a b; rewrite mul_comm, times_mul, (mul_comm b) by auto; auto).
  destruct o as [v|a]; cbn [times_overlap].
  - rewrite !map_map. apply map_ext. intros row. rewrite !map_map. apply map_ext. intros x. apply M.
  - apply zipwith_map_r. intros r r'. apply zipwith_map_r, M.
Qed.
Lemma showers_lonlat eb ul ub lon lat k : calculate_n_showers_3d_lonlat s eb ul ub lon lat k = (do l <- calculate_n_showers_3d_lonlat one eb ul ub lon lat k; Ok (map (map (map (times n))) l)).
Proof.
  unfold calculate_n_showers_3d_lonlat. cbn [viewcone_min viewcone_max one with_showers n_showers].
  change (fov_lonlat_grid_overlap one ul ub lon lat k) with (fov_lonlat_grid_overlap s ul ub lon lat k).
  destruct (fov_lonlat_grid_overlap s ul ub lon lat k) as [o|e]; cbn [rbind]; auto. cbv zeta. cbn [rbind].
  apply (f_equal (@Ok _)).
  rewrite showers_energy, !map_map. unfold one, with_showers. apply map_ext. intros e.
  assert (D : nz (n_showers s) = times n (nz 1)) by (unfold times, nz, n; cbn; f_equal; ring). 
  match goal with |- context [times_overlap o (map (map (fun a => nmul (ndiv (nz (n_showers s)) ?d) (Fin a))) ?g)] =>
    replace (map (map (fun a => nmul (ndiv (nz (n_showers s)) d) (Fin a))) g) with (map (map (times n)) (map (map (fun a => nmul (ndiv (nz 1) d) (Fin a))) g)) end.
  2:{ rewrite map_map. apply map_ext. intros row. rewrite map_map. apply map_ext. intros x. rewrite D, times_div, times_mul by auto. reflexivity. }
  rewrite overlap_times, !map_map. apply map_ext. intros row. rewrite !map_map. apply map_ext. intros f. apply scale_prod.
Qed.
End Showers.

Definition scales (n : R) (a b : tensor) : Prop := shape a = shape b /\ forall ix, at_ a ix = times n (at_ b ix).
Lemma nth_times n l i : nth i (map (times n) l) NaN = times n (nth i l NaN).
Proof. rewrite <- (map_nth (times n)). reflexivity. Qed.
Lemma vec_scales n l : scales n (vec (map (times n) l)) (vec l).
Proof. split; [cbn; rewrite map_length; auto|]. intros [|i [|]]; auto. cbn [at_ vec]. apply nth_times. Qed.
Lemma lists2_scales n l : scales n (of_lists2 (map (map (times n)) l)) (of_lists2 l).
Proof.
  split; [cbn; rewrite map_length; destruct l; cbn; rewrite ?map_length; auto|]. intros [|i [|j [|]]]; auto. cbn [at_ of_lists2].
  change (@nil num) with (map (times n) []) at 1. rewrite map_nth. apply nth_times.
Qed.
Lemma lists3_scales n l : scales n (of_lists3 (map (map (map (times n))) l)) (of_lists3 l).
Proof.
  split; [cbn; rewrite map_length; destruct l as [|[|] ?]; cbn; rewrite ?map_length; auto|]. intros [|i [|j [|k [|]]]]; auto. cbn [at_ of_lists3].
  change (@nil (list num)) with (map (map (times n)) []) at 1. rewrite map_nth. change (@nil num) with (map (times n) []) at 1. rewrite map_nth. apply nth_times.
Qed.
Section Area.
Variables (n n1 n2 : R) (P : 0 < n) (P1 : 0 < n1) (P2 : 0 < n2).
Lemma ratio_adds a a1 a2 b b1 b2 b0 : tadds 1 1 1 a a1 a2 -> scales n b b0 -> scales n1 b1 b0 -> scales n2 b2 b0 ->
  radds n n1 n2 (tbin ndiv a b) (tbin ndiv a1 b1) (tbin ndiv a2 b2).
Proof.
  intros (S1 & S2 & H) (T & K) (T1 & K1) (T2 & K2). unfold tbin. rewrite S1, S2, T, T1, T2. destruct (bshape _ _); cbn; auto. split; [reflexivity|]. split; [reflexivity|].
  intros ix. cbn [at_]. rewrite K, K1, K2. unfold times.
  pose proof (comb_div_scaled 1 1 1 n n1 n2 _ _ _ (at_ b0 (bidx (shape b0) ix)) P P1 P2 (H (bidx (shape a) ix))) as C.
  rewrite !Rmult_1_l in C. exact C.
Qed.
Lemma area_adds a a1 a2 b b1 b2 b0 ar : tadds 1 1 1 a a1 a2 -> scales n b b0 -> scales n1 b1 b0 -> scales n2 b2 b0 ->
  radds n n1 n2 (effective_area a b ar) (effective_area a1 b1 ar) (effective_area a2 b2 ar).
Proof.
  intros H S S1 S2. unfold effective_area. apply radds_bind with (1 := ratio_adds _ _ _ _ _ _ _ H S S1 S2). intros x x1 x2 Hx.
  cbn. apply tmap_adds with (2 := Hx). intros y y1 y2 Hy. apply comb_mul, Hy.
Qed.
End Area.
Section Sims.
Variables (s s1 s2 : sim_info).
Hypotheses (S1 : same_conditions s s1) (S2 : same_conditions s s2).
Hypotheses (Hn1 : (0 < n_showers s1)%Z) (Hn2 : (0 < n_showers s2)%Z) (Hn : n_showers s = (n_showers s1 + n_showers s2)%Z).
Let Hn0 : (0 < n_showers s)%Z. Proof. lia. Qed.
Let P := IZR_lt _ _ Hn0. Let P1 := IZR_lt _ _ Hn1. Let P2 := IZR_lt _ _ Hn2.
Let W1 : with_showers s1 1 = with_showers s 1. Proof. apply same_with, S1. Qed.
Let W2 : with_showers s2 1 = with_showers s 1. Proof. apply same_with, S2. Qed.
Let A1 : impact_area s1 = impact_area s. Proof. unfold impact_area. destruct S1 as (_ & _ & -> & _). auto. Qed.
Let A2 : impact_area s2 = impact_area s. Proof. unfold impact_area. destruct S2 as (_ & _ & -> & _). auto. Qed.
Lemma merge_area_fov e1 e2 eb fb : radds (IZR (n_showers s)) (IZR (n_showers s1)) (IZR (n_showers s2))
  (effective_area_per_energy_and_fov (e1 ++ e2) s eb fb) (effective_area_per_energy_and_fov e1 s1 eb fb) (effective_area_per_energy_and_fov e2 s2 eb fb).
Proof.
  unfold effective_area_per_energy_and_fov. rewrite (showers_energy_fov s Hn0), (showers_energy_fov s1 Hn1), (showers_energy_fov s2 Hn2), W1, W2.
  destruct (calculate_n_showers_per_energy_and_fov _ _ _) as [l|e]; cbn [rbind]; [|cbn; auto].
  apply radds_bind with (1 := histogramdd_app _ unweighted e1 e2). intros a a1 a2 H. rewrite A1, A2.
  apply area_adds with (b0 := of_lists2 l); auto using lists2_scales.
Qed.
Lemma merge_area_polar e1 e2 eb fb pb : radds (IZR (n_showers s)) (IZR (n_showers s1)) (IZR (n_showers s2))
  (effective_area_3d_polar (e1 ++ e2) s eb fb pb) (effective_area_3d_polar e1 s1 eb fb pb) (effective_area_3d_polar e2 s2 eb fb pb).
Proof.
  unfold effective_area_3d_polar. rewrite (showers_polar s Hn0), (showers_polar s1 Hn1), (showers_polar s2 Hn2), W1, W2.
  destruct (calculate_n_showers_3d_polar _ _ _ _) as [l|e]; cbn [rbind]; [|cbn; auto].
  apply radds_bind with (1 := histogramdd_app _ unweighted e1 e2). intros a a1 a2 H. rewrite A1, A2.
  apply area_adds with (b0 := of_lists3 l); auto using lists3_scales.
Qed.
Lemma merge_area_lonlat e1 e2 eb lon lat k : radds (IZR (n_showers s)) (IZR (n_showers s1)) (IZR (n_showers s2))
  (effective_area_3d_lonlat (e1 ++ e2) s eb lon lat k) (effective_area_3d_lonlat e1 s1 eb lon lat k) (effective_area_3d_lonlat e2 s2 eb lon lat k).
Proof.
  unfold effective_area_3d_lonlat. rewrite (showers_lonlat s Hn0), (showers_lonlat s1 Hn1), (showers_lonlat s2 Hn2), W1, W2.
  destruct (calculate_n_showers_3d_lonlat _ _ _ _ _ _ _) as [l|e]; cbn [rbind]; [|cbn; auto].
  apply radds_bind with (1 := histogramdd_app _ unweighted e1 e2). intros a a1 a2 H. rewrite A1, A2.
  apply area_adds with (b0 := of_lists3 l); auto using lists3_scales.
Qed.
End Sims.
(** ** tables of counts *)
From Verif Require Import FoldProofs.
Lemma number_of_app {A} (P : A -> Prop) l l' n m : number_of P l n -> number_of P l' m -> number_of P (l ++ l') (n + m).
Proof. intros H H'. induction H; cbn; auto; constructor; auto. Qed.
Lemma hist_adds e1 e2 hw hp edges key : nondecreasing edges -> (2 <= List.length edges)%nat -> exists t t1 t2 n n1 n2,
  create_histogram_table (mkEvents (e1 ++ e2) hw hp) edges key = Ok t /\ create_histogram_table (mkEvents e1 hw hp) edges key = Ok t1 /\
  create_histogram_table (mkEvents e2 hw hp) edges key = Ok t2 /\ getitem t "n" = Some (CZ n) /\ getitem t1 "n" = Some (CZ n1) /\ getitem t2 "n" = Some (CZ n2) /\
  List.length n = (List.length edges - 1)%nat /\ List.length n1 = (List.length edges - 1)%nat /\ List.length n2 = (List.length edges - 1)%nat /\
  forall k c c1 c2, nth_error n k = Some c -> nth_error n1 k = Some c1 -> nth_error n2 k = Some c2 -> c = (c1 + c2)%Z.
Proof.
  intros H L. destruct (c04 (mkEvents (e1 ++ e2) hw hp) edges key H L) as (t & n & E & G & (Ln & Hh) & _).
  destruct (c04 (mkEvents e1 hw hp) edges key H L) as (t1 & n1 & E1 & G1 & (Ln1 & Hh1) & _).
  destruct (c04 (mkEvents e2 hw hp) edges key H L) as (t2 & n2 & E2 & G2 & (Ln2 & Hh2) & _).
  exists t, t1, t2, n, n1, n2. repeat (split; [assumption|]). intros k c c1 c2 Ec Ec1 Ec2.
  destruct (Hh k c Ec) as (m & -> & M). destruct (Hh1 k c1 Ec1) as (m1 & -> & M1). destruct (Hh2 k c2 Ec2) as (m2 & -> & M2). cbn [et_rows] in *.
  rewrite (number_of_unique _ _ _ _ M (number_of_app _ _ _ _ _ M1 M2)). lia.
Qed.
Lemma merge_area_energy s s1 s2 e1 e2 hw hp bins : same_conditions s s1 -> same_conditions s s2 -> (0 < n_showers s1)%Z -> (0 < n_showers s2)%Z ->
  n_showers s = (n_showers s1 + n_showers s2)%Z -> nondecreasing bins -> (2 <= List.length bins)%nat ->
  radds (IZR (n_showers s)) (IZR (n_showers s1)) (IZR (n_showers s2)) (effective_area_per_energy (mkEvents (e1 ++ e2) hw hp) s bins)
    (effective_area_per_energy (mkEvents e1 hw hp) s1 bins) (effective_area_per_energy (mkEvents e2 hw hp) s2 bins).
Proof.
  intros S1 S2 H1 H2 Hn Hb Lb. assert (H0 : (0 < n_showers s)%Z) by lia.
  destruct (hist_adds e1 e2 hw hp bins "true_energy" Hb Lb) as (t & t1 & t2 & n & n1 & n2 & E & E1 & E2 & G & G1 & G2 & Ln & Ln1 & Ln2 & Hc).
  unfold effective_area_per_energy. rewrite E, E1, E2. cbn [rbind]. rewrite G, G1, G2.
  rewrite (showers_energy s), (showers_energy s1), (showers_energy s2), (same_with _ _ S1), (same_with _ _ S2) by auto.
  assert (A1 : impact_area s1 = impact_area s) by (unfold impact_area; destruct S1 as (_ & _ & -> & _); auto).
  assert (A2 : impact_area s2 = impact_area s) by (unfold impact_area; destruct S2 as (_ & _ & -> & _); auto). rewrite A1, A2.
  apply area_adds with (b0 := vec (calculate_n_showers_per_energy (with_showers s 1) bins)); try (apply IZR_lt; assumption); try apply vec_scales.
  split; [cbn; rewrite !map_length; congruence|]. split; [cbn; rewrite !map_length; congruence|].
  intros [|k [|]] a1 a2 F1 F2; cbn [at_ vec] in *; try discriminate.
  destruct (nth_error n k) as [c|] eqn:Ec.
  - assert (k < List.length n)%nat by (apply nth_error_Some; congruence). destruct (nth_some_ex n1 k) as [c1 Ec1]; [lia|]. destruct (nth_some_ex n2 k) as [c2 Ec2]; [lia|].
    rewrite (nth_error_nth _ _ _ (map_nth_some nz _ _ _ Ec1)) in F1. rewrite (nth_error_nth _ _ _ (map_nth_some nz _ _ _ Ec2)) in F2.
    rewrite (nth_error_nth _ _ _ (map_nth_some nz _ _ _ Ec)). injection F1 as <-. injection F2 as <-. exists (IZR c). split; [reflexivity|].
    rewrite (Hc k c c1 c2 Ec Ec1 Ec2), plus_IZR. ring.
  - apply nth_error_None in Ec. rewrite nth_overflow in F1 by (rewrite map_length; lia). discriminate.
Qed.
(** ** distributions *)
Lemma merge_value x x1 x2 (n n1 n2 m m1 m2 : nat) w : 0 < w -> (n1 <= m1)%nat -> (n2 <= m2)%nat -> n = (n1 + n2)%nat -> m = (m1 + m2)%nat ->
  ((0 < m)%nat -> x = INR n / INR m / w) -> ((0 < m1)%nat -> x1 = INR n1 / INR m1 / w) -> ((0 < m2)%nat -> x2 = INR n2 / INR m2 / w) ->
  (INR m1 + INR m2) * x = INR m1 * x1 + INR m2 * x2.
Proof.
  intros Hw L1 L2 -> -> H H1 H2.
  assert (Q : forall a b y, (a <= b)%nat -> ((0 < b)%nat -> y = INR a / INR b / w) -> INR b * y = INR a / w).
  { intros a b y L E. destruct (Nat.eq_dec b 0) as [->|Nb]; [replace a with 0%nat by lia; cbn; lra|]. rewrite E by lia. field. split; [lra|]. apply not_0_INR. auto. }
  rewrite <- plus_INR, (Q (n1 + n2)%nat) by (auto; lia). rewrite (Q n1 m1), (Q n2 m2) by auto. rewrite plus_INR. field. lra.
Qed.
Section Distributions.
Variables (e1 e2 : list dl2) (eb fb : list num).
Hypotheses (He : nondecreasing eb) (Le : (2 <= List.length eb)%nat) (Hf : nondecreasing fb) (Lf : (2 <= List.length fb)%nat).
Lemma fin_inj (a b : R) : Fin a = Fin b -> a = b. Proof. congruence. Qed.
Lemma bin_range edges k x : nondecreasing edges -> (2 <= List.length edges)%nat -> (k < List.length edges - 1)%nat -> in_hist_bin edges k x -> in_range edges x.
Proof. intros H L Hk B. apply (hdd_range edges x H L). apply (hdd_spec edges x H L k Hk) in B. rewrite B. lia. Qed.
Lemma merge_edisp mig : increasing mig -> (2 <= List.length mig)%nat -> exists d d1 d2, energy_dispersion (e1 ++ e2) eb fb (map Fin mig) = Ok d /\
  energy_dispersion e1 eb fb (map Fin mig) = Ok d1 /\ energy_dispersion e2 eb fb (map Fin mig) = Ok d2 /\
  forall i j k m1 m2, (i < List.length eb - 1)%nat -> (j < List.length mig - 1)%nat -> (k < List.length fb - 1)%nat ->
  number_of (fun e => in_hist_bin eb i (true_energy e) /\ in_range (map Fin mig) (ndiv (reco_energy e) (true_energy e)) /\ in_hist_bin fb k (true_fov_offset e)) e1 m1 ->
  number_of (fun e => in_hist_bin eb i (true_energy e) /\ in_range (map Fin mig) (ndiv (reco_energy e) (true_energy e)) /\ in_hist_bin fb k (true_fov_offset e)) e2 m2 ->
  exists x x1 x2, at_ d [i; j; k] = Fin x /\ at_ d1 [i; j; k] = Fin x1 /\ at_ d2 [i; j; k] = Fin x2 /\ (INR m1 + INR m2) * x = INR m1 * x1 + INR m2 * x2.
Proof.
  intros Hm Lm. destruct (c43 (e1 ++ e2) eb fb mig He Le Hf Lf Hm Lm) as (d & E & _ & D). destruct (c43 e1 eb fb mig He Le Hf Lf Hm Lm) as (d1 & E1 & _ & D1).
  destruct (c43 e2 eb fb mig He Le Hf Lf Hm Lm) as (d2 & E2 & _ & D2). exists d, d1, d2. repeat (split; [assumption|]). intros i j k m1 m2 Hi Hj Hk M1 M2.
  assert (F : forall o, (forall i k, (i < List.length eb - 1)%nat -> (k < List.length fb - 1)%nat -> exists q, List.length q = (List.length mig - 1)%nat /\
    (forall j v, nth_error q j = Some v -> at_ o [i; j; k] = Fin v /\ 0 <= v)) -> exists x, at_ o [i; j; k] = Fin x).
  { intros o H. destruct (H i k Hi Hk) as (q & Lq & Q). destruct (nth_some_ex q j) as [v V]; [lia|]. exists v. apply Q, V. }
  destruct (F d) as [x X]; [intros; edestruct D as (q & Q & Q' & _); eauto|]. destruct (F d1) as [x1 X1]; [intros; edestruct D1 as (q & Q & Q' & _); eauto|].
  destruct (F d2) as [x2 X2]; [intros; edestruct D2 as (q & Q & Q' & _); eauto|]. exists x, x1, x2. repeat (split; [assumption|]).
  destruct (c43_value (e1 ++ e2) eb fb mig He Le Hf Lf Hm Lm i j k Hi Hj Hk) as (o & n & m & a & b & Eo & N & M & A & B & V).
  destruct (c43_value e1 eb fb mig He Le Hf Lf Hm Lm i j k Hi Hj Hk) as (o1 & n1 & m1' & a1 & b1 & Eo1 & N1 & M1' & A1 & B1 & V1).
  destruct (c43_value e2 eb fb mig He Le Hf Lf Hm Lm i j k Hi Hj Hk) as (o2 & n2 & m2' & a2 & b2 & Eo2 & N2 & M2' & A2 & B2 & V2).
  rewrite E in Eo. rewrite E1 in Eo1. rewrite E2 in Eo2. injection Eo as <-. injection Eo1 as <-. injection Eo2 as <-. rewrite X in V. rewrite X1 in V1. rewrite X2 in V2.
  rewrite A in A1, A2. rewrite B in B1, B2. injection A1 as <-. injection A2 as <-. injection B1 as <-. injection B2 as <-.
  rewrite (number_of_unique _ _ _ _ M1' M1) in *. rewrite (number_of_unique _ _ _ _ M2' M2) in *.
  assert (LE : forall l p q, number_of (fun e => in_hist_bin eb i (true_energy e) /\ in_hist_bin (map Fin mig) j (ndiv (reco_energy e) (true_energy e)) /\ in_hist_bin fb k (true_fov_offset e)) l p ->
    number_of (fun e => in_hist_bin eb i (true_energy e) /\ in_range (map Fin mig) (ndiv (reco_energy e) (true_energy e)) /\ in_hist_bin fb k (true_fov_offset e)) l q -> (p <= q)%nat).
  { intros l p q. apply number_of_le. intros e (Q1 & Q2 & Q3). split; [exact Q1|split; [|exact Q3]]. eapply bin_range; [apply inc_nondec; exact Hm|rewrite map_length; lia| |exact Q2]. rewrite map_length. lia. }
  eapply (merge_value x x1 x2 n n1 n2 m m1 m2 (b - a)).
  - pose proof (inc_nth mig j Hm ltac:(lia)) as Q. rewrite (nth_error_nth _ _ _ A), (nth_error_nth _ _ _ B) in Q. lra.
  - eapply LE; eauto.
  - eapply LE; eauto.
  - apply (number_of_unique _ _ _ _ N). apply number_of_app; auto.
  - apply (number_of_unique _ _ _ _ M). apply number_of_app; auto.
  - intros P. apply fin_inj, V, P.
  - intros P. apply fin_inj, V1, P.
  - intros P. apply fin_inj, V2, P.
Qed.
Lemma merge_migration mig : nondecreasing mig -> (2 <= List.length mig)%nat -> exists d d1 d2, energy_migration_matrix (e1 ++ e2) eb mig fb = Ok d /\
  energy_migration_matrix e1 eb mig fb = Ok d1 /\ energy_migration_matrix e2 eb mig fb = Ok d2 /\
  forall i j k m1 m2, (i < List.length eb - 1)%nat -> (j < List.length mig - 1)%nat -> (k < List.length fb - 1)%nat ->
  number_of (fun e => in_hist_bin eb i (true_energy e) /\ in_range mig (reco_energy e) /\ in_hist_bin fb k (true_fov_offset e)) e1 m1 ->
  number_of (fun e => in_hist_bin eb i (true_energy e) /\ in_range mig (reco_energy e) /\ in_hist_bin fb k (true_fov_offset e)) e2 m2 ->
  exists x x1 x2, at_ d [i; j; k] = Fin x /\ at_ d1 [i; j; k] = Fin x1 /\ at_ d2 [i; j; k] = Fin x2 /\ (INR m1 + INR m2) * x = INR m1 * x1 + INR m2 * x2.
Proof.
  intros Hm Lm. destruct (c44 (e1 ++ e2) eb mig fb He Le Hm Lm Hf Lf) as (d & E & _ & D). destruct (c44 e1 eb mig fb He Le Hm Lm Hf Lf) as (d1 & E1 & _ & D1).
  destruct (c44 e2 eb mig fb He Le Hm Lm Hf Lf) as (d2 & E2 & _ & D2). exists d, d1, d2. repeat (split; [assumption|]). intros i j k m1 m2 Hi Hj Hk M1 M2.
  assert (F : forall o, (forall i k, (i < List.length eb - 1)%nat -> (k < List.length fb - 1)%nat -> exists q, List.length q = (List.length mig - 1)%nat /\
    (forall j v, nth_error q j = Some v -> at_ o [i; j; k] = Fin v /\ 0 <= v <= 1)) -> exists x, at_ o [i; j; k] = Fin x).
  { intros o H. destruct (H i k Hi Hk) as (q & Lq & Q). destruct (nth_some_ex q j) as [v V]; [lia|]. exists v. apply Q, V. }
  destruct (F d) as [x X]; [intros; edestruct D as (q & Q & Q' & _); eauto|]. destruct (F d1) as [x1 X1]; [intros; edestruct D1 as (q & Q & Q' & _); eauto|].
  destruct (F d2) as [x2 X2]; [intros; edestruct D2 as (q & Q & Q' & _); eauto|]. exists x, x1, x2. repeat (split; [assumption|]).
  destruct (c44_value (e1 ++ e2) eb mig fb He Le Hm Lm Hf Lf i j k Hi Hj Hk) as (o & n & m & Eo & N & M & V).
  destruct (c44_value e1 eb mig fb He Le Hm Lm Hf Lf i j k Hi Hj Hk) as (o1 & n1 & m1' & Eo1 & N1 & M1' & V1).
  destruct (c44_value e2 eb mig fb He Le Hm Lm Hf Lf i j k Hi Hj Hk) as (o2 & n2 & m2' & Eo2 & N2 & M2' & V2).
  rewrite E in Eo. rewrite E1 in Eo1. rewrite E2 in Eo2. injection Eo as <-. injection Eo1 as <-. injection Eo2 as <-. rewrite X in V. rewrite X1 in V1. rewrite X2 in V2.
  rewrite (number_of_unique _ _ _ _ M1' M1) in *. rewrite (number_of_unique _ _ _ _ M2' M2) in *.
  assert (LE : forall l p q, number_of (fun e => in_hist_bin eb i (true_energy e) /\ in_hist_bin mig j (reco_energy e) /\ in_hist_bin fb k (true_fov_offset e)) l p ->
    number_of (fun e => in_hist_bin eb i (true_energy e) /\ in_range mig (reco_energy e) /\ in_hist_bin fb k (true_fov_offset e)) l q -> (p <= q)%nat).
  { intros l p q. apply number_of_le. intros e (Q1 & Q2 & Q3). split; [exact Q1|split; [|exact Q3]]. eapply bin_range; [exact Hm|exact Lm| |exact Q2]. lia. }
  eapply (merge_value x x1 x2 n n1 n2 m m1 m2 1).
  - lra.
  - eapply LE; eauto.
  - eapply LE; eauto.
  - apply (number_of_unique _ _ _ _ N). apply number_of_app; auto.
  - apply (number_of_unique _ _ _ _ M). apply number_of_app; auto.
  - intros P. unfold Rdiv at 1; rewrite Rinv_1, Rmult_1_r; apply fin_inj, V, P.
  - intros P. unfold Rdiv at 1; rewrite Rinv_1, Rmult_1_r; apply fin_inj, V1, P.
  - intros P. unfold Rdiv at 1; rewrite Rinv_1, Rmult_1_r; apply fin_inj, V2, P.
Qed.
Lemma merge_psf mig : angles mig -> (2 <= List.length mig)%nat -> exists d d1 d2, psf_table (e1 ++ e2) eb mig fb = Ok d /\
  psf_table e1 eb mig fb = Ok d1 /\ psf_table e2 eb mig fb = Ok d2 /\
  forall i j k m1 m2, (i < List.length eb - 1)%nat -> (j < List.length mig - 1)%nat -> (k < List.length fb - 1)%nat ->
  number_of (fun e => in_hist_bin eb i (true_energy e) /\ in_hist_bin fb k (true_fov_offset e) /\ in_range (map Fin mig) (theta e)) e1 m1 ->
  number_of (fun e => in_hist_bin eb i (true_energy e) /\ in_hist_bin fb k (true_fov_offset e) /\ in_range (map Fin mig) (theta e)) e2 m2 ->
  exists x x1 x2, at_ d [i; k; j] = Fin x /\ at_ d1 [i; k; j] = Fin x1 /\ at_ d2 [i; k; j] = Fin x2 /\ (INR m1 + INR m2) * x = INR m1 * x1 + INR m2 * x2.
Proof.
  intros Hm Lm. destruct (c45 (e1 ++ e2) eb fb mig He Le Hf Lf Hm Lm) as (d & E & _ & D). destruct (c45 e1 eb fb mig He Le Hf Lf Hm Lm) as (d1 & E1 & _ & D1).
  destruct (c45 e2 eb fb mig He Le Hf Lf Hm Lm) as (d2 & E2 & _ & D2). exists d, d1, d2. repeat (split; [assumption|]). intros i j k m1 m2 Hi Hj Hk M1 M2.
  assert (F : forall o, (forall i k, (i < List.length eb - 1)%nat -> (k < List.length fb - 1)%nat -> exists q, List.length q = (List.length mig - 1)%nat /\
    (forall j v, nth_error q j = Some v -> at_ o [i; k; j] = Fin v /\ 0 <= v)) -> exists x, at_ o [i; k; j] = Fin x).
  { intros o H. destruct (H i k Hi Hk) as (q & Lq & Q). destruct (nth_some_ex q j) as [v V]; [lia|]. exists v. apply Q, V. }
  destruct (F d) as [x X]; [intros; edestruct D as (q & Q & Q' & _); eauto|]. destruct (F d1) as [x1 X1]; [intros; edestruct D1 as (q & Q & Q' & _); eauto|].
  destruct (F d2) as [x2 X2]; [intros; edestruct D2 as (q & Q & Q' & _); eauto|]. exists x, x1, x2. repeat (split; [assumption|]).
  destruct (c45_value (e1 ++ e2) eb fb mig He Le Hf Lf Hm Lm i k j Hi Hk Hj) as (o & n & m & a & b & Eo & N & M & A & B & V).
  destruct (c45_value e1 eb fb mig He Le Hf Lf Hm Lm i k j Hi Hk Hj) as (o1 & n1 & m1' & a1 & b1 & Eo1 & N1 & M1' & A1 & B1 & V1).
  destruct (c45_value e2 eb fb mig He Le Hf Lf Hm Lm i k j Hi Hk Hj) as (o2 & n2 & m2' & a2 & b2 & Eo2 & N2 & M2' & A2 & B2 & V2).
  rewrite E in Eo. rewrite E1 in Eo1. rewrite E2 in Eo2. injection Eo as <-. injection Eo1 as <-. injection Eo2 as <-. rewrite X in V. rewrite X1 in V1. rewrite X2 in V2.
  rewrite A in A1, A2. rewrite B in B1, B2. injection A1 as <-. injection A2 as <-. injection B1 as <-. injection B2 as <-.
  rewrite (number_of_unique _ _ _ _ M1' M1) in *. rewrite (number_of_unique _ _ _ _ M2' M2) in *.
  assert (LE : forall l p q, number_of (fun e => in_hist_bin eb i (true_energy e) /\ in_hist_bin fb k (true_fov_offset e) /\ in_hist_bin (map Fin mig) j (theta e)) l p ->
    number_of (fun e => in_hist_bin eb i (true_energy e) /\ in_hist_bin fb k (true_fov_offset e) /\ in_range (map Fin mig) (theta e)) l q -> (p <= q)%nat).
  { intros l p q. apply number_of_le. intros e (Q1 & Q2 & Q3). split; [exact Q1|split; [exact Q2|]]. eapply bin_range; [apply inc_nondec, Hm|rewrite map_length; lia| |exact Q3]. rewrite map_length. lia. }
  eapply (merge_value x x1 x2 n n1 n2 m m1 m2 (ring_deg a b)).
  - pose proof (angles_ring mig j Hm ltac:(lia)) as Q. rewrite (nth_error_nth _ _ _ A), (nth_error_nth _ _ _ B) in Q. lra.
  - eapply LE; eauto.
  - eapply LE; eauto.
  - apply (number_of_unique _ _ _ _ N). apply number_of_app; auto.
  - apply (number_of_unique _ _ _ _ M). apply number_of_app; auto.
  - intros P. apply fin_inj, V, P.
  - intros P. apply fin_inj, V1, P.
  - intros P. apply fin_inj, V2, P.
Qed.
End Distributions.
