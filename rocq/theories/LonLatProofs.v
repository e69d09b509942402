(** * LonLatProofs: the coverage of lon/lat bins by the viewcone *)
From Coq Require Import Reals List Bool ZArith Lia Lra.
From Verif Require Import Num Numpy Lists Binning Utils SpecUtils UtilsProofs SpecBinning HistProofs SpecSimulations SpecLonLat Simulations
  SimulationsProofs SimulationsProofs2 SimulationsProofs3.
Import ListNotations.
Open Scope R_scope.

Lemma part_centres a w n : (0 < n)%nat -> centers (linspace a (a + w) n) = map (part_centre a w n) (seq 0 n).
Proof.
  intros Hn. unfold centers, linspace. apply nth_ext_eq.
  - rewrite adj_length, !map_length, !seq_length. lia.
  - intros i x y Hx Hy. apply adj_inv in Hx as (u & v & Hu & Hv & ->).
    apply map_nth_inv in Hu as (p & Hp & ->). apply map_nth_inv in Hv as (q & Hq & ->). apply map_nth_inv in Hy as (r & Hr & ->).
    assert (Hs : forall m k z, nth_error (seq 0 m) k = Some z -> z = k).
    { intros m k z Hz. assert (Hk := nth_some_lt _ _ _ Hz). rewrite seq_length in Hk. apply nth_error_nth with (d := 0%nat) in Hz. rewrite seq_nth in Hz; lia. }
    apply Hs in Hp, Hq, Hr. subst. unfold part_centre. rewrite S_INR. assert (INR n <> 0) by (apply not_0_INR; lia). field; auto.
Qed.
Lemma in_ring_spec vmin vmax lon lat : Rleb (fov_radius lon lat) vmax && Rleb vmin (fov_radius lon lat) = true <-> in_ring vmin vmax lon lat.
Proof.
  split.
  - intros H. apply andb_prop in H as [H1 H2]. exists (fov_radius lon lat). split; [apply fov_radius_spec; auto|]. apply Rleb_true in H1, H2. lra.
  - intros (d & Hd & H). apply fov_radius_spec in Hd. subst. apply andb_true_intro. split; apply Rleb_true; lra.
Qed.
Lemma list_prod_mesh {A} (f : R -> R -> A) (g h : nat -> R) (ps qs : list nat) :
  concat (meshgrid f (map g ps) (map h qs)) = map (fun qp => f (g (snd qp)) (h (fst qp))) (list_prod qs ps).
Proof.
  unfold meshgrid. induction qs as [|q qs IH]; simpl; auto. rewrite IH, map_app. f_equal. rewrite !map_map. reflexivity.
Qed.
Lemma fraction_exact vmin vmax a b w h n : (0 < n)%nat -> exists m,
  subpixel_fraction vmin vmax a b w h n = Fin (INR m / (INR n * INR n)) /\
  number_of (fun pq => in_ring vmin vmax (part_centre a w n (snd pq) * (PI / 180)) (part_centre b h n (fst pq) * (PI / 180)))
      (list_prod (seq 0 n) (seq 0 n)) m.
Proof.
  intros Hn. unfold subpixel_fraction. rewrite !part_centres, list_prod_mesh by auto.
  match goal with |- context [map ?F ?L] => set (f := F); set (l := L) end.
  exists (count f l). split.
  - unfold nz, count_true, count. cbn [ndiv].
    assert (Hz : IZR (Z.of_nat (n * n)) = INR n * INR n) by (rewrite <- INR_IZR_INZ, mult_INR; auto).
    assert (INR n <> 0) by (apply not_0_INR; lia).
    rewrite Hz. replace (Reqb (INR n * INR n) 0) with false by (symmetry; rcmp; intros E; apply Rmult_integral in E; tauto).
    do 2 f_equal. rewrite <- INR_IZR_INZ. f_equal. clear. induction l as [|x l IH]; simpl; auto. destruct (f x); simpl; auto.
  - apply number_of_count. intros pq _. unfold f. cbv zeta. unfold degree. apply in_ring_spec.
Qed.
Lemma edge_bin_spec ulon ulat vmin vmax l0 l1 lon b0 b1 lat l l' b b' :
  edge_bin ulon ulat vmin vmax (l1 - l0) (b1 - b0) ((l + l') / 2) ((b + b') / 2) = true <->
  near_border vmin vmax ulon ulat (l0 :: l1 :: lon) (b0 :: b1 :: lat) l l' b b'.
Proof.
  unfold edge_bin, near_border. set (d := fov_radius ((l + l') / 2 * ulon) ((b + b') / 2 * ulat)).
  match goal with |- context [sqrt ?x * (1/2)] => set (S := x) end.
  assert (A : forall v h, Rltb d (v + h) && Rltb (v - h) d = true <-> Rabs (d - v) < h).
  { intros v h. rewrite andb_true_iff, !Rltb_true. split.
    - intros H. unfold Rabs. destruct (Rcase_abs _); lra.
    - unfold Rabs. destruct (Rcase_abs _); lra. }
  rewrite orb_true_iff, !A. split.
  - intros H. exists d, (sqrt S / 2). split; [apply fov_radius_spec; auto|]. split; [apply half_diag|].
    replace (sqrt S / 2) with (sqrt S * (1/2)) by lra. tauto.
  - intros (d' & h & Hd & Hh & H). apply fov_radius_spec in Hd. fold d in Hd. subst d'. inversion Hh; subst.
    replace (sqrt S * (1/2)) with (sqrt S / 2) by lra. unfold S. unfold Rsqr in H. tauto.
Qed.
Lemma corners_spec ulon ulat lon lat (p : R -> bool) (P : R -> Prop) : (forall d, p d = true <-> P d) ->
  forallb p (concat (meshgrid (fun l b => fov_radius (l * ulon) (b * ulat)) lon lat)) = true <-> corners ulon ulat lon lat P.
Proof.
  intros H. rewrite forallb_forall. unfold corners. split.
  - intros Ha x y d Hx Hy Hd. apply fov_radius_spec in Hd. apply H. apply Ha. apply in_concat_mesh. exists x, y. auto.
  - intros Ha d Hd. apply in_concat_mesh in Hd as (x & y & Hx & Hy & ->). apply H. apply (Ha x y); auto. apply fov_radius_spec; auto.
Qed.
(** the factor of one bin *)
Definition coefficient (o : overlap) (i j : nat) (c : R) : Prop :=
  match o with All v => v = Fin c | Grid g => exists row, nth_error g i = Some row /\ nth_error row j = Some (Fin c) end.
Lemma overlap_coverage s ulon ulat lon lat n o i j l l' b b' : (0 < n)%nat ->
  fov_lonlat_grid_overlap s ulon ulat lon lat n = Ok o ->
  nth_error lat i = Some b -> nth_error lat (S i) = Some b' -> nth_error lon j = Some l -> nth_error lon (S j) = Some l' ->
  exists c, coefficient o i j c /\ coverage (viewcone_min s) (viewcone_max s) ulon ulat lon lat n l l' b b' c.
Proof.
  intros Hn H Hb Hb' Hl Hl'. unfold fov_lonlat_grid_overlap in H. set (vmin := viewcone_min s) in *. set (vmax := viewcone_max s) in *.
  match type of H with (if ?x then _ else _) = _ => destruct x eqn:Eout end.
  { injection H as <-. exists 0. split; [reflexivity|]. apply cov_outside. apply orb_true_iff in Eout as [E|E]; [left|right].
    - eapply corners_spec; [|exact E]. intros; apply Rleb_true.
    - eapply corners_spec; [|exact E]. intros; apply Rleb_true. }
  assert (Hno : ~ (corners ulon ulat lon lat (fun d => d <= vmin) \/ corners ulon ulat lon lat (fun d => vmax <= d))).
  { intros Hc. apply not_true_iff_false in Eout. apply Eout. apply orb_true_iff. destruct Hc as [Hc|Hc]; [left|right].
    - eapply corners_spec; [|exact Hc]. intros; apply Rleb_true.
    - eapply corners_spec; [|exact Hc]. intros; apply Rleb_true. }
  match type of H with (if ?x then _ else _) = _ => destruct x eqn:Ein end.
  { injection H as <-. exists 1. split; [reflexivity|]. apply cov_inside; auto. apply andb_true_iff in Ein as [E1 E2].
    rewrite (corners_spec ulon ulat lon lat _ (fun d => d <= vmax)) in E1 by (intros; apply Rleb_true).
    rewrite (corners_spec ulon ulat lon lat _ (fun d => vmin <= d)) in E2 by (intros; apply Rleb_true).
    intros x y d Hx Hy Hd. split; [eapply E2; eauto|eapply E1; eauto]. }
  assert (Hni : ~ corners ulon ulat lon lat (fun d => vmin <= d <= vmax)).
  { intros Hc. apply not_true_iff_false in Ein. apply Ein. apply andb_true_iff. split.
    - apply (corners_spec ulon ulat lon lat _ (fun d => d <= vmax)); [intros; apply Rleb_true|]. intros x y d Hx Hy Hd. apply (Hc x y d); auto.
    - apply (corners_spec ulon ulat lon lat _ (fun d => vmin <= d)); [intros; apply Rleb_true|]. intros x y d Hx Hy Hd. apply (Hc x y d); auto. }
  destruct lon as [|l0 [|l1 lon]]; try discriminate. destruct lat as [|b0 [|b1 lat]]; try discriminate.
  set (LON := l0 :: l1 :: lon) in *. set (LAT := b0 :: b1 :: lat) in *.
  destruct (negb _); [discriminate|].
  match type of H with Ok ?x = Ok ?y => assert (Eo : y = x) by congruence end. clear H. subst o. cbn [coefficient].
  assert (Hbl : forall (L : list R) k v v', nth_error L k = Some v -> nth_error L (S k) = Some v' -> nth_error (but_last L) k = Some v).
  { intros L k v v' H1 H2. pose proof (adj_nth (fun a _ : R => a) L k v v' H1 H2) as Z. apply zw_nth_inv in Z as (u & w & Hu & _ & ->). exact Hu. }
  assert (Hce : forall (L : list R) k v v', nth_error L k = Some v -> nth_error L (S k) = Some v' -> nth_error (centers L) k = Some ((v + v') / 2)).
  { intros L k v v' H1 H2. unfold centers. apply (adj_nth (fun a b => (a + b) / 2)); auto. }
  assert (Hov : exists c, bin_overlap ulon ulat vmin vmax (l1 - l0) (b1 - b0) l b ((l + l') / 2) ((b + b') / 2) n = Fin c /\
     coverage vmin vmax ulon ulat LON LAT n l l' b b' c).
  { unfold bin_overlap. destruct (edge_bin _ _ _ _ _ _ _ _) eqn:Ee.
    - apply (edge_bin_spec ulon ulat vmin vmax l0 l1 lon b0 b1 lat) in Ee.
      destruct (fraction_exact vmin vmax l b (l1 - l0) (b1 - b0) n Hn) as (m & -> & Hm). eexists; split; [reflexivity|].
      eapply cov_points; eauto; reflexivity.
    - assert (Hnn : ~ near_border vmin vmax ulon ulat LON LAT l l' b b').
      { intros Hx. apply edge_bin_spec in Hx. congruence. }
      set (r := fov_radius ((l + l') / 2 * ulon) ((b + b') / 2 * ulat)).
      assert (Hr : in_ring vmin vmax ((l + l') / 2 * ulon) ((b + b') / 2 * ulat) <-> vmin <= r <= vmax).
      { split; [intros (d & Hd & Hx); apply fov_radius_spec in Hd; fold r in Hd; subst; auto|].
        intros Hx. exists r. split; auto. apply fov_radius_spec; auto. }
      destruct (Rltb_spec vmax r); [|destruct (Rltb_spec r vmin)]; cbn [orb]; eexists; (split; [reflexivity|]);
        apply cov_centre; auto; rewrite Hr; intros; try lra; tauto. }
  destruct Hov as (c & Ec & Hc). exists c. split; auto.
  eexists. split; [apply zipwith_nth; [eapply Hbl; eauto|eapply Hce; eauto]|].
  erewrite zipwith_nth; [|eapply Hbl; eauto|eapply Hce; eauto]. f_equal. exact Ec.
Qed.

Lemma c32_lonlat_exact s ebins ulon ulat lon lat n out : (n_showers s <> 0)%Z -> (0 < n)%nat ->
  0 < energy_min s -> energy_min s < energy_max s -> spectral_index s < -1 ->
  0 <= viewcone_min s -> viewcone_min s < viewcone_max s -> viewcone_max s <= PI ->
  calculate_n_showers_3d_lonlat s ebins ulon ulat lon lat n = Ok out ->
  forall k i j e e' l l' b b', nth_error ebins k = Some e -> nth_error ebins (S k) = Some e' ->
    nth_error lat i = Some b -> nth_error lat (S i) = Some b' -> nth_error lon j = Some l -> nth_error lon (S j) = Some l' ->
    energy_bin e e' -> ~ overhangs (energy_min s) (energy_max s) e e' ->
    exists v c, coverage (viewcone_min s) (viewcone_max s) ulon ulat lon lat n l l' b b' c /\
      share positive (power_law (spectral_index s)) (energy_min s) (energy_max s) e e' v /\
      entry3 out k i j (Fin (c * (IZR (n_showers s) * v *
        (rectangle_sr (l * ulon) (l' * ulon) (b * ulat) (b' * ulat) / ring_sr (viewcone_min s) (viewcone_max s))))).
Proof.
  intros Hn Hpix E0 E1 E2 F0 F1 F2 H. unfold calculate_n_showers_3d_lonlat in H.
  destruct (fov_lonlat_grid_overlap s ulon ulat lon lat n) as [o|ex] eqn:Eo; [|discriminate]. cbn [rbind] in H. fold (area_grid s ulon ulat lon lat) in H. injection H as <-.
  intros k i j e e' l l' b b' Ha Ha' Hb Hb' Hl Hl' He Hov.
  destruct (c30_bin s ebins k e e' E0 E1 E2 Ha Ha' He Hov) as (v & Hv & Sv & _).
  destruct (area_grid_nth s ulon ulat lon lat i j l l' b b' F0 F1 F2 Hb Hb' Hl Hl') as (r & Hr & Hrj).
  destruct (overlap_coverage s ulon ulat lon lat n o i j l l' b b' Hpix Eo Hb Hb' Hl Hl') as (c & Hco & Hc).
  exists v, c. split; auto. split; auto.
  assert (T : exists r', nth_error (times_overlap o (area_grid s ulon ulat lon lat)) i = Some r' /\ nth_error r' j =
     Some (Fin (c * (IZR (n_showers s) * (rectangle_sr (l * ulon) (l' * ulon) (b * ulat) (b' * ulat) / ring_sr (viewcone_min s) (viewcone_max s)))))).
  { destruct o as [w|g]; cbn [coefficient times_overlap] in *.
    - subst w. eexists. split; [apply map_nth_some; exact Hr|]. rewrite (map_nth_some _ _ _ _ Hrj). reflexivity.
    - destruct Hco as (row & H1 & H2). eexists. split; [apply zipwith_nth; [exact H1|exact Hr]|]. rewrite (zipwith_nth _ _ _ _ _ _ H2 Hrj). reflexivity. }
  destruct T as (r' & Hr' & Hj).
  eexists _, _. split; [apply map_nth_some; exact Hv|]. split; [apply map_nth_some; exact Hr'|].
  rewrite (map_nth_some _ _ _ _ Hj). unfold nz. cbn [nmul ndiv]. apply not_0_IZR in Hn.
  replace (Reqb (IZR (n_showers s)) 0) with false by (symmetry; rcmp; auto). do 2 f_equal.
  field. split; auto. unfold ring_sr. pose proof (cone_pos _ _ F0 F1 F2). pose proof PI_RGT_0. apply Rgt_not_eq. apply Rmult_lt_0_compat; lra.
Qed.
(** when the call fails *)
Lemma c32_lonlat_error s ebins ulon ulat lon lat n : (2 <= length lon)%nat -> (2 <= length lat)%nat ->
  let mixed := ~ (corners ulon ulat lon lat (fun d => d <= viewcone_min s) \/ corners ulon ulat lon lat (fun d => viewcone_max s <= d)) /\
    ~ corners ulon ulat lon lat (fun d => viewcone_min s <= d <= viewcone_max s) in
  let no_border_bin := forall i j l l' b b', nth_error lat i = Some b -> nth_error lat (S i) = Some b' ->
    nth_error lon j = Some l -> nth_error lon (S j) = Some l' ->
    ~ near_border (viewcone_min s) (viewcone_max s) ulon ulat lon lat l l' b b' in
  (mixed /\ no_border_bin -> calculate_n_showers_3d_lonlat s ebins ulon ulat lon lat n = Err IndexError) /\
  (~ (mixed /\ no_border_bin) -> exists out, calculate_n_showers_3d_lonlat s ebins ulon ulat lon lat n = Ok out).
Proof.
  intros L1 L2 mixed nobb. unfold mixed, nobb, calculate_n_showers_3d_lonlat, fov_lonlat_grid_overlap. clear mixed nobb.
  set (vmin := viewcone_min s) in *. set (vmax := viewcone_max s) in *.
  assert (C1 : forallb (fun d => Rleb d vmin) (concat (meshgrid (fun l b => fov_radius (l * ulon) (b * ulat)) lon lat)) = true <-> corners ulon ulat lon lat (fun d => d <= vmin)) by (apply corners_spec; intros; apply Rleb_true).
  assert (C2 : forallb (fun d => Rleb vmax d) (concat (meshgrid (fun l b => fov_radius (l * ulon) (b * ulat)) lon lat)) = true <-> corners ulon ulat lon lat (fun d => vmax <= d)) by (apply corners_spec; intros; apply Rleb_true).
  assert (C3 : forallb (fun d => Rleb d vmax) (concat (meshgrid (fun l b => fov_radius (l * ulon) (b * ulat)) lon lat)) = true <-> corners ulon ulat lon lat (fun d => d <= vmax)) by (apply corners_spec; intros; apply Rleb_true).
  assert (C4 : forallb (fun d => Rleb vmin d) (concat (meshgrid (fun l b => fov_radius (l * ulon) (b * ulat)) lon lat)) = true <-> corners ulon ulat lon lat (fun d => vmin <= d)) by (apply corners_spec; intros; apply Rleb_true).
  match goal with |- context [if ?a || ?b then _ else _] => destruct (a || b) eqn:Eout end.
  { apply orb_true_iff in Eout. rewrite C1, C2 in Eout. split; [intros [[H _] _]; tauto|intros _; cbn [rbind]; eauto]. }
  match goal with |- context [if ?a && ?b then _ else _] => destruct (a && b) eqn:Ein end.
  { apply andb_true_iff in Ein. rewrite C3, C4 in Ein. split; [|intros _; cbn [rbind]; eauto].
    intros [[_ H] _]. exfalso. apply H. intros x y d Hx Hy Hd. split; [eapply (proj2 Ein)|eapply (proj1 Ein)]; eauto. }
  apply orb_false_iff in Eout. rewrite <- !not_true_iff_false, C1, C2 in Eout.
  assert (Hm : ~ corners ulon ulat lon lat (fun d => vmin <= d <= vmax)).
  { intros Hc. apply not_true_iff_false in Ein. apply Ein. apply andb_true_iff. rewrite C3, C4.
    split; intros x y d Hx Hy Hd; apply (Hc x y d Hx Hy Hd). }
  clear C1 C2 C3 C4 Ein.
  destruct lon as [|l0 [|l1 lon]]; try (simpl in L1; lia). destruct lat as [|b0 [|b1 lat]]; try (simpl in L2; lia).
  set (LON := l0 :: l1 :: lon) in *. set (LAT := b0 :: b1 :: lat) in *.
  match goal with |- context [negb ?x] => destruct x eqn:Ee end; cbn [negb rbind].
  - split; [|eauto]. intros [_ Hno]. exfalso. apply existsb_exists in Ee as (x & Hx & ->). apply in_concat_mesh in Hx as (lc & bc & Hlc & Hbc & E).
    apply In_nth_error in Hlc as [j Hj]. apply In_nth_error in Hbc as [i Hi]. unfold centers in Hi, Hj.
    apply adj_inv in Hj as (l & l' & Hl & Hl' & ->). apply adj_inv in Hi as (b & b' & Hb & Hb' & ->).
    apply (Hno i j l l' b b'); auto. apply edge_bin_spec. congruence.
  - split; [reflexivity|]. intros Hx. exfalso. apply Hx. split; [split; tauto|]. intros i j l l' b b' Hb Hb' Hl Hl' Hn.
    apply not_true_iff_false in Ee. apply Ee. apply existsb_exists. exists true. split; auto. apply in_concat_mesh.
    exists ((l + l') / 2), ((b + b') / 2). split; [|split].
    + eapply nth_error_In. unfold centers. apply (adj_nth (fun a b => (a + b) / 2)); eauto.
    + eapply nth_error_In. unfold centers. apply (adj_nth (fun a b => (a + b) / 2)); eauto.
    + symmetry. eapply edge_bin_spec. exact Hn.
Qed.

(** the same grid in degree and in radian *)
Lemma fov_le lon lat d v : fov_distance lon lat d -> 0 <= v <= PI -> (d <= v <-> cos v <= cos lat * cos lon).
Proof.
  intros Hd Hv. apply fov_radius_spec in Hd. subst d. rewrite <- (fov_radius_cos lon lat). pose proof (fov_radius_range lon lat). split; intros H0.
  - destruct (Req_dec (fov_radius lon lat) v) as [->|]; [lra|]. left. apply cos_decreasing_1; lra.
  - apply Rnot_lt_le. intros Hlt. assert (cos (fov_radius lon lat) < cos v) by (apply cos_decreasing_1; lra). lra.
Qed.
Lemma fov_exists lon lat : fov_distance lon lat (fov_radius lon lat).
Proof. apply fov_radius_spec; auto. Qed.
Definition quarter_sim := mkSim 1000 1 10 100 (-2) 0 (PI / 4).
Lemma cos_small x : Rabs x <= 1 -> 1 - x * x / 2 <= cos x.
Proof.
  intros H. assert (E : cos x = 1 - 2 * (sin (x / 2) * sin (x / 2))).
  { replace (cos x) with (cos (2 * (x / 2))) by (f_equal; lra). rewrite cos_2a_sin. ring. }
  assert (S : sin (x / 2) * sin (x / 2) <= (x / 2) * (x / 2)).
  { apply Rsqr_le_abs_1. destruct (Rle_lt_dec 0 x) as [Hx|Hx].
    - destruct (Req_dec x 0) as [->|]; [unfold Rdiv; rewrite Rmult_0_l, sin_0; lra|].
      assert (0 < x / 2) by lra. pose proof (sin_lt_x (x / 2) H1). pose proof PI_RGT_0. pose proof PI2_3_2.
      rewrite Rabs_right in H by lra. rewrite !Rabs_right; try lra. apply Rle_ge, sin_ge_0; lra.
    - assert (0 < - (x / 2)) by lra. pose proof (sin_lt_x (- (x / 2)) H0). rewrite sin_neg in H1. pose proof PI_RGT_0. pose proof PI2_3_2.
      rewrite Rabs_left in H by lra. assert (0 <= - sin (x / 2)) by (rewrite <- sin_neg; apply sin_ge_0; lra).
      rewrite (Rabs_left (x / 2)) by lra. rewrite Rabs_left1 by lra. lra. }
  lra.
Qed.
Lemma c32_units : exists out out' x,
  calculate_n_showers_3d_lonlat quarter_sim [Fin 1; Fin 10] (PI / 180) (PI / 180) [0; 90] [0; 90] 1 = Ok out /\
  calculate_n_showers_3d_lonlat quarter_sim [Fin 1; Fin 10] 1 1 [0; 90 * (PI / 180)] [0; 90 * (PI / 180)] 1 = Ok out' /\
  entry3 out 0 0 0 (Fin 0) /\ entry3 out' 0 0 0 (Fin x) /\ 0 < x.
Proof.
  pose proof PI_RGT_0 as HP. pose proof PI2_3_2 as HP2. pose proof PI_4 as HP4.
  assert (Hc4 : cos (PI / 4) = 1 / sqrt 2) by apply cos_PI4.
  assert (Hq : cos (PI / 4) * cos (PI / 4) = 1 / 2).
  { rewrite Hc4. pose proof (sqrt_sqrt 2 ltac:(lra)) as S2. pose proof (sqrt_lt_R0 2 ltac:(lra)).
    replace (1 / sqrt 2 * (1 / sqrt 2)) with (1 / (sqrt 2 * sqrt 2)) by (field; lra). rewrite S2. reflexivity. }
  assert (Hcp : 0 < cos (PI / 4)) by (apply cos_gt_0; lra).
  assert (Hc1 : cos (PI / 4) < 1) by nra.
  assert (Hc3 : cos (PI / 4) <= 3/4) by nra.
  assert (Z : forall ul lon, (forall x, In x lon <-> x = 0 \/ x = (PI / 2) / ul) -> 0 < ul ->
    ~ (corners ul ul lon lon (fun d => d <= 0) \/ corners ul ul lon lon (fun d => PI / 4 <= d)) /\
    ~ corners ul ul lon lon (fun d => 0 <= d <= PI / 4)).
  { intros ul lon Hx Hu.
    assert (H90 : fov_distance (PI / 2 / ul * ul) (0 * ul) (fov_radius (PI / 2) 0)).
    { replace (PI / 2 / ul * ul) with (PI / 2) by (field; lra). rewrite Rmult_0_l. apply fov_exists. }
    assert (N90 : ~ fov_radius (PI / 2) 0 <= PI / 4).
    { rewrite (fov_le _ _ _ _ (fov_exists (PI / 2) 0)) by lra. rewrite cos_PI2. lra. }
    split; [intros [Hc|Hc]|intros Hc].
    - apply N90. specialize (Hc (PI / 2 / ul) 0 _ (proj2 (Hx _) (or_intror eq_refl)) (proj2 (Hx _) (or_introl eq_refl)) H90). simpl in Hc. lra.
    - specialize (Hc 0 0 (fov_radius 0 0) (proj2 (Hx _) (or_introl eq_refl)) (proj2 (Hx _) (or_introl eq_refl))).
      rewrite Rmult_0_l in Hc. specialize (Hc (fov_exists 0 0)).
      assert (fov_radius 0 0 <= 0) by (apply (fov_le 0 0 _ 0 (fov_exists 0 0)); [lra|]; rewrite !cos_0; lra). lra.
    - apply N90. specialize (Hc (PI / 2 / ul) 0 _ (proj2 (Hx _) (or_intror eq_refl)) (proj2 (Hx _) (or_introl eq_refl)) H90). simpl in Hc. lra. }
  assert (Nb : forall ul x, 0 < ul -> x * ul = PI / 2 -> near_border 0 (PI / 4) ul ul [0; x] [0; x] 0 x 0 x).
  { intros ul x Hu Hx. exists (fov_radius ((0 + x) / 2 * ul) ((0 + x) / 2 * ul)), (sqrt (Rsqr ((x - 0) * ul) + Rsqr ((x - 0) * ul)) / 2).
    split; [apply fov_exists|]. split; [apply (half_diag ul ul 0 x [] 0 x [])|]. left.
    replace ((0 + x) / 2 * ul) with (PI / 4) by lra. replace ((x - 0) * ul) with (PI / 2) by lra.
    assert (D1 : fov_radius (PI / 4) (PI / 4) <= PI / 2) by (apply (fov_le _ _ _ _ (fov_exists _ _)); [lra|]; rewrite cos_PI2; nra).
    assert (D2 : PI / 4 < fov_radius (PI / 4) (PI / 4)).
    { apply Rnot_le_lt. rewrite (fov_le _ _ _ _ (fov_exists _ _)) by lra. nra. }
    rewrite Rabs_right by lra.
    assert (PI / 2 < sqrt (Rsqr (PI / 2) + Rsqr (PI / 2))).
    { rewrite <- (sqrt_Rsqr (PI / 2)) at 1 by lra. apply sqrt_lt_1; unfold Rsqr; nra. }
    lra. }
  assert (Eb : energy_bin (Fin 1) (Fin 10)) by (split; cbn [nle]; apply Rleb_true; lra).
  assert (Eo : ~ overhangs (energy_min quarter_sim) (energy_max quarter_sim) (Fin 1) (Fin 10)).
  { intros [H1 _]. cbn [quarter_sim energy_min nlt] in H1. apply Rltb_true in H1. lra. }
  assert (K : forall ul x, 0 < ul -> x * ul = PI / 2 -> exists out,
    calculate_n_showers_3d_lonlat quarter_sim [Fin 1; Fin 10] ul ul [0; x] [0; x] 1 = Ok out /\ exists v c,
      0 < v /\ entry3 out 0 0 0 (Fin (c * v)) /\
      (in_ring 0 (PI / 4) (x / 2 * (PI / 180)) (x / 2 * (PI / 180)) -> c = 1) /\
      (~ in_ring 0 (PI / 4) (x / 2 * (PI / 180)) (x / 2 * (PI / 180)) -> c = 0)).
  { intros ul x Hu Hx.
    assert (Hmem : forall y, In y [0; x] <-> y = 0 \/ y = PI / 2 / ul).
    { intros y. simpl. replace (PI / 2 / ul) with x by (rewrite <- Hx; field; lra). intuition. }
    destruct (Z ul [0; x] Hmem Hu) as [Z1 Z2].
    destruct (c32_lonlat_error quarter_sim [Fin 1; Fin 10] ul ul [0; x] [0; x] 1) as [_ Hok]; [simpl; lia|simpl; lia|].
    destruct Hok as [out Hout].
    { intros [_ Hno]. apply (Hno 0%nat 0%nat 0 x 0 x eq_refl eq_refl eq_refl eq_refl). apply Nb; auto. }
    exists out. split; auto.
    destruct (c32_lonlat_exact quarter_sim [Fin 1; Fin 10] ul ul [0; x] [0; x] 1 out) with (k := 0%nat) (i := 0%nat) (j := 0%nat) (e := Fin 1) (e' := Fin 10) (l := 0) (l' := x) (b := 0) (b' := x)
      as (v & c & Hcov & Hshare & Hent); auto; cbn [quarter_sim energy_min energy_max spectral_index viewcone_min viewcone_max n_showers]; try lra; try lia.
    cbn [quarter_sim energy_min energy_max viewcone_min viewcone_max n_showers] in *.
    assert (Hv : v = 1).
    { destruct Hshare as (P & _ & Hne & Heq). unfold into in Heq.
      replace (Rmax 1 (Rmin 10 10)) with 10 in Heq by (unfold Rmax, Rmin; repeat destruct (Rle_dec _ _); lra).
      replace (Rmax 1 (Rmin 10 1)) with 1 in Heq by (unfold Rmax, Rmin; repeat destruct (Rle_dec _ _); lra).
      assert ((v - 1) * (P 10 - P 1) = 0) by lra. apply Rmult_integral in H. destruct H; lra. }
    subst v.
    set (V := IZR 1000 * 1 * (rectangle_sr (0 * ul) (x * ul) (0 * ul) (x * ul) / ring_sr 0 (PI / 4))) in *.
    exists V, c. split; [|split; [exact Hent|]].
    { unfold V, rectangle_sr, ring_sr. rewrite Hx, Rmult_0_l, sin_0, sin_PI2, cos_0.
      apply Rmult_lt_0_compat; [lra|]. apply Rdiv_lt_0_compat; [nra|]. apply Rmult_lt_0_compat; lra. }
    inversion Hcov as [H1|H1 H2|m wl wb H1 H2 H3 H4 H5 H6|c' H1 H2 H3 H4 H5]; subst; try contradiction.
    2:{ exfalso. match goal with H : ~ near_border _ _ _ _ _ _ _ _ _ _ |- _ => apply H end. apply Nb; auto. }
    - cbn [nth seq list_prod map app] in H6. replace (part_centre 0 (x - 0) 1 0) with (x / 2) in H6 by (unfold part_centre; simpl; field).
      cbn [INR]. inversion H6 as [|? ? ? HP6 Hr|? ? ? HP6 Hr]; subst; inversion Hr; subst; cbn [snd fst] in HP6.
      all: replace (part_centre 0 (x - 0) 1 0) with (x / 2) in HP6 by (unfold part_centre; simpl; field).
      all: split; intros Hin; try contradiction; simpl; lra. }
  destruct (K (PI / 180) 90 ltac:(lra) ltac:(lra)) as (out & E1 & v & c & Hv & He & _ & Hc0).
  destruct (K 1 (90 * (PI / 180)) ltac:(lra) ltac:(lra)) as (out' & E2 & v' & c' & Hv' & He' & Hc1' & _).
  exists out, out', v'. split; auto. split; auto.
  rewrite Hc0, Rmult_0_l in He.
  2:{ intros (d & Hd & Hdr). replace (90 / 2 * (PI / 180)) with (PI / 4) in Hd by lra.
      destruct Hdr as [_ Hdr]. apply (fov_le _ _ _ _ Hd) in Hdr; [|lra]. nra. }
  rewrite Hc1', Rmult_1_l in He'; auto.
  set (y := 90 * (PI / 180) / 2 * (PI / 180)). assert (Hy : 0 <= y <= 1/10) by (unfold y; nra). clearbody y.
  assert (Hcy : 1 - y * y / 2 <= cos y) by (apply cos_small; rewrite Rabs_right; lra).
  exists (fov_radius y y). split; [apply fov_exists|]. split; [apply fov_radius_range|].
  apply (fov_le _ _ _ _ (fov_exists y y)); [lra|].
  assert (Hyy : y * y <= 1/100) by nra. assert (Hcy2 : 99/100 <= cos y) by lra. nra.
Qed.
