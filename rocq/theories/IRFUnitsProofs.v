(** * IRFUnitsProofs: instrument responses do not depend on units *)
From Coq Require Import String Reals List Bool ZArith Arith Lia Lra FunctionalExtensionality.
From Verif Require Import Num Numpy Lists Sort Table Binning Utils Simulations Tensor IRF Quantities SpectralUnits SimulationUnits IRFUnits SpecUnits SpecIRFUnits
  SpectralUnitsProofs SpectralUnitsProofs2 SimulationUnitsProofs HistProofs.
Import ListNotations.
Open Scope R_scope.

(** ** columns *)
Lemma find_column (cols : list (string * array_arg)) name c : NoDup (map fst cols) -> In (name, c) cols -> find (fun c => String.eqb (fst c) name) cols = Some (name, c).
Proof.
  induction cols as [|[n a] cols IH]; intros Hd I0; [destruct I0|]. destruct I0 as [E|I].
  - injection E as -> ->. cbn [find fst]. rewrite String.eqb_refl. reflexivity.
  - cbn [find fst]. inversion Hd; subst. destruct (String.eqb_spec n name) as [->|N]; auto. exfalso. apply H1. apply (in_map fst) in I. exact I.
Qed.
Lemma get_column_ok t n name c : has_rows t n -> In (name, c) (qe_columns t) -> get_column t name = Ok c.
Proof. intros (_ & Hd & _) I. unfold get_column. rewrite (find_column _ _ _ Hd I). reflexivity. Qed.
Lemma column_value_ok t n name d k values w : has_rows t n -> has_column t name d k values -> qu_dim w = d -> qu_scale w = k -> column_value t name w = Ok values.
Proof.
  intros Hr (l & u & I & [Ud Us] & ->) Hd Hk. unfold column_value. rewrite (get_column_ok _ _ _ _ Hr I). cbn [rbind array_value qa_unit qa_val].
  rewrite (proj2 (deqb_true _ _)) by congruence. rewrite Hk. reflexivity.
Qed.
Lemma array_value_ok l u d k l' w : numbers d k l u l' -> qu_dim w = d -> qu_scale w = k -> array_value (AQty (mkQA l u)) w = Ok l'.
Proof. intros [[Ud Us] ->] Hd Hk. cbn [array_value qa_unit qa_val]. rewrite (proj2 (deqb_true _ _)) by congruence. rewrite Hk. reflexivity. Qed.
Lemma angle_value_ok l u d k l' w : reals d k l u l' -> qu_dim w = d -> qu_scale w = k -> angle_value (GQty l u) w = Ok l'.
Proof. intros [[Ud Us] ->] Hd Hk. cbn [angle_value]. rewrite (proj2 (deqb_true _ _)) by congruence. rewrite <- Hk. reflexivity. Qed.
Lemma column_length t n name d k values : has_rows t n -> has_column t name d k values -> List.length values = n.
Proof. intros (_ & _ & _ & H & _) (l & u & I & _ & ->). rewrite map_length. eauto. Qed.

(** ** histograms over rows *)
Lemma wsum_ext {A} (w w' : A -> R) p p' l : (forall a, In a l -> w a = w' a /\ p a = p' a) -> wsum w p l = wsum w' p' l.
Proof.
  induction l as [|a l IH]; intros H; [reflexivity|]. rewrite !wsum_cons. destruct (H a (or_introl eq_refl)) as [-> ->]. rewrite IH; auto. intros; apply H; right; auto.
Qed.
Lemma wsum_map {A B} (g : A -> B) (w : B -> R) p l : wsum w p (map g l) = wsum (fun a => w (g a)) (fun a => p (g a)) l.
Proof. induction l as [|a l IH]; [reflexivity|]. cbn [map]. rewrite !wsum_cons, IH. reflexivity. Qed.
Lemma map_nth_seq {A} (l : list A) d : map (fun i => nth i l d) (seq 0 (List.length l)) = l.
Proof.
  induction l as [|a l IH]; [reflexivity|]. cbn [List.length seq map nth]. f_equal. rewrite <- seq_shift, map_map. exact IH.
Qed.
Lemma wsum_rows {A} (w : A -> R) p (l : list A) d : wsum w p l = wsum (fun i => w (nth i l d)) (fun i => p (nth i l d)) (seq 0 (List.length l)).
Proof. rewrite <- (wsum_map (fun i => nth i l d) w p), map_nth_seq. reflexivity. Qed.
Lemma hdd_rows {A} (dims : list ((A -> num) * list num)) (evs : list A) d ix i : (i < List.length evs)%nat ->
  hdd_match (map (fun q => (fun i => nth i (map (fst q) evs) NaN, snd q)) dims) ix i = hdd_match dims ix (nth i evs d).
Proof.
  intros Hi. revert ix. induction dims as [|[f e] dims IH]; intros ix; [reflexivity|]. destruct ix as [|j ix]; [reflexivity|]. cbn [map hdd_match fst snd]. rewrite IH. f_equal. f_equal. f_equal.
  rewrite (nth_indep _ NaN (f d)) by (rewrite map_length; auto). apply map_nth.
Qed.
Lemma rows_hist_ok t (dims : list ((dl2 -> num) * list num)) (w : dl2 -> R) evs : qe_rows t = List.length evs ->
  rows_hist t (map (fun q => (map (fst q) evs, snd q)) dims) (map w evs) = histogramdd dims w evs.
Proof.
  intros Hn. unfold rows_hist. rewrite Hn, map_map. cbn [fst snd]. unfold histogramdd.
  assert (E1 : existsb (fun d : (nat -> num) * list num => match snd d with [] => true | _ => false end) (map (fun q => (fun i => nth i (map (fst q) evs) NaN, snd q)) dims) =
               existsb (fun d : (dl2 -> num) * list num => match snd d with [] => true | _ => false end) dims).
  { induction dims as [|q dims IH]; cbn; [|rewrite IH]; reflexivity. }
  assert (E2 : existsb (fun d : (nat -> num) * list num => decreases (snd d)) (map (fun q => (fun i => nth i (map (fst q) evs) NaN, snd q)) dims) =
               existsb (fun d : (dl2 -> num) * list num => decreases (snd d)) dims).
  { clear E1. induction dims as [|q dims IH]; cbn; [|rewrite IH]; reflexivity. }
  rewrite E1, E2. destruct (existsb _ dims); [reflexivity|]. destruct (existsb _ dims); [reflexivity|]. f_equal. rewrite map_map. f_equal.
  apply functional_extensionality. intros ix. f_equal.
  destruct evs as [|d evs]; [reflexivity|]. rewrite (wsum_rows w _ _ d). apply wsum_ext. intros i Hi. apply in_seq in Hi. split.
  - rewrite (nth_indep _ 0 (w d)) by (rewrite map_length; lia). apply map_nth.
  - apply hdd_rows. lia.
Qed.
Lemma ones_ok t evs : qe_rows t = List.length evs -> ones t = map unweighted evs.
Proof. intros H. unfold ones. rewrite H. clear H. induction evs; cbn; [|rewrite IHevs]; reflexivity. Qed.

(** ** effective areas *)
Lemma nmul_comm_ x y : nmul x y = nmul y x.
Proof. destruct x, y; cbn [nmul]; auto. f_equal. ring. Qed.
Lemma nmul_assoc_pos x a c : 0 < c -> nmul (nmul x (Fin a)) (Fin c) = nmul x (Fin (a * c)).
Proof. intros Hc. rewrite (nmul_comm_ x (Fin a)), nmul_swap by auto. change (nmul (Fin a) (Fin c)) with (Fin (a * c)). apply nmul_comm_. Qed.
Lemma area_ok s q : sim_measures s q -> unit_of area_dim (snd (q_area q)) /\ fst (q_area q) * qu_scale (snd (q_area q)) = impact_area s.
Proof.
  intros (_ & _ & _ & _ & ([Hd Hs] & Ei) & _). unfold q_area, impact_area. cbn [fst snd umul qu_dim qu_scale]. rewrite Ei. split; [|ring]. split.
  - cbn. rewrite Hd. cbn. unfold area_dim, dmul. cbn. f_equal; lra.
  - cbn. apply Rmult_lt_0_compat; auto.
Qed.
Lemma effective_area_ok n m q s : sim_measures s q -> same_outcome area_dim 1 (q_effective_area n m (q_area q)) (effective_area n m (impact_area s)).
Proof.
  intros H. destruct (area_ok s q H) as [[Hd Hs] E]. unfold q_effective_area. rewrite (proj2 (deqb_true _ _)).
  2:{ rewrite Hd. cbn. unfold area_dim, dmul. cbn. f_equal; lra. }
  unfold effective_area. destruct (tbin ndiv n m) as [r|e]; cbn [rbind same_outcome]; auto. split; [split; auto|]. split; auto. intros ix. cbn [tmap at_].
  unfold Rdiv. rewrite Rinv_1, Rmult_1_r. rewrite nmul_assoc_pos by auto. rewrite E. reflexivity.
Qed.
Lemma to_rad_ok l u l' : reals angle_dim one_degree l u l' -> to_rad l' = map (fun x => x * qu_scale u) l.
Proof.
  intros [_ ->]. unfold to_rad. rewrite map_map. apply map_ext. intros x. unfold degree, one_degree. pose proof PI_RGT_0. field. lra.
Qed.
Lemma deg_scale : qu_scale deg = one_degree. Proof. reflexivity. Qed.
Lemma rad_scale : qu_scale rad = 1. Proof. reflexivity. Qed.
Lemma div_1 x : x / 1 = x. Proof. unfold Rdiv. rewrite Rinv_1. ring. Qed.
Ltac cols Hr := repeat match goal with
  | H : has_column ?t ?n ?d ?k _ |- context [column_value ?t ?n ?w] => rewrite (column_value_ok t _ n d k _ w Hr H) by (reflexivity || apply TeV_scale); cbn [rbind]
  | H : numbers ?d ?k ?l ?u _ |- context [array_value (AQty (mkQA ?l ?u)) ?w] => rewrite (array_value_ok l u d k _ w H) by (reflexivity || apply TeV_scale); cbn [rbind]
  | H : reals ?d ?k ?l ?u _ |- context [angle_value (GQty ?l ?u) ?w] => rewrite (angle_value_ok l u d k _ w H) by (reflexivity || apply TeV_scale); cbn [rbind]
  end.
Ltac rows Hr t dims w evs := let E := fresh in pose proof (rows_hist_ok t dims w evs (proj1 Hr)) as E; cbn [map fst snd] in E; rewrite E; clear E.
Theorem c71_area_fov s q t evs ebins u eb fov v fb : sim_measures s q -> has_rows t (List.length evs) ->
  has_column t "true_energy" energy_dim tev (map true_energy evs) -> has_column t "true_source_fov_offset" angle_dim one_degree (map true_fov_offset evs) ->
  numbers energy_dim tev ebins u eb -> reals angle_dim one_degree fov v fb ->
  same_outcome area_dim 1 (q_effective_area_per_energy_and_fov t q (AQty (mkQA ebins u)) (GQty fov v)) (effective_area_per_energy_and_fov evs s eb fb).
Proof.
  intros Hs Hr H1 H2 Hb Hf. unfold q_effective_area_per_energy_and_fov, effective_area_per_energy_and_fov.
  rewrite (c69_per_energy_and_fov s q ebins u fov v Hs (proj1 Hb) (proj1 Hf)), (to_rad_ok _ _ _ Hf), <- (proj2 Hb).
  destruct (calculate_n_showers_per_energy_and_fov _ _ _) as [n|e]; cbn [rbind same_outcome]; auto. cols Hr.
  rewrite (ones_ok t evs) by apply Hr. rows Hr t [(true_energy, eb); (true_fov_offset, map Fin fb)] unweighted evs.
  destruct (histogramdd _ _ _) as [h|e]; cbn [rbind same_outcome]; auto. apply effective_area_ok. auto.
Qed.
Theorem c71_area_polar s q t evs ebins u eb fov v fb pa w pb : sim_measures s q -> has_rows t (List.length evs) ->
  has_column t "true_energy" energy_dim tev (map true_energy evs) -> has_column t "true_source_fov_offset" angle_dim one_degree (map true_fov_offset evs) ->
  has_column t "true_source_fov_position_angle" angle_dim 1 (map true_fov_pa evs) ->
  numbers energy_dim tev ebins u eb -> reals angle_dim one_degree fov v fb -> reals angle_dim 1 pa w pb ->
  same_outcome area_dim 1 (q_effective_area_3d_polar t q (AQty (mkQA ebins u)) (GQty fov v) (GQty pa w)) (effective_area_3d_polar evs s eb fb pb).
Proof.
  intros Hs Hr H1 H2 H3 Hb Hf Hp. unfold q_effective_area_3d_polar, effective_area_3d_polar.
  rewrite (c69_3d_polar s q ebins u fov v pa w Hs (proj1 Hb) (proj1 Hf) (proj1 Hp)), (to_rad_ok _ _ _ Hf), <- (proj2 Hb).
  replace (map (fun x => x * qu_scale w) pa) with pb by (rewrite (proj2 Hp); apply map_ext; intros; rewrite div_1; auto).
  destruct (calculate_n_showers_3d_polar _ _ _ _) as [n|e]; cbn [rbind same_outcome]; auto. cols Hr.
  rewrite (ones_ok t evs) by apply Hr. rows Hr t [(true_energy, eb); (true_fov_offset, map Fin fb); (true_fov_pa, map Fin pb)] unweighted evs.
  destruct (histogramdd _ _ _) as [h|e]; cbn [rbind same_outcome]; auto. apply effective_area_ok. auto.
Qed.

(** ** energy dispersion *)
Lemma migration_ok t n evs : has_rows t n -> has_column t "true_energy" energy_dim tev (map true_energy evs) -> has_column t "reco_energy" energy_dim tev (map reco_energy evs) ->
  (do reco <- get_column t "reco_energy"; do true_ <- get_column t "true_energy"; q_migration reco true_) = Ok (map (fun e => ndiv (reco_energy e) (true_energy e)) evs).
Proof.
  intros Hr (lt & ut & It & Ut & Et) (lr & ur & Ir & Ur & Er). rewrite (get_column_ok _ _ _ _ Hr It), (get_column_ok _ _ _ _ Hr Ir). cbn [rbind q_migration plain_unit qa_val qa_unit].
  destruct (energy_ratio ur ut Ur Ut) as [D S]. rewrite (proj2 (deqb_true _ _)) by exact D. f_equal. rewrite S.
  transitivity (zipwith ndiv (map (fun x => nmul x (Fin (qu_scale ur / tev))) lr) (map (fun x => nmul x (Fin (qu_scale ut / tev))) lt)).
  - rewrite zipwith_map2. f_equal. do 2 (apply functional_extensionality; intros ?). apply div_convert; apply Rdiv_lt_0_compat; try apply tev_pos; [apply Ur|apply Ut].
  - rewrite <- Et, <- Er. apply zipwith_maps.
Qed.
Theorem c71_dispersion t evs ebins u eb fov v fb mb : has_rows t (List.length evs) ->
  has_column t "true_energy" energy_dim tev (map true_energy evs) -> has_column t "reco_energy" energy_dim tev (map reco_energy evs) ->
  has_column t "true_source_fov_offset" angle_dim one_degree (map true_fov_offset evs) ->
  numbers energy_dim tev ebins u eb -> numbers angle_dim one_degree fov v fb ->
  q_energy_dispersion t (AQty (mkQA ebins u)) (AQty (mkQA fov v)) mb = energy_dispersion evs eb fb mb.
Proof.
  intros Hr H1 H2 H3 Hb Hf. unfold q_energy_dispersion, energy_dispersion. pose proof (migration_ok t _ evs Hr H1 H2) as Em.
  destruct (get_column t "reco_energy") as [r|]; cbn [rbind] in *; [|discriminate]. destruct (get_column t "true_energy") as [tr|]; cbn [rbind] in *; [|discriminate].
  rewrite Em. cbn [rbind]. cols Hr. rewrite (ones_ok t evs) by apply Hr.
  rows Hr t [(true_energy, eb); (fun e => ndiv (reco_energy e) (true_energy e), mb); (true_fov_offset, fb)] unweighted evs. reflexivity.
Qed.
Theorem c71_migration t evs ebins u eb rbins w rb fov v fb : has_rows t (List.length evs) ->
  has_column t "true_energy" energy_dim tev (map true_energy evs) -> has_column t "reco_energy" energy_dim tev (map reco_energy evs) ->
  has_column t "true_source_fov_offset" angle_dim one_degree (map true_fov_offset evs) ->
  numbers energy_dim tev ebins u eb -> numbers energy_dim tev rbins w rb -> numbers angle_dim one_degree fov v fb ->
  q_energy_migration_matrix t (AQty (mkQA ebins u)) (AQty (mkQA rbins w)) (AQty (mkQA fov v)) = energy_migration_matrix evs eb rb fb.
Proof.
  intros Hr H1 H2 H3 Hb Hc Hf. unfold q_energy_migration_matrix, energy_migration_matrix.
  assert (I : forall l u d l' k w, numbers d k l u l' -> qu_dim w = d -> array_input w (AQty (mkQA l u)) = Ok (mkQA l u)).
  { intros l u' d l' k w' [[D _] _] E. cbn [array_input qa_unit]. rewrite (proj2 (deqb_true _ _)) by congruence. reflexivity. }
  rewrite (I _ _ _ _ _ TeV Hb), (I _ _ _ _ _ TeV Hc), (I _ _ _ _ _ deg Hf) by reflexivity. cbn [rbind]. cols Hr. rewrite (ones_ok t evs) by apply Hr.
  rows Hr t [(true_energy, eb); (reco_energy, rb); (true_fov_offset, fb)] unweighted evs. reflexivity.
Qed.

(** ** point spread function *)
Lemma solid_angles_ok l u l' : reals angle_dim one_degree l u l' -> q_solid_angles l u = ndiff (map (fun d => Fin (cone_solid_angle (d * degree))) l').
Proof.
  intros [_ ->]. unfold q_solid_angles. f_equal. rewrite map_map. apply map_ext. intros x. do 2 f_equal. unfold in_unit. cbn [fst snd]. rewrite rad_scale, div_1. unfold degree, one_degree. pose proof PI_RGT_0. field. lra.
Qed.
Theorem c71_psf t evs ebins u eb src w sb fov v fb : has_rows t (List.length evs) ->
  has_column t "true_energy" energy_dim tev (map true_energy evs) -> has_column t "true_source_fov_offset" angle_dim one_degree (map true_fov_offset evs) ->
  has_column t "theta" angle_dim one_degree (map theta evs) ->
  numbers energy_dim tev ebins u eb -> reals angle_dim one_degree src w sb -> numbers angle_dim one_degree fov v fb ->
  same_outcome per_solid_angle_dim 1 (q_psf_table t (AQty (mkQA ebins u)) (GQty src w) (AQty (mkQA fov v))) (psf_table evs eb sb fb).
Proof.
  intros Hr H1 H2 H3 Hb Hs Hf. unfold q_psf_table, psf_table. cols Hr. rewrite (ones_ok t evs) by apply Hr.
  rows Hr t [(true_energy, eb); (true_fov_offset, fb); (theta, map Fin sb)] unweighted evs.
  destruct (histogramdd _ _ _) as [h|e]; cbn [rbind same_outcome]; auto. unfold q_normalize_psf, normalize_psf. rewrite (solid_angles_ok _ _ _ Hs).
  destruct (tbin ndiv h _) as [p|e]; cbn [rbind same_outcome]; auto. destruct (tbin ndiv (tmap default_nan_to_num p) _) as [r|e]; cbn [rbind same_outcome]; auto.
  split; [split|]. { unfold udiv. cbn. unfold per_solid_angle_dim, dmul, dpow. cbn. f_equal; lra. } { cbn. lra. }
  split; auto. intros ix. replace (qu_scale (udiv one_ sr) / 1) with 1 by (cbn; lra). destruct (at_ r ix); cbn; auto; [f_equal; lra|rewrite inf_signed_pos by lra; auto..].
Qed.

(** ** effective area per energy *)
Definition hist_error (edges : list num) : option exn := if decreases edges then Some ValueError else None.
Lemma hist_columns_gen evs hw edges : hist_columns evs hw edges = match hist_error edges with Some e => Err e | None => Ok (diffZ (cum_counts ev_x evs edges), weighted_col evs hw edges) end.
Proof.
  unfold hist_columns, np_histogram, np_histogram_w, hist_error, weighted_col. destruct (decreases edges); [reflexivity|]. destruct hw; reflexivity.
Qed.
Lemma add_groups_gen evs hw edges keys hist : hist_error edges = None -> add_groups evs hw edges keys hist = Ok (add_groups_pure evs hw edges keys hist).
Proof. intros H. revert hist. induction keys as [|p keys IH]; intros; auto. cbn [add_groups]. rewrite hist_columns_gen, H. cbn [rbind fst snd]. apply IH. Qed.
Lemma create_histogram_gen ev edges key : create_histogram_table ev edges key = match hist_error edges with Some e => Err e | None => Ok (hist_table ev edges key) end.
Proof.
  unfold create_histogram_table, hist_table. rewrite hist_columns_gen. destruct (hist_error edges) eqn:E; [reflexivity|]. cbn [rbind fst snd].
  destruct (et_has_ptype ev && _); [|reflexivity]. apply add_groups_gen. auto.
Qed.
Definition sc (c : R) (x : num) : num := nmul x (Fin c).
Lemma is_nan_sc c x : 0 < c -> is_nan (sc c x) = is_nan x.
Proof. intros H. unfold sc. destruct x; cbn [nmul]; rewrite ?inf_signed_pos by auto; reflexivity. Qed.
Lemma np_lt_sc c a b : 0 < c -> np_lt (sc c a) (sc c b) = np_lt a b.
Proof. intros H. unfold np_lt. rewrite !is_nan_sc by auto. unfold sc. rewrite nlt_scale by auto. reflexivity. Qed.
Lemma decreases_sc c l : 0 < c -> decreases (map (sc c) l) = decreases l.
Proof. intros H. induction l as [|a l IH]; [reflexivity|]. destruct l as [|b l]; [reflexivity|]. cbn [map decreases] in *. rewrite IH. f_equal. unfold ngt, sc. apply nlt_scale. auto. Qed.
Lemma hist_error_sc c l : 0 < c -> hist_error (map (sc c) l) = hist_error l.
Proof. intros H. unfold hist_error. rewrite decreases_sc by auto. reflexivity. Qed.
Lemma last_sc c l : last (map (sc c) l) NaN = sc c (last l NaN).
Proof. induction l as [|a l IH]; [reflexivity|]. destruct l as [|b l]; [reflexivity|]. cbn [map last] in *. exact IH. Qed.
Lemma count_map_ext {A B} (f : A -> B) (p : B -> bool) (q : A -> bool) l : (forall a, p (f a) = q a) -> count p (map f l) = count q l.
Proof. intros H. unfold count. induction l as [|a l IH]; [reflexivity|]. cbn [map filter]. rewrite H. destruct (q a); cbn [List.length]; congruence. Qed.
Lemma cum_counts_values {A} (x : A -> num) evs edges : cum_counts x evs edges = cum_counts (fun v => v) (map x evs) edges.
Proof.
  unfold cum_counts. f_equal; [|f_equal]; [apply map_ext; intros e|]; do 1 f_equal; symmetry; apply count_map_ext; reflexivity.
Qed.
Lemma cum_counts_sc c l edges : 0 < c -> cum_counts (fun v => v) (map (sc c) l) (map (sc c) edges) = cum_counts (fun v => v) l edges.
Proof.
  intros H. unfold cum_counts. rewrite but_last_map, map_map, last_sc. f_equal; [|f_equal]; [apply map_ext; intros e|]; do 1 f_equal; apply count_map_ext; intros a; rewrite np_lt_sc by auto; reflexivity.
Qed.
Lemma map_sc_sc c d l : 0 < c -> 0 < d -> map (sc d) (map (sc c) l) = map (sc (c * d)) l.
Proof. intros. rewrite map_map. apply map_ext. intros x. unfold sc. apply nmul_assoc_fin; auto. Qed.
Theorem c71_area_energy s q t events bins u b : sim_measures s q -> has_rows t (List.length (et_rows events)) ->
  has_column t "true_energy" energy_dim tev (map ev_x (et_rows events)) -> numbers energy_dim tev bins u b ->
  same_outcome area_dim 1 (q_effective_area_per_energy t q (AQty (mkQA bins u))) (effective_area_per_energy events s b).
Proof.
  intros Hs Hr (l & v & I & [Dv Sv] & El) [[Du Su] ->]. unfold q_effective_area_per_energy, effective_area_per_energy, q_histogram_table.
  rewrite (get_column_ok _ _ _ _ Hr I). cbn [rbind plain_unit qa_val qa_unit]. rewrite (proj2 (deqb_true _ _)) by congruence.
  rewrite !create_histogram_gen. pose proof tev_pos as TP.
  change (fun e => nmul e (Fin (qu_scale u / qu_scale v))) with (sc (qu_scale u / qu_scale v)). change (fun x => nmul x (Fin (qu_scale u / tev))) with (sc (qu_scale u / tev)).
  rewrite !hist_error_sc by (apply Rdiv_lt_0_compat; auto). destruct (hist_error bins); cbn [rbind same_outcome]; auto.
  rewrite (c69_per_energy s q bins u Hs (conj Du Su)). cbn [rbind]. rewrite !hist_n. cbn [et_rows].
  assert (E : cum_counts ev_x (et_rows events) (map (sc (qu_scale u / tev)) bins) =
    cum_counts ev_x (map (fun i => mkEvent (nth i l NaN) (match qe_weight t with Some w => nth i w 0 | None => 0 end) (nth_string (qe_ptype t) i)) (seq 0 (qe_rows t))) (map (sc (qu_scale u / qu_scale v)) bins)).
  { rewrite (cum_counts_values ev_x (et_rows events)), El. change (fun x => nmul x (Fin (qu_scale v / tev))) with (sc (qu_scale v / tev)).
    replace (map (sc (qu_scale u / tev)) bins) with (map (sc (qu_scale v / tev)) (map (sc (qu_scale u / qu_scale v)) bins)).
    2:{ rewrite map_sc_sc by (apply Rdiv_lt_0_compat; auto). replace (qu_scale u / qu_scale v * (qu_scale v / tev)) with (qu_scale u / tev) by (field; lra). reflexivity. }
    rewrite cum_counts_sc by (apply Rdiv_lt_0_compat; auto). rewrite (cum_counts_values ev_x). rewrite map_map. cbn [ev_x]. f_equal.
    destruct Hr as (R1 & _ & _ & R2 & _). rewrite R1, <- (R2 _ _ _ I). symmetry. apply map_nth_seq. }
  rewrite E. apply effective_area_ok. auto.
Qed.

(** ** background *)
Lemma nmul_1 x : nmul x (Fin 1) = x.
Proof. destruct x; cbn [nmul]; rewrite ?inf_signed_pos by lra; auto. f_equal. lra. Qed.
Lemma nsub_sc c a b : 0 < c -> nsub (sc c a) (sc c b) = sc c (nsub a b).
Proof.
  intros H. unfold sc, nsub. destruct a, b; cbn [nmul nneg nadd]; rewrite ?inf_signed_pos by auto; cbn [nneg nadd nmul]; rewrite ?inf_signed_pos by auto; auto. f_equal. ring.
Qed.
Lemma ndiff_sc c l : 0 < c -> ndiff (map (sc c) l) = map (sc c) (ndiff l).
Proof.
  intros H. unfold ndiff. rewrite but_last_map, tl_map. generalize (but_last l) (tl l). intros a. induction a as [|x a IH]; intros [|y b]; cbn [map zipwith]; auto.
  rewrite IH, nsub_sc by auto. reflexivity.
Qed.
Lemma vec_sc c l ix : at_ (vec (map (sc c) l)) ix = sc c (at_ (vec l) ix).
Proof.
  cbn [vec at_]. destruct ix as [|i [|? ?]]; auto. revert i. induction l as [|a l IH]; intros [|i]; cbn [map nth]; auto.
Qed.
Lemma rate_convert x w obs om a st : 0 < a -> 0 < st ->
  nmul (ndiv (ndiv (ndiv x w) (Fin obs)) om) (Fin (/ a / st)) = ndiv (ndiv (ndiv x (sc a w)) (Fin (obs * st))) om.
Proof.
  intros Ha Hst. unfold sc. assert (Hi : 0 < / a) by (apply Rinv_0_lt_compat; auto). assert (Hj : 0 < / a / st) by (apply Rdiv_lt_0_compat; auto).
  rewrite <- (nmul_1 x) at 2. rewrite <- div_convert by lra. change (Fin (obs * st)) with (nmul (Fin obs) (Fin st)).
  replace (1 / a) with (/ a) by (field; lra). rewrite <- div_convert by auto. rewrite <- (nmul_1 om) at 2. rewrite <- div_convert by lra. rewrite div_1. reflexivity.
Qed.
Lemma bg_unit u ut : unit_of energy_dim u -> unit_of time_dim ut ->
  qu_dim (udiv (udiv (udiv one_ u) ut) sr) = qu_dim BACKGROUND_UNIT /\
  qu_scale (udiv (udiv (udiv one_ u) ut) sr) / qu_scale BACKGROUND_UNIT = / (qu_scale u / tev) / qu_scale ut.
Proof.
  intros [D1 S1] [D2 S2]. pose proof tev_pos. split.
  - unfold BACKGROUND_UNIT, udiv. cbn. rewrite D1, D2. unfold dmul, dpow. cbn. f_equal; lra.
  - unfold BACKGROUND_UNIT, udiv. cbn [qu_scale one_ sr second]. rewrite TeV_scale. field. repeat split; lra.
Qed.
Lemma bg_ok : unit_of background_dim BACKGROUND_UNIT /\ qu_scale BACKGROUND_UNIT / (/ tev) = 1.
Proof.
  pose proof tev_pos. assert (E : qu_scale BACKGROUND_UNIT = / tev) by (unfold BACKGROUND_UNIT, udiv; cbn [qu_scale one_ sr second]; rewrite TeV_scale; field; lra).
  split; [split|].
  - unfold BACKGROUND_UNIT, udiv, background_dim. cbn. unfold dmul, dpow. cbn. f_equal; lra.
  - rewrite E. apply Rinv_0_lt_compat; auto.
  - rewrite E. field. lra.
Qed.
Lemma to_background_ok x u ut b : unit_of energy_dim u -> unit_of time_dim ut -> shape x = shape b ->
  (forall ix, nmul (at_ x ix) (Fin (/ (qu_scale u / tev) / qu_scale ut)) = at_ b ix) ->
  same_outcome background_dim (/ tev) (to_background_unit x (udiv (udiv (udiv one_ u) ut) sr)) (Ok b).
Proof.
  intros Hu Ht Hsh Hx. destruct (bg_unit u ut Hu Ht) as [D S]. destruct bg_ok as [B1 B2]. unfold to_background_unit. rewrite (proj2 (deqb_true _ _) D). cbn [same_outcome].
  split; auto. split; auto. intros ix. cbn [tmap at_]. rewrite B2, S, Hx. apply nmul_1.
Qed.
Theorem c71_background_2d t evs ebins u eb fov v fb obs ut tobs : has_rows t (List.length evs) ->
  has_column t "reco_energy" energy_dim tev (map reco_energy evs) -> has_column t "reco_source_fov_offset" angle_dim one_degree (map reco_fov_offset evs) ->
  qe_weight t = Some (map weight evs) ->
  numbers energy_dim tev ebins u eb -> reals angle_dim one_degree fov v fb -> in_si time_dim obs ut tobs ->
  same_outcome background_dim (/ tev) (q_background_2d t (AQty (mkQA ebins u)) (GQty fov v) (FQty obs ut)) (background_2d evs eb fb tobs).
Proof.
  intros Hr H1 H2 Hw Hb Hf [Ht ->]. unfold q_background_2d, background_2d. cols Hr. unfold get_weight. rewrite Hw. cbn [rbind].
  rows Hr t [(reco_energy, eb); (reco_fov_offset, map Fin fb)] weight evs.
  destruct (histogramdd _ _ _) as [h|e]; cbn [rbind same_outcome]; auto. rewrite (solid_angles_ok _ _ _ Hf). cbn [qa_val qa_unit fin_unit].
  set (om := ndiff (map (fun d => Fin (cone_solid_angle (d * degree))) fb)).
  assert (Pa : 0 < qu_scale u / tev) by (apply Rdiv_lt_0_compat; [apply Hb|apply tev_pos]).
  rewrite (proj2 Hb). change (fun x => nmul x (Fin (qu_scale u / tev))) with (sc (qu_scale u / tev)). rewrite ndiff_sc by auto.
  unfold tbin at 1 3. cbn [vec shape]. rewrite map_length. destruct (bshape (shape (transpose2 h)) [List.length (ndiff ebins)]) as [sh|]; cbn [rbind same_outcome]; auto.
  unfold tbin. cbn [shape transpose2 tmap vec]. destruct (bshape (rev sh) [List.length om]) as [sh'|]; cbn [rbind same_outcome]; auto.
  apply to_background_ok; auto; [apply Hb|]. intros ix. cbn [at_ transpose2 tmap shape]. rewrite (vec_sc _ (ndiff ebins)). apply rate_convert; auto. apply Ht.
Qed.
Lemma rectangles_ok lon ulon lo lat ulat la : reals angle_dim one_degree lon ulon lo -> reals angle_dim one_degree lat ulat la ->
  q_rectangle_solid_angles lon ulon lat ulat = rectangle_solid_angles lo la.
Proof.
  intros [_ ->] [_ ->]. unfold q_rectangle_solid_angles, rectangle_solid_angles. rewrite !but_last_map, !tl_map, !zipwith_map2. pose proof PI_RGT_0. f_equal; do 3 f_equal; do 2 (apply functional_extensionality; intros ?);
    unfold in_unit; cbn [fst snd]; rewrite rad_scale, !div_1; unfold degree, one_degree; [|do 2 f_equal]; field; lra.
Qed.
Theorem c71_background_3d t evs ebins u eb lon v lo lat v' la obs ut tobs : has_rows t (List.length evs) ->
  has_column t "reco_energy" energy_dim tev (map reco_energy evs) -> has_column t "reco_source_fov_lon" angle_dim one_degree (map reco_fov_lon evs) ->
  has_column t "reco_source_fov_lat" angle_dim one_degree (map reco_fov_lat evs) -> qe_weight t = Some (map weight evs) ->
  numbers energy_dim tev ebins u eb -> reals angle_dim one_degree lon v lo -> reals angle_dim one_degree lat v' la -> in_si time_dim obs ut tobs ->
  same_outcome background_dim (/ tev) (q_background_3d_lonlat t (AQty (mkQA ebins u)) (GQty lon v) (GQty lat v') (FQty obs ut)) (background_3d_lonlat evs eb lo la tobs).
Proof.
  intros Hr H1 H2 H3 Hw Hb Hf Hg [Ht ->]. unfold q_background_3d_lonlat, background_3d_lonlat. cols Hr. unfold get_weight. rewrite Hw. cbn [rbind].
  rows Hr t [(reco_energy, eb); (reco_fov_lon, map Fin lo); (reco_fov_lat, map Fin la)] weight evs.
  destruct (histogramdd _ _ _) as [h|e]; cbn [rbind same_outcome]; auto. rewrite (rectangles_ok _ _ _ _ _ _ Hf Hg). cbn [qa_val qa_unit fin_unit].
  assert (Pa : 0 < qu_scale u / tev) by (apply Rdiv_lt_0_compat; [apply Hb|apply tev_pos]).
  rewrite (proj2 Hb). change (fun x => nmul x (Fin (qu_scale u / tev))) with (sc (qu_scale u / tev)). rewrite ndiff_sc by auto.
  unfold tbin at 1 3. cbn [vec newaxis insert_at shape]. rewrite map_length. destruct (bshape (shape h) _) as [sh|]; cbn [rbind same_outcome]; auto.
  destruct (rectangle_solid_angles lo la) as [om|e]; cbn [rbind same_outcome]; auto.
  unfold tbin. cbn [shape tmap]. destruct (bshape sh (shape om)) as [sh'|]; cbn [rbind same_outcome]; auto.
  apply to_background_ok; auto; [apply Hb|]. intros ix. cbn [at_ tmap shape newaxis]. rewrite (vec_sc _ (ndiff ebins)). apply rate_convert; auto. apply Ht.
Qed.

(** ** energy dispersion to migration *)
Lemma all_fin_map l : all_fin (map Fin l) = Some l.
Proof. induction l as [|a l IH]; cbn; [|rewrite IH]; reflexivity. Qed.
Lemma nan_to_num_fins p n l : map (nan_to_num p n) (map Fin l) = map Fin l.
Proof. rewrite map_map. reflexivity. Qed.
Lemma strictly_sc c l : 0 < c -> strictly_increasing (map (fun x => x * c) l) = strictly_increasing l.
Proof. intros H. induction l as [|a l IH]; [reflexivity|]. destruct l as [|b l]; [reflexivity|]. cbn [map strictly_increasing] in *. rewrite IH, scale_lt by auto. reflexivity. Qed.
Lemma last_map_R c l : last (map (fun x => x * c) l) 0 = last l 0 * c.
Proof. induction l as [|a l IH]; [cbn; lra|]. destruct l as [|b l]; [reflexivity|]. cbn [map last] in *. exact IH. Qed.
Lemma f_integral_sc itp c xs ys x : scale_free itp -> 0 < c -> f_integral itp (map (fun x => x * c) xs) ys (x * c) = f_integral itp xs ys x.
Proof.
  intros Hi H. unfold f_integral. rewrite last_map_R, Hi by auto. replace (hd 0 (map (fun x => x * c) xs)) with (hd 0 xs * c) by (destruct xs; cbn; lra). rewrite !scale_lt by auto. reflexivity.
Qed.
Lemma resample_fins itp b data old new : resample_histogram1d itp b data (map Fin old) (map Fin new) =
  if Nat.ltb (List.length old) 2 then Err IndexError else
  let norm := if Reqb (rsum data) 0 then 1 else rsum data in
  let ys := map (fun c => c / norm) (cumsum0 0 data) in
  if b then Err TypeError else
  if negb (Nat.eqb (List.length old) (List.length ys)) then Err ValueError
  else if Nat.ltb (List.length old) 3 then Err ValueError
  else if negb (strictly_increasing (map fst (knots old ys))) then Err ValueError
  else Ok (map (fun d => d * norm) (diffR (map (f_integral itp (map fst (knots old ys)) (map snd (knots old ys))) new))).
Proof.
  unfold resample_histogram1d. rewrite map_length. destruct (Nat.ltb_spec (List.length old) 2) as [L|L].
  - destruct old as [|a [|? ?]]; cbn in L; try lia; reflexivity.
  - destruct (nth_some_ex (map Fin old) 1) as [e1 ->]; [rewrite map_length; lia|]. destruct (nth_some_ex (map Fin old) (List.length old - 2)) as [e2 ->]; [rewrite map_length; lia|].
    rewrite !nan_to_num_fins, !all_fin_map. reflexivity.
Qed.
Lemma insert_sc c (p : R * R) l : 0 < c -> insert (fun p q => Rleb (fst p) (fst q)) (fst p * c, snd p) (map (fun q => (fst q * c, snd q)) l) =
  map (fun q => (fst q * c, snd q)) (insert (fun p q => Rleb (fst p) (fst q)) p l).
Proof.
  intros H. induction l as [|q l IH]; [reflexivity|]. cbn [map insert fst]. replace (Rleb (fst p * c) (fst q * c)) with (Rleb (fst p) (fst q)).
  - destruct (Rleb (fst p) (fst q)); [reflexivity|]. cbn [map]. rewrite IH. reflexivity.
  - destruct (Rleb_spec (fst p) (fst q)) as [L|L]; symmetry; [apply Rleb_true; apply Rmult_le_compat_r; lra|apply Rleb_false; apply Rmult_lt_compat_r; lra].
Qed.
Lemma knots_sc c xs ys : 0 < c -> knots (map (fun x => x * c) xs) ys = map (fun q => (fst q * c, snd q)) (knots xs ys).
Proof.
  intros H. unfold knots. revert ys. induction xs as [|x xs IH]; intros [|y ys]; try reflexivity. cbn [map combine isort]. rewrite IH.
  apply (insert_sc c (x, y)); auto.
Qed.
Lemma resample_sc itp data c old new : scale_free itp -> 0 < c ->
  resample_histogram1d itp false data (map Fin (map (fun x => x * c) old)) (map Fin (map (fun x => x * c) new)) = resample_histogram1d itp false data (map Fin old) (map Fin new).
Proof.
  intros Hi H. rewrite !resample_fins, !map_length. cbv zeta. set (ys := map (fun c => c / _) _). rewrite !knots_sc by auto.
  rewrite (map_map _ fst), (map_map _ snd). cbn [fst snd]. rewrite <- (map_map fst (fun x => x * c)). rewrite strictly_sc by auto.
  set (kx := map fst (knots old ys)). change (map (fun x => snd x) (knots old ys)) with (map snd (knots old ys)). set (ky := map snd (knots old ys)).
  replace (map (f_integral itp (map (fun x => x * c) kx) ky) (map (fun x => x * c) new)) with (map (f_integral itp kx ky) new); [reflexivity|].
  rewrite map_map. apply map_ext. intros x. symmetry. apply f_integral_sc; auto.
Qed.
Lemma rmap_ext_in {A B} (f g : A -> res B) l : (forall a, In a l -> f a = g a) -> rmap f l = rmap g l.
Proof. induction l as [|a l IH]; intros H; [reflexivity|]. cbn [rmap]. rewrite H by (left; auto). rewrite IH; auto. intros; apply H; right; auto. Qed.
Lemma rmap_map {A B C} (h : A -> B) (f : B -> res C) l : rmap f (map h l) = rmap (fun a => f (h a)) l.
Proof. induction l as [|a l IH]; [reflexivity|]. cbn [map rmap]. rewrite IH. reflexivity. Qed.
Lemma combine_map_r {A B C} (f : B -> C) (a : list A) b : combine a (map f b) = map (fun p => (fst p, f (snd p))) (combine a b).
Proof. revert b. induction a as [|x a IH]; intros [|y b]; cbn; auto. rewrite IH. reflexivity. Qed.
Lemma q_resample_ok itp data old u new v c : qu_dim u = qu_dim v -> scale_free itp -> 0 < c ->
  q_resample itp data (old, u) (map Fin new, v) = resample_histogram1d itp false data (map Fin (map (fun x => x * (qu_scale u / qu_scale v) * c) old)) (map Fin (map (fun x => x * c) new)).
Proof.
  intros D Hi Hc. unfold q_resample. cbn [fst snd]. rewrite (proj2 (deqb_true _ _) D).
  replace (map (fun x => x * (qu_scale u / qu_scale v) * c) old) with (map (fun x => x * c) (map (fun x => x * (qu_scale u / qu_scale v)) old)) by (rewrite map_map; reflexivity).
  rewrite resample_sc by auto. rewrite map_map. reflexivity.
Qed.
Theorem c71_to_migration itp disp nt nm nf de ud de' mig ne un ne' re ur re' : scale_free itp ->
  reals energy_dim tev de ud de' -> reals energy_dim tev ne un ne' -> reals energy_dim tev re ur re' -> (forall e, In e ne -> 0 < e) ->
  q_energy_dispersion_to_migration itp disp nt nm nf (de, ud) mig (ne, un) (re, ur) = energy_dispersion_to_migration itp disp nt nm nf de' mig ne' re'.
Proof.
  intros Hi [[D1 S1] ->] [[D2 S2] ->] [[D3 S3] ->] Hpos. pose proof tev_pos as TP. unfold q_energy_dispersion_to_migration, energy_dispersion_to_migration. cbn [fst snd]. cbv zeta.
  set (P := fun i j k => disp i j k * nth j (diffR mig) 0).
  assert (E1 : rmap (fun k => rmap (fun j => q_resample itp (map (fun i => P i j k) (seq 0 nt)) (de, ud) (map Fin ne, un)) (seq 0 nm)) (seq 0 nf) =
    rmap (fun k => rmap (fun j => resample_histogram1d itp false (map (fun i => P i j k) (seq 0 nt)) (map Fin (map (fun x => x * (qu_scale ud / tev)) de)) (map Fin (map (fun x => x * (qu_scale un / tev)) ne))) (seq 0 nm)) (seq 0 nf)).
  { apply rmap_ext_in. intros k _. apply rmap_ext_in. intros j _. rewrite (q_resample_ok _ _ _ _ _ _ (qu_scale un / tev)); [|congruence|auto|apply Rdiv_lt_0_compat; auto].
    f_equal. f_equal. apply map_ext. intros x. field. lra. }
  unfold P in E1. rewrite E1. clear E1. destruct (rmap _ (seq 0 nf)) as [tei|e]; cbn [rbind]; auto.
  rewrite !but_last_map, !tl_map, zipwith_map2.
  replace (zipwith (fun a b => (b * (qu_scale un / tev) + a * (qu_scale un / tev)) / 2) (but_last ne) (tl ne)) with (map (fun x => x * (qu_scale un / tev)) (zipwith (fun a b => (b + a) / 2) (but_last ne) (tl ne))).
  2:{ generalize (but_last ne) (tl ne). intros a. induction a as [|x a IH]; intros [|y b]; cbn [zipwith map]; auto. rewrite IH. f_equal. field. lra. }
  set (cs := zipwith (fun a b => (b + a) / 2) (but_last ne) (tl ne)).
  assert (Cp : forall e, In e cs -> 0 < e).
  { unfold cs. intros e He. assert (Z : forall a b, (forall x, In x a -> 0 < x) -> (forall x, In x b -> 0 < x) -> forall e, In e (zipwith (fun a b => (b + a) / 2) a b) -> 0 < e).
    { intros a. induction a as [|x a IH]; intros [|y b] Ha Hb e' I; cbn [zipwith] in I; try contradiction. destruct I as [<-|I]; [pose proof (Ha x (or_introl eq_refl)); pose proof (Hb y (or_introl eq_refl)); lra|].
      apply (IH b); auto; intros; [apply Ha|apply Hb]; right; auto. }
    apply (Z (but_last ne) (tl ne)); auto; intros x Ix; apply Hpos; [|destruct ne; [auto|right; auto]]. clear -Ix. induction ne as [|a ne IH]; [auto|]. destruct ne as [|b ne]; [destruct Ix|]. destruct Ix as [<-|Ix]; [left; auto|right; auto]. }
  rewrite map_length, combine_map_r, rmap_map. apply rmap_ext_in. intros [idx e] Ie. cbn [fst snd]. apply in_combine_r in Ie. specialize (Cp e Ie).
  apply rmap_ext_in. intros rows _. set (col := map (fun v => v / _) _).
  assert (Hk : 0 < qu_scale ur / qu_scale un) by (apply Rdiv_lt_0_compat; auto).
  replace (map (fun r => ndiv (Fin r) (Fin e)) re) with (map Fin (map (fun r => r / e) re)) by (rewrite map_map; apply map_ext; intros r; cbn [ndiv]; rewrite (proj2 (Reqb_false e 0)) by lra; reflexivity).
  rewrite (q_resample_ok _ _ _ _ _ _ (qu_scale ur / qu_scale un)); auto.
  2:{ unfold udiv. cbn [qu_dim one_]. rewrite D2, D3. unfold dnone, dmul, dpow, energy_dim. cbn. f_equal; lra. }
  f_equal.
  - f_equal. rewrite <- (map_id mig) at 2. apply map_ext. intros x. unfold udiv. cbn [qu_scale one_]. field. lra.
  - rewrite !map_map. apply map_ext. intros r. cbn [ndiv]. rewrite (proj2 (Reqb_false _ 0)). { f_equal. field. lra. }
    assert (0 < e * (qu_scale un / tev)) by (apply Rmult_lt_0_compat; auto; apply Rdiv_lt_0_compat; auto). lra.
Qed.

(** ** what is accepted *)
Lemma column_value_inv t name w v : column_value t name w = Ok v -> with_dimension t name (qu_dim w).
Proof.
  unfold column_value, get_column. destruct (find _ (qe_columns t)) as [[n c]|] eqn:F; cbn [rbind snd]; [|discriminate]. apply find_some in F as [I E]. cbn [fst] in E. apply String.eqb_eq in E as ->.
  destruct c as [l|[l u]]; cbn [array_value qa_unit]; [discriminate|]. destruct (deqb (qu_dim u) (qu_dim w)) eqn:D; [|discriminate]. intros _. exists l, u. split; auto. apply deqb_true. auto.
Qed.
Lemma array_value_inv a w v : array_value a w = Ok v -> array_of (qu_dim w) a.
Proof. destruct a as [l|[l u]]; cbn [array_value qa_unit]; [discriminate|]. destruct (deqb (qu_dim u) (qu_dim w)) eqn:D; [|discriminate]. intros _. exists l, u. split; auto. apply deqb_true. auto. Qed.
Lemma angle_value_inv a w v : angle_value a w = Ok v -> angles_of (qu_dim w) a.
Proof. destruct a as [l|l u]; cbn [angle_value]; [discriminate|]. destruct (deqb (qu_dim u) (qu_dim w)) eqn:D; [|discriminate]. intros _. exists l, u. split; auto. apply deqb_true. auto. Qed.
Lemma array_input_inv a w v : array_input w a = Ok v -> array_of (qu_dim w) a /\ AQty v = a.
Proof. destruct a as [l|[l u]]; cbn [array_input qa_unit]; [discriminate|]. destruct (deqb (qu_dim u) (qu_dim w)) eqn:D; [|discriminate]. intros H. injection H as <-. split; auto. exists l, u. split; auto. apply deqb_true. auto. Qed.
Ltac steps := repeat match goal with
  | H : rbind ?x _ = Ok _ |- _ => let E := fresh "E" in destruct x eqn:E; cbn [rbind] in H; [|discriminate]
  end.
Ltac facts := repeat match goal with
  | H : column_value _ _ _ = Ok _ |- _ => apply column_value_inv in H
  | H : array_value _ _ = Ok _ |- _ => apply array_value_inv in H
  | H : angle_value _ _ = Ok _ |- _ => apply angle_value_inv in H
  end.
Theorem c71_accepts_area_fov t q e f r : q_effective_area_per_energy_and_fov t q e f = Ok r ->
  with_dimension t "true_energy" energy_dim /\ with_dimension t "true_source_fov_offset" angle_dim /\ array_of energy_dim e /\ angles_of angle_dim f.
Proof. intros H. unfold q_effective_area_per_energy_and_fov in H. steps. facts. repeat (split; [solve [auto]|]); auto. Qed.
Theorem c71_accepts_area_polar t q e f p r : q_effective_area_3d_polar t q e f p = Ok r ->
  with_dimension t "true_energy" energy_dim /\ with_dimension t "true_source_fov_offset" angle_dim /\ with_dimension t "true_source_fov_position_angle" angle_dim /\
  array_of energy_dim e /\ angles_of angle_dim f /\ angles_of angle_dim p.
Proof. intros H. unfold q_effective_area_3d_polar in H. steps. facts. repeat (split; [solve [auto]|]); auto. Qed.
Theorem c71_accepts_dispersion t e f m r : q_energy_dispersion t e f m = Ok r ->
  with_dimension t "true_energy" energy_dim /\ with_dimension t "reco_energy" energy_dim /\ with_dimension t "true_source_fov_offset" angle_dim /\ array_of energy_dim e /\ array_of angle_dim f.
Proof.
  intros H. unfold q_energy_dispersion in H. steps.
  assert (W : with_dimension t "reco_energy" energy_dim).
  { assert (A : array_of energy_dim a0). { pose proof E2 as F. unfold column_value in F. rewrite E0 in F. cbn [rbind] in F. apply array_value_inv in F. exact F. }
    destruct A as (l0 & u0 & -> & D0). unfold get_column in E. destruct (find _ (qe_columns t)) as [[n c]|] eqn:F; [|discriminate]. apply find_some in F as [I Q]. cbn [fst] in Q. apply String.eqb_eq in Q as ->. injection E as <-.
    destruct c as [l|[l u]]; cbn [q_migration plain_unit qa_unit qa_val snd] in E1.
    - destruct (deqb (qu_dim (udiv one_ u0)) dnone) eqn:D; [|discriminate]. apply deqb_true in D. unfold udiv in D. cbn [qu_dim one_] in D. rewrite D0 in D. unfold dmul, dpow, dnone, energy_dim in D. cbn in D. injection D as D. lra.
    - destruct (deqb (qu_dim (udiv u u0)) dnone) eqn:D; [|discriminate]. apply deqb_true in D. unfold udiv in D. cbn [qu_dim] in D. rewrite D0 in D. unfold dmul, dpow, dnone, energy_dim in D. cbn in D. injection D as D1 D2 D3 D4.
      exists l, u. split; auto. apply dim_eq; unfold energy_dim; cbn; lra. }
  facts. repeat (split; [solve [auto]|]); auto.
Qed.
Theorem c71_accepts_migration t e g f r : q_energy_migration_matrix t e g f = Ok r ->
  with_dimension t "true_energy" energy_dim /\ with_dimension t "reco_energy" energy_dim /\ with_dimension t "true_source_fov_offset" angle_dim /\
  array_of energy_dim e /\ array_of energy_dim g /\ array_of angle_dim f.
Proof.
  intros H. unfold q_energy_migration_matrix in H. steps. apply array_input_inv in E as [E _]. apply array_input_inv in E0 as [E0 _]. apply array_input_inv in E1 as [E1 _].
  facts. repeat (split; [solve [auto]|]); auto.
Qed.
Theorem c71_accepts_psf t e s f r : q_psf_table t e s f = Ok r ->
  with_dimension t "true_energy" energy_dim /\ with_dimension t "true_source_fov_offset" angle_dim /\ with_dimension t "theta" angle_dim /\
  array_of energy_dim e /\ angles_of angle_dim s /\ array_of angle_dim f.
Proof. intros H. unfold q_psf_table in H. steps. facts. repeat (split; [solve [auto]|]); auto. Qed.
Lemma to_background_inv x u r : to_background_unit x u = Ok r -> qu_dim u = background_dim.
Proof. unfold to_background_unit. destruct (deqb (qu_dim u) (qu_dim BACKGROUND_UNIT)) eqn:D; [|discriminate]. intros _. apply deqb_true in D. rewrite D. apply bg_ok. Qed.
Lemma bg_time u ut : qu_dim u = energy_dim -> qu_dim (udiv (udiv (udiv one_ u) ut) sr) = background_dim -> qu_dim ut = time_dim.
Proof.
  intros D H. unfold udiv in H. cbn [qu_dim one_ sr] in H. rewrite D in H. unfold dmul, dpow, dnone, energy_dim, background_dim in H. cbn in H. injection H as H1 H2 H3 H4.
  apply dim_eq; unfold time_dim; cbn; lra.
Qed.
Lemma bg_obs u o : qu_dim u = energy_dim -> qu_dim (udiv (udiv (udiv one_ u) (snd (fin_unit o))) sr) = background_dim -> exists x ut, o = FQty x ut /\ qu_dim ut = time_dim.
Proof.
  intros D H. apply bg_time in H; auto. destruct o as [x|x ut]; cbn in H; [|eauto]. unfold dnone, time_dim in H. injection H as H. lra.
Qed.
Theorem c71_accepts_background_2d t e f o r : q_background_2d t e f o = Ok r ->
  with_dimension t "reco_energy" energy_dim /\ with_dimension t "reco_source_fov_offset" angle_dim /\ (exists w, qe_weight t = Some w) /\
  array_of energy_dim e /\ angles_of angle_dim f /\ exists x u, o = FQty x u /\ qu_dim u = time_dim.
Proof.
  intros H. unfold q_background_2d in H. steps. facts. unfold get_weight in E3. destruct (qe_weight t) as [w|]; [|discriminate].
  split; [auto|]. split; [auto|]. split; [eauto|]. split; [auto|]. split; [auto|]. destruct E1 as (le & ue & -> & De). destruct E2 as (lf & uf & -> & Df). steps.
  destruct (fin_unit o) as [x ut] eqn:Eo. steps. apply to_background_inv in H. cbn [qa_unit] in H. apply (bg_obs ue o); auto. rewrite Eo. exact H.
Qed.
Theorem c71_accepts_background_3d t e f g o r : q_background_3d_lonlat t e f g o = Ok r ->
  with_dimension t "reco_energy" energy_dim /\ with_dimension t "reco_source_fov_lon" angle_dim /\ with_dimension t "reco_source_fov_lat" angle_dim /\ (exists w, qe_weight t = Some w) /\
  array_of energy_dim e /\ angles_of angle_dim f /\ angles_of angle_dim g /\ exists x u, o = FQty x u /\ qu_dim u = time_dim.
Proof.
  intros H. unfold q_background_3d_lonlat in H. steps. facts. unfold get_weight in E5. destruct (qe_weight t) as [w|]; [|discriminate].
  split; [auto|]. split; [auto|]. split; [auto|]. split; [eauto|]. split; [auto|]. split; [auto|]. split; [auto|]. destruct E2 as (le & ue & -> & De). destruct E3 as (lf & uf & -> & Df). destruct E4 as (lg & ug & -> & Dg). steps.
  destruct (fin_unit o) as [x ut] eqn:Eo. steps. apply to_background_inv in H. cbn [qa_unit] in H. apply (bg_obs ue o); auto. rewrite Eo. exact H.
Qed.
Theorem c71_accepts_area_energy t q e r : q_effective_area_per_energy t q e = Ok r -> with_dimension t "true_energy" energy_dim /\ array_of energy_dim e.
Proof.
  intros H. unfold q_effective_area_per_energy in H. steps. unfold q_n_showers_per_energy in E0. steps. apply array_input_inv in E1 as [E1 _]. split; auto. destruct E1 as (le & ue & -> & De).
  unfold q_histogram_table, get_column in E. destruct (find _ (qe_columns t)) as [[n c]|] eqn:F; [|discriminate]. apply find_some in F as [I Q]. cbn [fst] in Q. apply String.eqb_eq in Q as ->. cbn [rbind snd] in E.
  destruct c as [l|[l u]]; cbn [plain_unit qa_unit qa_val] in E.
  - destruct (deqb (qu_dim ue) (qu_dim one_)) eqn:D; [|discriminate]. apply deqb_true in D. rewrite De in D. cbn [qu_dim TeV one_] in D. unfold energy_dim, dnone in D. injection D as D. lra.
  - destruct (deqb (qu_dim ue) (qu_dim u)) eqn:D; [|discriminate]. apply deqb_true in D. exists l, u. split; auto. rewrite <- D. exact De.
Qed.
