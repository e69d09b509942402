(** * Proofs for C80 *)
From Coq Require Import String Reals List Bool ZArith Lia Lra Permutation.
From Verif Require Import Num Numpy Lists Sort Table Binning BinningProofs BinningProofs2 SpecBinning Utils UtilsProofs Percentile Cuts SpecCuts CutsProofs CutsProofs2 Tensor Simulations IRF
  Statistics Sensitivity CutOptimization Quantities SpectralUnits SimulationUnits IRFUnits SpecUnits SpecIRFUnits SpectralUnitsProofs IRFUnitsProofs BenchmarkProofs Estimators HistDouble SpecErrors.
Import ListNotations.
Open Scope R_scope.

Lemma decreases_falling edges : decreases edges = true <-> falling edges.
Proof.
  unfold falling. induction edges as [|a [|b l] IH].
  - split; [discriminate|]. intros (k & x & y & H & _). destruct k; discriminate.
  - split; [discriminate|]. intros (k & x & y & _ & H & _). destruct k; discriminate.
  - change (decreases (a :: b :: l)) with (ngt a b || decreases (b :: l)). rewrite orb_true_iff, IH. unfold ngt. split.
    + intros [H|(k & x & y & H1 & H2 & H3)]; [exists 0%nat, a, b; auto|]. exists (S k), x, y; auto.
    + intros ([|k] & x & y & H1 & H2 & H3); [left; cbn in H1, H2; congruence|right]. exists k, x, y; auto.
Qed.
Section Hist.
Context {A : Type} (dims : list ((A -> num) * list num)) (w : A -> R) (evs : list A).
Lemma hdd_falling : some_falling (map snd dims) -> histogramdd dims w evs = Err ValueError.
Proof.
  intros (e & He & Hf). unfold histogramdd. apply in_map_iff in He as (d & <- & Hd).
  replace (existsb (fun d => decreases (snd d)) dims) with true; auto. symmetry. apply existsb_exists. exists d. split; auto. apply decreases_falling; auto.
Qed.
Lemma hdd_empty : some_empty (map snd dims) -> ~ some_falling (map snd dims) -> histogramdd dims w evs = Err IndexError.
Proof.
  intros He Hf. unfold histogramdd. apply in_map_iff in He as (d & Hd & Hin).
  replace (existsb (fun d => decreases (snd d)) dims) with false.
  - replace (existsb _ dims) with true; auto. symmetry. apply existsb_exists. exists d. split; auto. rewrite Hd; auto.
  - symmetry. apply not_true_is_false. intros E. apply existsb_exists in E as (x & Hx & E). apply Hf. exists (snd x). split; [apply in_map; auto|]. apply decreases_falling; auto.
Qed.
End Hist.

Ltac hdd_err := let H := fresh in let H' := fresh in split; [intros H; rewrite hdd_falling by exact H; reflexivity|intros H H'; rewrite hdd_empty by assumption; reflexivity].
Lemma edisp_err events te fov mig :
  (some_falling [te; mig; fov] -> energy_dispersion events te fov mig = Err ValueError) /\
  (some_empty [te; mig; fov] -> ~ some_falling [te; mig; fov] -> energy_dispersion events te fov mig = Err IndexError).
Proof. unfold energy_dispersion. hdd_err. Qed.
Lemma emm_err events te re fov :
  (some_falling [te; re; fov] -> energy_migration_matrix events te re fov = Err ValueError) /\
  (some_empty [te; re; fov] -> ~ some_falling [te; re; fov] -> energy_migration_matrix events te re fov = Err IndexError).
Proof. unfold energy_migration_matrix. hdd_err. Qed.
Lemma psf_err events te src fov :
  (some_falling [te; fov; map Fin src] -> psf_table events te src fov = Err ValueError) /\
  (some_empty [te; fov; map Fin src] -> ~ some_falling [te; fov; map Fin src] -> psf_table events te src fov = Err IndexError).
Proof. unfold psf_table. hdd_err. Qed.
Lemma bkg2_err events re fov t_obs :
  (some_falling [re; map Fin fov] -> background_2d events re fov t_obs = Err ValueError) /\
  (some_empty [re; map Fin fov] -> ~ some_falling [re; map Fin fov] -> background_2d events re fov t_obs = Err IndexError).
Proof. unfold background_2d. hdd_err. Qed.
Lemma bkg3_err events re lon lat t_obs :
  (some_falling [re; map Fin lon; map Fin lat] -> background_3d_lonlat events re lon lat t_obs = Err ValueError) /\
  (some_empty [re; map Fin lon; map Fin lat] -> ~ some_falling [re; map Fin lon; map Fin lat] -> background_3d_lonlat events re lon lat t_obs = Err IndexError).
Proof. unfold background_3d_lonlat. hdd_err. Qed.
Lemma aeff_err f s bins : some_falling [bins] -> effective_area_per_energy f s bins = Err ValueError.
Proof.
  intros (e & [<-|[]] & H). apply decreases_falling in H. unfold effective_area_per_energy, create_histogram_table, hist_columns, np_histogram.
  rewrite H. reflexivity.
Qed.
Lemma hist_table_err events bins key : falling bins -> create_histogram_table events bins key = Err ValueError.
Proof. intros H. apply decreases_falling in H. unfold create_histogram_table, hist_columns, np_histogram. rewrite H. reflexivity. Qed.

Lemma by_index_err values idx valid cuts op :
  List.length values <> List.length idx \/ List.length valid <> List.length idx ->
  evaluate_binned_cut_by_index true values idx valid cuts op = Err IndexError.
Proof.
  intros H. unfold evaluate_binned_cut_by_index. cbn [negb]. destruct (Nat.eqb_spec (List.length values) (List.length idx)); cbn [negb]; auto.
  destruct (Nat.eqb_spec (List.length valid) (List.length idx)); cbn [negb]; auto. lia.
Qed.
Lemma interp_err xs xp fp : xp = [] \/ List.length xp <> List.length fp -> Sensitivity.np_interp xs xp fp = Err ValueError.
Proof.
  intros H. unfold Sensitivity.np_interp. destruct xp; auto. destruct (Nat.eqb_spec (List.length (n :: xp)) (List.length fp)); auto. destruct H; congruence.
Qed.
Lemma hist_columns_ok evs hw bins : ~ falling bins -> exists nc, hist_columns evs hw bins = Ok nc.
Proof.
  intros H. assert (D : decreases bins = false) by (apply not_true_is_false; intros E; apply H, decreases_falling, E).
  unfold hist_columns, np_histogram, np_histogram_w. rewrite D. cbn [rbind]. destruct hw; cbn [rbind]; eauto.
Qed.
Lemma add_groups_ok evs hw bins : ~ falling bins -> forall keys t, exists t', add_groups evs hw bins keys t = Ok t'.
Proof.
  intros H keys. induction keys as [|k keys IH]; intros t; cbn [add_groups]; eauto.
  destruct (hist_columns_ok (group evs k) hw bins H) as (nc & ->). cbn [rbind]. apply IH.
Qed.
Lemma hist_table_ok events bins key : ~ falling bins -> exists t, create_histogram_table events bins key = Ok t.
Proof.
  intros H. unfold create_histogram_table. destruct (hist_columns_ok (et_rows events) (et_has_weight events) bins H) as (nc & ->). cbn [rbind].
  destruct (_ && _); eauto. apply add_groups_ok; auto.
Qed.
Lemma falling_dec bins : falling bins \/ ~ falling bins.
Proof. destruct (decreases bins) eqn:E; [left; apply decreases_falling; auto|right; intros H; apply decreases_falling in H; congruence]. Qed.
Lemma background_err events hw hp bins thc tht alpha mn mx :
  falling bins \/ thc = [] \/ List.length thc <> List.length tht -> estimate_background events hw hp bins thc tht alpha mn mx = Err ValueError.
Proof.
  intros H. unfold estimate_background. destruct (falling_dec bins) as [F|F].
  - rewrite hist_table_err by auto. reflexivity.
  - match goal with |- context [create_histogram_table ?e _ ?k] => destruct (hist_table_ok e bins k F) as (t & ->) end. cbn [rbind].
    rewrite interp_err by tauto. reflexivity.
Qed.

(** calculate_bin_indices: data without unit, bins with a unit *)
Lemma plain_data data bins u : 0 < u_scale u ->
  (u_dim u = dimless_dim -> calculate_bin_indices (mkArr data None) (mkArr bins (Some u)) =
     calculate_bin_indices (mkArr (map (fun x => nmul (Fin (/ u_scale u)) x) data) None) (mkArr bins None)) /\
  (u_dim u <> dimless_dim -> (forall x, In x data -> x = Fin 0 \/ x = PInf \/ x = NInf \/ x = NaN) ->
     calculate_bin_indices (mkArr data None) (mkArr bins (Some u)) = calculate_bin_indices (mkArr data None) (mkArr bins None)) /\
  (u_dim u <> dimless_dim -> (exists r, In (Fin r) data /\ r <> 0) ->
     calculate_bin_indices (mkArr data None) (mkArr bins (Some u)) = Err UnitConversionError).
Proof.
  intros Hu. unfold calculate_bin_indices. cbn [a_unit a_val]. split; [|split].
  - intros D. rewrite D, Nat.eqb_refl. unfold Table.to_value. cbn [u_dim one_unit]. rewrite ?D, ?Nat.eqb_refl. cbn [rbind]. f_equal. apply map_ext. intros x. unfold Table.convert_val. cbn [u_scale one_unit]. f_equal. f_equal. unfold Rdiv. ring.
  - intros D H. destruct (Nat.eqb_spec (u_dim u) dimless_dim); [congruence|]. replace (forallb arbitrary_unit_ok data) with true; [reflexivity|].
    symmetry. apply forallb_forall. intros x Hx. destruct (H x Hx) as [E|[E|[E|E]]]; rewrite E; cbn; auto. apply Reqb_true. reflexivity.
  - intros D (r & Hr & Hne). destruct (Nat.eqb_spec (u_dim u) dimless_dim); [congruence|]. destruct (forallb arbitrary_unit_ok data) eqn:E; [|reflexivity].
    rewrite forallb_forall in E. specialize (E _ Hr). cbn in E. apply Reqb_true in E. congruence.
Qed.
(** resample_histogram1d *)
Lemma resample_short itp is_int data old new : (List.length old < 2)%nat -> resample_histogram1d itp is_int data old new = Err IndexError.
Proof.
  intros H. unfold resample_histogram1d. replace (nth_error old 1) with (@None num); [reflexivity|]. symmetry. apply nth_error_None. lia.
Qed.
Lemma nan_map p n l : map (nan_to_num p n) (map Fin l) = map Fin l.
Proof. rewrite map_map. apply map_ext. reflexivity. Qed.
Lemma strictly_nodup l : strictly_increasing l = true -> NoDup l.
Proof.
  intros H. apply NoDup_nth_error. intros i j Hi E. destruct (nth_error l i) as [a|] eqn:Ea; [|apply nth_error_None in Ea; lia]. symmetry in E.
  destruct (Nat.lt_trichotomy i j) as [L|[L|L]]; auto; exfalso.
  - pose proof (strictly_increasing_lt l i j a a H L Ea E). lra.
  - pose proof (strictly_increasing_lt l j i a a H L E Ea). lra.
Qed.
Lemma cumsum0_len s l : List.length (cumsum0 s l) = S (List.length l).
Proof. revert s. induction l as [|x l IH]; intros s; cbn; auto. Qed.
Lemma resample_bad itp data (old : list R) (new : list num) :
  (2 <= List.length old)%nat -> (List.length old <> S (List.length data) \/ List.length old = 2%nat \/
     exists i k a, i <> k /\ nth_error old i = Some a /\ nth_error old k = Some a) ->
  resample_histogram1d itp false data (map Fin old) new = Err ValueError.
Proof.
  intros L H. unfold resample_histogram1d. rewrite map_length.
  destruct (nth_error (map Fin old) 1) as [e1|] eqn:E1; [|apply nth_error_None in E1; rewrite map_length in E1; lia].
  destruct (nth_error (map Fin old) (List.length old - 2)) as [e2|] eqn:E2; [|apply nth_error_None in E2; rewrite map_length in E2; lia].
  destruct (Nat.ltb_spec (List.length old) 2); [lia|]. rewrite nan_map, all_fin_map. destruct (all_fin _) as [nx|]; auto. cbv zeta.
  set (ys := map _ (cumsum0 0 data)). assert (Ly : List.length ys = S (List.length data)) by (unfold ys; rewrite map_length, cumsum0_len; auto). rewrite Ly.
  destruct (Nat.eqb_spec (List.length old) (S (List.length data))) as [Hl|Hl]; cbn [negb]; auto.
  destruct (Nat.ltb_spec (List.length old) 3); auto. destruct H as [H|[H|(i & k & a & Hne & Hi & Hk)]]; [congruence|lia|].
  destruct (strictly_increasing (map fst (knots old ys))) eqn:E; auto. exfalso. apply strictly_nodup in E.
  assert (N : NoDup old).
  { rewrite <- (fst_combine old ys) by lia. unfold knots in E. eapply Permutation_NoDup; [|exact E]. apply Permutation_map. symmetry. apply isort_perm. }
  rewrite NoDup_nth_error in N. apply Hne, N; [apply nth_some_lt in Hi; auto|congruence].
Qed.
Lemma join_rows lo hi : List.length lo <> List.length hi -> join_bin_lo_hi_nd lo hi = Err ValueError.
Proof. intros H. unfold join_bin_lo_hi_nd. destruct (Nat.eqb_spec (List.length lo) (List.length hi)); [lia|]. reflexivity. Qed.

(** optimisers *)
Section Opt.
Variables (br : (R -> num) -> R -> R -> res R) (sf : num -> num -> num -> num) (sa : list num -> list num -> num -> res (list num)).
Variables (sw sp bw bp : bool) (background : list opt_event) (bins : list num) (alpha mn mx ms mse mex : num).
Lemma gh_no_signal op effs thl thh thc tht : thh <> [] ->
  optimize_gh_cut br sf sa sw sp bw bp [] background bins alpha mn mx ms mse mex op effs thl thh thc tht = Err ValueError.
Proof.
  intros H. unfold optimize_gh_cut, evaluate_binned_cut. cbn [negb map]. destruct (rev thh) as [|h r] eqn:E.
  { exfalso. apply H. rewrite <- (rev_involutive thh), E. reflexivity. }
  unfold calculate_bin_indices. cbn [a_unit]. unfold calculate_bin_indices_raw. destruct (Z.eqb _ 0); auto. cbn [rmap a_val rbind map fst snd].
  unfold evaluate_binned_cut_by_index. cbn [negb List.length Nat.eqb eval_rows rbind]. destruct (op _ _); reflexivity.
Qed.
Lemma cuts_no_signal mult ge te tmin tmax : optimize_cuts br sf sa sw sp bw bp [] background bins alpha mn mx ms mse mex mult ge te tmin tmax = Err ValueError.
Proof. reflexivity. Qed.
Lemma gh_no_eff op signal thl thh thc tht sel :
  nondecreasing bins -> (2 <= List.length bins)%nat -> (exists e k, In e signal /\ in_bin bins k (o_energy e)) ->
  evaluate_binned_cut true (map o_theta signal) (mkArr (map o_energy signal) None) thl thh None tht nle = Ok sel ->
  optimize_gh_cut br sf sa sw sp bw bp signal background bins alpha mn mx ms mse mex op [] thl thh thc tht = Err IndexError.
Proof.
  intros Hnd Hl (e & k & He & Hk) Hs. unfold optimize_gh_cut. rewrite Hs. cbn [rbind map].
  assert (Hf : exists f, (if op (Fin (-1)) (Fin 1) then np_min (map o_gh signal) else np_max (map o_gh signal)) = Ok f).
  { destruct signal; [destruct He|]. destruct (op _ _); cbn; eauto. }
  destruct Hf as (f & ->). cbn [rbind].
  destruct (c12_list (map o_gh signal) (map o_energy signal) bins f [] None None 10 Hnd Hl) as (t & rows & Ht & _).
  - rewrite !map_length; auto. - intros p [].
  - exists (o_energy e), k. split; auto. apply in_map; auto.
  - change (raw ?l) with (mkArr l None) in Ht. cbn [SpecCuts.plaino] in Ht. unfold SpecCuts.plain in Ht. rewrite Ht. cbn [rbind List.length seq rmap]. reflexivity.
Qed.
Lemma cuts_no_mult signal ge te tmin tmax : signal <> [] -> nondecreasing bins -> bins <> [] ->
  optimize_cuts br sf sa sw sp bw bp signal background bins alpha mn mx ms mse mex [] ge te tmin tmax = Err IndexError.
Proof.
  intros Hs Hnd Hne. unfold optimize_cuts. assert (Hf : exists f, np_max (map o_gh signal) = Ok f) by (destruct signal; [congruence|cbn; eauto]).
  destruct Hf as (f & ->). cbn [rbind]. unfold calculate_bin_indices. cbn [a_unit a_val].
  assert (B : forall l, exists r, calculate_bin_indices_raw l bins = Ok r) by (intros l; destruct (bin_indices_inc l bins Hnd Hne) as (i & v & E & _); eauto).
  destruct (B (map o_energy signal)) as (r & ->). destruct (B (map o_energy background)) as (r' & ->). reflexivity.
Qed.
End Opt.

(** ** units and columns *)
Lemma dim_ne d d' : d <> d' -> deqb d d' = false.
Proof. intros H. apply not_true_is_false. intros E. apply deqb_true in E. auto. Qed.
Lemma area_err n m x u : qu_dim u <> area_dim -> q_effective_area n m (x, u) = Err UnitsError.
Proof. intros H. unfold q_effective_area; cbn [snd]. rewrite dim_ne; [reflexivity|]. replace (qu_dim (umul metre metre)) with area_dim; [exact H|]. cbn. unfold area_dim, dmul. cbn. f_equal; lra. Qed.
Lemma angle_err s b u f : qu_dim u = SpecUnits.energy_dim ->
  (forall l, f = GPlain l -> q_n_showers_per_energy_and_fov s (AQty (mkQA b u)) f = Err TypeError /\
     forall pa, q_n_showers_3d_polar s (AQty (mkQA b u)) f pa = Err TypeError) /\
  (forall l v, f = GQty l v -> qu_dim v <> angle_dim -> q_n_showers_per_energy_and_fov s (AQty (mkQA b u)) f = Err UnitsError /\
     forall pa, q_n_showers_3d_polar s (AQty (mkQA b u)) f pa = Err UnitsError).
Proof.
  intros D. assert (E : array_input TeV (AQty (mkQA b u)) = Ok (mkQA b u)).
  { unfold array_input. cbn [qa_unit]. rewrite (proj2 (deqb_true _ _)); auto. }
  split.
  - intros l ->. split; [|intros pa]; [unfold q_n_showers_per_energy_and_fov|unfold q_n_showers_3d_polar]; rewrite E; reflexivity.
  - intros l v -> H. unfold q_n_showers_per_energy_and_fov, q_n_showers_3d_polar. rewrite E. cbn [rbind angle_array]. rewrite dim_ne by exact H. split; reflexivity.
Qed.
Lemma pa_err s b u l v p : qu_dim u = SpecUnits.energy_dim -> qu_dim v = angle_dim ->
  (forall k, p = GPlain k -> q_n_showers_3d_polar s (AQty (mkQA b u)) (GQty l v) p = Err TypeError) /\
  (forall k w, p = GQty k w -> qu_dim w <> angle_dim -> q_n_showers_3d_polar s (AQty (mkQA b u)) (GQty l v) p = Err UnitsError).
Proof.
  intros D D'. assert (E : array_input TeV (AQty (mkQA b u)) = Ok (mkQA b u)).
  { unfold array_input. cbn [qa_unit]. rewrite (proj2 (deqb_true _ _)); auto. }
  assert (E' : angle_array deg (GQty l v) = Ok (l, v)) by (unfold angle_array; rewrite (proj2 (deqb_true _ _)); auto).
  unfold q_n_showers_3d_polar. rewrite E, E'. cbn [rbind]. split.
  - intros k ->. reflexivity.
  - intros k w -> H. cbn [angle_array]. rewrite dim_ne by exact H. reflexivity.
Qed.
Lemma get_missing t name : ~ In name (map fst (qe_columns t)) -> get_column t name = Err KeyError.
Proof.
  intros H. unfold get_column. destruct (find _ _) as [c|] eqn:E; auto. apply find_some in E as [Hin E]. apply String.eqb_eq in E.
  exfalso. apply H. rewrite <- E. apply in_map; auto.
Qed.
Lemma value_missing t name u : ~ In name (map fst (qe_columns t)) -> column_value t name u = Err KeyError.
Proof. intros H. unfold column_value. rewrite get_missing by auto. reflexivity. Qed.
Lemma missing_true t : ~ In "true_energy"%string (map fst (qe_columns t)) ->
  (forall s bins, q_effective_area_per_energy t s bins = Err KeyError) /\
  (forall e s f, q_psf_table t e s f = Err KeyError).
Proof.
  intros H. split; intros.
  - unfold q_effective_area_per_energy, q_histogram_table. rewrite get_missing by auto. reflexivity.
  - unfold q_psf_table. rewrite value_missing by auto. reflexivity.
Qed.
Lemma missing_reco t : ~ In "reco_energy"%string (map fst (qe_columns t)) ->
  (forall e f m, q_energy_dispersion t e f m = Err KeyError) /\
  (forall e f o, q_background_2d t e f o = Err KeyError) /\
  (forall e f g o, q_background_3d_lonlat t e f g o = Err KeyError).
Proof.
  intros H. split; [|split]; intros.
  - unfold q_energy_dispersion. rewrite get_missing by auto. reflexivity.
  - unfold q_background_2d. rewrite value_missing by auto. reflexivity.
  - unfold q_background_3d_lonlat. rewrite value_missing by auto. reflexivity.
Qed.
Lemma get_present t name c : NoDup (map fst (qe_columns t)) -> In (name, c) (qe_columns t) -> get_column t name = Ok c.
Proof. intros Hn Hi. unfold get_column. rewrite (find_column _ _ _ Hn Hi). reflexivity. Qed.
Lemma value_present t name u (target : qunit) l d : NoDup (map fst (qe_columns t)) -> qu_dim target = d -> In (name, AQty (mkQA l u)) (qe_columns t) -> qu_dim u = d ->
  exists x, column_value t name target = Ok x.
Proof. intros Hn Ht Hi D. unfold column_value. rewrite (get_present _ _ _ Hn Hi). cbn. rewrite (proj2 (deqb_true _ _)) by congruence. eauto. Qed.
Lemma missing_weight t e f o : NoDup (map fst (qe_columns t)) -> with_dimension t "reco_energy" SpecUnits.energy_dim -> with_dimension t "reco_source_fov_offset" angle_dim ->
  array_of SpecUnits.energy_dim e -> angles_of angle_dim f -> qe_weight t = None -> q_background_2d t e f o = Err KeyError.
Proof.
  intros Hn (l & u & H1 & D1) (l2 & u2 & H2 & D2) (l3 & u3 & -> & D3) (l4 & u4 & -> & D4) Hw. unfold q_background_2d.
  destruct (value_present t _ u TeV l SpecUnits.energy_dim Hn eq_refl H1 D1) as (x & ->). destruct (value_present t _ u2 deg l2 angle_dim Hn eq_refl H2 D2) as (x2 & ->).
  cbn [rbind array_value angle_value qa_unit]. rewrite (proj2 (deqb_true (qu_dim u3) _)) by (rewrite D3; reflexivity). rewrite (proj2 (deqb_true (qu_dim u4) _)) by (rewrite D4; reflexivity). cbn [rbind].
  unfold get_weight. rewrite Hw. reflexivity.
Qed.
Lemma column_kind t name : NoDup (map fst (qe_columns t)) ->
  (forall l, In (name, APlain l) (qe_columns t) -> forall u, column_value t name u = Err AttributeError) /\
  (forall l v, In (name, AQty (mkQA l v)) (qe_columns t) -> forall u, qu_dim v <> qu_dim u -> column_value t name u = Err UnitConversionError).
Proof.
  intros Hn. split.
  - intros l Hi u. unfold column_value. rewrite (get_present _ _ _ Hn Hi). reflexivity.
  - intros l v Hi u D. unfold column_value. rewrite (get_present _ _ _ Hn Hi). cbn. rewrite dim_ne by auto. reflexivity.
Qed.
Lemma bad_true t : NoDup (map fst (qe_columns t)) ->
  (forall l, In ("true_energy"%string, APlain l) (qe_columns t) -> forall e s f, q_psf_table t e s f = Err AttributeError) /\
  (forall l v, In ("true_energy"%string, AQty (mkQA l v)) (qe_columns t) -> qu_dim v <> SpecUnits.energy_dim -> forall e s f, q_psf_table t e s f = Err UnitConversionError).
Proof.
  intros Hn. destruct (column_kind t "true_energy" Hn) as [H1 H2]. unfold q_psf_table. split.
  - intros l Hi e s f. rewrite (H1 l) by auto. reflexivity.
  - intros l v Hi D e s f. rewrite (H2 l v) by auto. reflexivity.
Qed.
Lemma check_missing h1 h2 key : ~ In (key ++ "_low")%string (map fst h1) \/ ~ In (key ++ "_low")%string (map fst h2) -> check_histograms h1 h2 key = Err KeyError.
Proof.
  assert (G : forall (t : utable) k, ~ In k (map fst t) -> get_col t k = Err KeyError).
  { intros t k H. unfold get_col. destruct (getitem t k) as [c|] eqn:E; auto. exfalso. apply H. apply BenchmarkProofs.getitem_In in E. apply (in_map fst) in E. exact E. }
  assert (G2 : forall (t : utable) k, get_col t k = Err KeyError \/ exists c, get_col t k = Ok c) by (intros t k; unfold get_col; destruct (getitem t k); eauto).
  intros H. unfold check_histograms. cbn [check_keys]. change (key ++ "_" ++ "low")%string with (key ++ "_low")%string.
  destruct H as [H|H].
  - rewrite (G h1) by auto. reflexivity.
  - destruct (G2 h1 (key ++ "_low")%string) as [->|(c & ->)]; [reflexivity|]. cbn [rbind]. rewrite (G h2) by auto. reflexivity.
Qed.
Lemma overflow_err positive : add_overflow_bins [] positive = Err IndexError.
Proof. reflexivity. Qed.
Lemma axis_err f axis a : (axis < - Z.of_nat (List.length (ashape a)) \/ Z.of_nat (List.length (ashape a)) <= axis)%Z -> along_axis f axis a = Err ValueError.
Proof.
  intros H. unfold along_axis, swapaxes, axis_of. destruct (Z.ltb_spec axis 0) as [L|L].
  - destruct (Z.ltb_spec (axis + Z.of_nat (List.length (ashape a))) 0); [reflexivity|lia].
  - destruct (Z.ltb_spec axis 0); [lia|]. destruct (Z.leb_spec (Z.of_nat (List.length (ashape a))) axis); [reflexivity|lia].
Qed.
