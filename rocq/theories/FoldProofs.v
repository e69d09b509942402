(** * FoldProofs: instrument responses fold the simulated flux back to the selected events *)
From Coq Require Import Reals List Bool ZArith Arith Lia Lra.
From Verif Require Import Num Numpy Lists SpecBinning Table Binning BinningProofs HistProofs Utils SpecUtils SpecSimulations Simulations SimulationsProofs SimulationsProofs2
  Spectral SpectralProofs Tensor TensorProofs SpecIRF IRF IRFProofs IRFProofs2 IRFProofs4 CutsProofs2.
Import ListNotations.
Open Scope R_scope.

(** ** integrals of the flux *)
Lemma primitive_pl_incr i Q a b : primitive_on positive (power_law i) Q -> 0 < a -> a < b -> Q a < Q b.
Proof.
  intros HQ Ha Hab. destruct (MVT_cor2 Q (power_law i) a b Hab) as (c & Hc & Hr).
  - intros c Hc. apply HQ. unfold positive. lra.
  - assert (0 < power_law i c) by (unfold power_law, Rpower; apply exp_pos). nra.
Qed.
Lemma sin_integral P a b : primitive_on everywhere per_solid_angle P -> P b - P a = cos a - cos b.
Proof.
  intros HP. assert (HC : primitive_on everywhere per_solid_angle (fun x => - cos x)).
  { intros x _. unfold per_solid_angle. replace (sin x) with (- (- sin x)) by ring. apply derivable_pt_lim_opp. apply derivable_pt_lim_cos. }
  rewrite (primitive_const everywhere per_solid_angle per_solid_angle P (fun x => - cos x) a b); auto; [ring|intros; exact I].
Qed.
Lemma call_norm p k fl : 0 < pl_e_ref p -> (forall E, 0 < E -> call (PowerLaw p) (Fin E) = (Fin (fl E), k)) ->
  exists c, forall E, 0 < E -> fl E = c * power_law (pl_index p) E.
Proof.
  destruct p as [norm u i r]. cbn [pl_e_ref pl_index]. intros Hr H.
  assert (F : exists N, norm = Fin N).
  { specialize (H r Hr). cbn [call] in H. injection H as H _. unfold power_law_call in H. cbn [pl_norm pl_e_ref pl_index ndiv] in H.
    assert (Q : 0 < r / r) by (apply Rdiv_lt_0_compat; lra). assert (Q2 : 0 < Rpower (r / r) i) by (unfold Rpower; apply exp_pos).
    destruct (Reqb_spec r 0) as [E|_]; [lra|]. rewrite npow_pos in H by auto.
    destruct norm as [N| | |]; eauto; exfalso; cbn [nmul] in H; unfold inf_signed in H; try discriminate;
      destruct (Reqb_spec (Rpower (r / r) i) 0); try lra; destruct (Rltb_spec 0 (Rpower (r / r) i)); try lra; cbn in H; discriminate. }
  destruct F as [N ->]. exists (N * Rpower (/ r) i). intros E HE. specialize (H E HE). cbn [call] in H. rewrite pl_call_fin in H by auto. injection H as H _.
  rewrite <- H. unfold power_law, Rdiv. rewrite <- Rpower_mult_distr by (auto; apply Rinv_0_lt_compat; auto). ring.
Qed.
Lemma flux_share p k fl P a b lo hi v : 0 < pl_e_ref p -> (forall E, 0 < E -> call (PowerLaw p) (Fin E) = (Fin (fl E), k)) ->
  primitive_on positive fl P -> 0 < a -> a < b -> a <= lo <= b -> a <= hi <= b ->
  share positive (power_law (pl_index p)) a b (Fin lo) (Fin hi) v -> v * (P b - P a) = P hi - P lo.
Proof.
  intros Hr Hc HP Ha Hab Hlo Hhi (Q & HQ & Hne & Ev). destruct (call_norm p k fl Hr Hc) as (c & Hf).
  assert (HcQ : primitive_on positive (fun E => c * power_law (pl_index p) E) (fun x => c * Q x)).
  { intros x Hx. apply derivable_pt_lim_scal. apply HQ. auto. }
  assert (HP' : primitive_on positive (fun E => c * power_law (pl_index p) E) P).
  { intros x Hx. rewrite <- Hf by auto. apply HP. auto. }
  assert (K : forall x y, a <= x <= b -> a <= y <= b -> P y - P x = c * Q y - c * Q x).
  { intros x y Hx Hy. apply (primitive_const positive (fun E => c * power_law (pl_index p) E) (fun E => c * power_law (pl_index p) E) P (fun x => c * Q x) x y); auto.
    intros z Hz. unfold positive. unfold Rmin, Rmax in Hz. destruct (Rle_dec x y); lra. }
  rewrite (K a b), (K lo hi) by lra. cbn [into] in Ev. rewrite !Rmin_right, !Rmax_right in Ev by lra.
  replace (v * (c * Q b - c * Q a)) with (c * (v * (Q b - Q a))) by ring. rewrite Ev. ring.
Qed.
Lemma share_pos i a b lo hi v : 0 < a -> a < b -> a <= lo -> lo < hi -> hi <= b -> share positive (power_law i) a b (Fin lo) (Fin hi) v -> 0 < v.
Proof.
  intros Ha Hab H1 H2 H3 (Q & HQ & Hne & Ev). cbn [into] in Ev. rewrite !Rmin_right, !Rmax_right in Ev by lra.
  assert (Q a < Q b) by (eapply primitive_pl_incr; eauto). assert (Q lo < Q hi) by (apply (primitive_pl_incr i); auto; lra).
  destruct (Rle_or_lt v 0); auto. nra.
Qed.
Lemma ring_share vm vM f f' w : 0 <= vm -> vm < vM -> vM <= PI -> vm <= f <= vM -> vm <= f' <= vM ->
  share everywhere per_solid_angle vm vM (Fin f) (Fin f') w -> w * ring_sr vm vM = ring_sr f f'.
Proof.
  intros H0 H1 H2 Hf Hf' (Q & HQ & Hne & Ev). cbn [into] in Ev. rewrite !Rmin_right, !Rmax_right in Ev by lra.
  rewrite !(sin_integral Q) in Ev by auto. unfold ring_sr. replace (w * (2 * PI * (cos vm - cos vM))) with (2 * PI * (w * (cos vm - cos vM))) by ring. rewrite Ev. ring.
Qed.
Lemma ring_pos f f' : 0 <= f -> f < f' -> f' <= PI -> 0 < ring_sr f f'.
Proof. intros H1 H2 H3. unfold ring_sr. pose proof (cos_decreasing_1 f f'). pose proof PI_RGT_0. apply Rmult_lt_0_compat; lra. Qed.

Lemma nth_Fin l i e : nth_error l i = Some e -> nth_error (map Fin l) i = Some (Fin e).
Proof. apply (map_nth_some Fin). Qed.
Lemma inside_bin a b lo hi : 0 < a -> a <= lo -> lo < hi -> hi <= b -> energy_bin (Fin lo) (Fin hi) /\ ~ overhangs a b (Fin lo) (Fin hi).
Proof. intros. split; [split; cbn; apply Rleb_true; lra|]. intros [H3 _]. cbn in H3. apply Rltb_true in H3. lra. Qed.

(** ** point source simulations *)
Theorem c70_point s T r eb events :
  (0 < n_showers s)%Z -> 0 < energy_min s -> energy_min s < energy_max s -> spectral_index s < -1 -> 0 < max_impact s -> 0 < T -> 0 < r ->
  viewcone_max s <= viewcone_min s ->
  increasing eb -> (2 <= length eb)%nat -> (forall e, In e eb -> energy_min s <= e <= energy_max s) ->
  exists p fl out, from_simulation s T r = Ok p /\ (forall E, 0 < E -> call (PowerLaw p) (Fin E) = (Fin (fl E), PointSource)) /\
    effective_area_per_energy events s (map Fin eb) = Ok out /\
    forall P, primitive_on positive fl P -> forall k e e', nth_error eb k = Some e -> nth_error eb (S k) = Some e' ->
      exists A m, at_ out [k] = Fin A /\ number_of (fun ev => in_hist_bin (map Fin eb) k (ev_x ev)) (et_rows events) m /\
        A * (P e' - P e) * T = INR m.
Proof.
  intros Hn E0 E1 Hi Him HT Hr Hv He Le Hin.
  assert (Hd : nondecreasing (map Fin eb)) by (apply inc_nondec; auto).
  assert (Le' : (2 <= length (map Fin eb))%nat) by (rewrite map_length; auto).
  destruct (c34_point s T r E0 E1 ltac:(lra) ltac:(lra) Him HT Hr Hv) as (p & fl & Ep & Ei & Er & Hc & _ & HP).
  destruct (c42_energy s (map Fin eb) Hn ltac:(lra) E0 E1 Hi Hd Le' events) as (out & Eo & _ & Ho).
  exists p, fl, out. split; auto. split; auto. split; auto. intros P HPr k e e' A1 A2.
  pose proof (Hin _ (nth_error_In _ _ A1)) as B1. pose proof (Hin _ (nth_error_In _ _ A2)) as B2. pose proof (He _ _ _ A1 A2) as B3.
  destruct (inside_bin (energy_min s) (energy_max s) e e') as [I1 I2]; try lra.
  destruct (Ho k _ _ (nth_Fin _ _ _ A1) (nth_Fin _ _ _ A2) I1 I2) as (m & v & Nm & Sv & Ca).
  assert (Vp : 0 < v) by (apply (share_pos (spectral_index s) (energy_min s) (energy_max s) e e'); auto; lra).
  assert (Fv : v * (P (energy_max s) - P (energy_min s)) = P e' - P e).
  { rewrite <- Ei in Sv. apply (flux_share p PointSource fl P (energy_min s) (energy_max s) e e' v); auto; lra. }
  specialize (HP P HPr). assert (Np : 0 < IZR (n_showers s)) by (apply IZR_lt; lia).
  assert (Ar : 0 < PI * (max_impact s * max_impact s)). { apply Rmult_lt_0_compat; [apply PI_RGT_0|]. apply Rmult_lt_0_compat; lra. }
  destruct Ca as [(Hp & A & EA & Eq & _)|[(Hz & _)|(Hz & _)]]; [|exfalso; nra..].
  exists A, m. split; auto. split; auto. apply (Rmult_eq_reg_r (PI * (max_impact s * max_impact s))); [|lra]. rewrite <- Eq, <- HP, <- Fv. ring.
Qed.
(** ** diffuse simulations *)
Theorem c70_diffuse s T r eb fb evs :
  (0 < n_showers s)%Z -> 0 < energy_min s -> energy_min s < energy_max s -> spectral_index s < -1 -> 0 < max_impact s -> 0 < T -> 0 < r ->
  0 <= viewcone_min s -> viewcone_min s < viewcone_max s -> viewcone_max s <= PI ->
  increasing eb -> (2 <= length eb)%nat -> (forall e, In e eb -> energy_min s <= e <= energy_max s) ->
  increasing fb -> (2 <= length fb)%nat -> (forall f, In f fb -> viewcone_min s <= deg f <= viewcone_max s) ->
  exists p fl out, from_simulation s T r = Ok p /\ (forall E, 0 < E -> call (PowerLaw p) (Fin E) = (Fin (fl E), Diffuse)) /\
    effective_area_per_energy_and_fov evs s (map Fin eb) fb = Ok out /\
    forall P, primitive_on positive fl P -> forall k j e e' f f', nth_error eb k = Some e -> nth_error eb (S k) = Some e' ->
      nth_error fb j = Some f -> nth_error fb (S j) = Some f' ->
      exists A m, at_ out [k; j] = Fin A /\
        number_of (fun ev => in_hist_bin (map Fin eb) k (true_energy ev) /\ in_hist_bin (map Fin fb) j (true_fov_offset ev)) evs m /\
        A * (P e' - P e) * T * ring_deg f f' = INR m.
Proof.
  intros Hn E0 E1 Hi Him HT Hr V0 V1 V2 He Le Hin Hf Lf Hfin.
  assert (Hd : nondecreasing (map Fin eb)) by (apply inc_nondec; auto).
  assert (Le' : (2 <= length (map Fin eb))%nat) by (rewrite map_length; auto).
  destruct (c34_diffuse s T r E0 E1 ltac:(lra) ltac:(lra) Him HT Hr V0 V1 V2) as (p & fl & Ep & Ei & Er & Hc & _ & HP).
  destruct (c42_fov s (map Fin eb) Hn ltac:(lra) E0 E1 Hi Hd Le' V0 V1 V2 evs fb Hf Lf) as (out & Eo & _ & Ho).
  exists p, fl, out. split; auto. split; auto. split; auto. intros P HPr k j e e' f f' A1 A2 F1 F2.
  pose proof (Hin _ (nth_error_In _ _ A1)) as B1. pose proof (Hin _ (nth_error_In _ _ A2)) as B2. pose proof (He _ _ _ A1 A2) as B3.
  pose proof (Hfin _ (nth_error_In _ _ F1)) as G1. pose proof (Hfin _ (nth_error_In _ _ F2)) as G2. pose proof (Hf _ _ _ F1 F2) as G3.
  destruct (inside_bin (energy_min s) (energy_max s) e e') as [I1 I2]; try lra.
  destruct (Ho k j _ _ f f' (nth_Fin _ _ _ A1) (nth_Fin _ _ _ A2) F1 F2 I1 I2) as (m & v & w & Nm & Sv & Sw & Ca).
  assert (Vp : 0 < v) by (apply (share_pos (spectral_index s) (energy_min s) (energy_max s) e e'); auto; lra).
  assert (Fv : v * (P (energy_max s) - P (energy_min s)) = P e' - P e).
  { rewrite <- Ei in Sv. apply (flux_share p Diffuse fl P (energy_min s) (energy_max s) e e' v); auto; lra. }
  assert (Fw : w * ring_sr (viewcone_min s) (viewcone_max s) = ring_deg f f') by (apply ring_share; auto).
  assert (Rp : 0 < ring_deg f f'). { apply ring_pos; try lra. unfold deg. pose proof PI_RGT_0. apply Rmult_lt_compat_r; lra. }
  assert (Rv : 0 < ring_sr (viewcone_min s) (viewcone_max s)) by (apply ring_pos; auto).
  assert (Wp : 0 < w) by (destruct (Rle_or_lt w 0); auto; nra).
  specialize (HP P HPr). assert (Np : 0 < IZR (n_showers s)) by (apply IZR_lt; lia).
  assert (Pp : 0 < IZR (n_showers s) * v * w) by (repeat apply Rmult_lt_0_compat; auto).
  assert (Ar : 0 < PI * (max_impact s * max_impact s)). { apply Rmult_lt_0_compat; [apply PI_RGT_0|]. apply Rmult_lt_0_compat; lra. }
  destruct Ca as [(Hp & A & EA & Eq & _)|[(Hz & _)|(Hz & _)]]; [|exfalso; lra..].
  exists A, m. split; auto. split; auto. apply (Rmult_eq_reg_r (PI * (max_impact s * max_impact s))); [|lra]. rewrite <- Eq, <- HP, <- Fv, <- Fw. ring.
Qed.

(** ** counts over the bins of an axis *)
Lemma indicator_sum h n : rsum (map (fun i => INR (if Nat.eqb h (S i) then 1 else 0)) (seq 0 n)) = INR (if Nat.leb 1 h && Nat.leb h n then 1 else 0).
Proof.
  induction n as [|n IH].
  - cbn [seq map]. rewrite rsum_nil. destruct h as [|h]; reflexivity.
  - rewrite seq_S, map_app, rsum_app, IH. cbn [map plus]. rewrite rsum_cons, rsum_nil.
    destruct (Nat.eqb_spec h (S n)) as [->|N].
    + replace (Nat.leb (S n) n) with false by (symmetry; apply Nat.leb_gt; lia). rewrite andb_false_r. rewrite Nat.leb_refl, andb_true_r. cbn. lra.
    + replace (Nat.leb h (S n)) with (Nat.leb h n); [cbn [INR]; lra|]. destruct (Nat.leb_spec h n), (Nat.leb_spec h (S n)); auto; lia.
Qed.
Lemma count_partition {A} (x : A -> nat) (q : A -> bool) n l :
  rsum (map (fun i => INR (count (fun e => Nat.eqb (x e) (S i) && q e) l)) (seq 0 n)) = INR (count (fun e => (Nat.leb 1 (x e) && Nat.leb (x e) n) && q e) l).
Proof.
  induction l as [|a l IH].
  - cbn. apply rsum_map_const0.
  - rewrite count_cons, plus_INR, <- IH.
    rewrite (rsum_map_ext _ (fun i => INR (if Nat.eqb (x a) (S i) && q a then 1 else 0) + INR (count (fun e => Nat.eqb (x e) (S i) && q e) l))).
    2:{ intros i _. rewrite count_cons, plus_INR. reflexivity. }
    rewrite rsum_map_plus. f_equal. destruct (q a).
    + rewrite andb_true_r, <- indicator_sum. apply rsum_map_ext. intros i _. rewrite andb_true_r. reflexivity.
    + rewrite andb_false_r. rewrite (rsum_map_ext _ (fun _ => 0)); [apply rsum_map_const0|]. intros i _. rewrite andb_false_r. reflexivity.
Qed.
Lemma number_unique_count {A} (P : A -> Prop) (p : A -> bool) l n : number_of P l n -> (forall a, In a l -> (p a = true <-> P a)) -> n = count p l.
Proof. intros H Hp. eapply number_of_unique; eauto. apply number_of_count. auto. Qed.
Lemma seq_nth_some n k : (k < n)%nat -> nth_error (seq 0 n) k = Some k.
Proof. intros H. rewrite nth_error_nth' with (d := 0%nat) by (rewrite seq_length; auto). rewrite seq_nth; auto. Qed.
Lemma count_none {A} (p : A -> bool) l : (forall a, In a l -> p a = false) -> count p l = 0%nat.
Proof. induction l as [|a l IH]; intros H; [reflexivity|]. rewrite count_cons, (H a) by (left; auto). rewrite IH; auto. intros; apply H; right; auto. Qed.
Lemma number_of_zero {A} (P : A -> Prop) l : number_of P l 0 -> forall a, In a l -> ~ P a.
Proof. induction l as [|a l IH]; intros H b I; [destruct I|]. inversion H; subst. destruct I as [<-|I]; auto. Qed.
Lemma number_of_le {A} (P Q : A -> Prop) l n m : (forall a, P a -> Q a) -> number_of P l n -> number_of Q l m -> (n <= m)%nat.
Proof. intros H. revert n m. induction l as [|a l IH]; intros n m Hn Hm; inversion Hn; inversion Hm; subst; auto; try (exfalso; auto; fail); try (specialize (IH _ _ ltac:(eassumption) ltac:(eassumption)); lia). Qed.
(** ** folding through the energy migration *)
Theorem c70_fold s T r eb fb rbins evs :
  (0 < n_showers s)%Z -> 0 < energy_min s -> energy_min s < energy_max s -> spectral_index s < -1 -> 0 < max_impact s -> 0 < T -> 0 < r ->
  0 <= viewcone_min s -> viewcone_min s < viewcone_max s -> viewcone_max s <= PI ->
  increasing eb -> (2 <= length eb)%nat -> (forall e, In e eb -> energy_min s <= e <= energy_max s) ->
  increasing fb -> (2 <= length fb)%nat -> (forall f, In f fb -> viewcone_min s <= deg f <= viewcone_max s) ->
  nondecreasing rbins -> (2 <= length rbins)%nat ->
  exists p fl aeff mig, from_simulation s T r = Ok p /\ (forall E, 0 < E -> call (PowerLaw p) (Fin E) = (Fin (fl E), Diffuse)) /\
    effective_area_per_energy_and_fov evs s (map Fin eb) fb = Ok aeff /\
    energy_migration_matrix evs (map Fin eb) rbins (map Fin fb) = Ok mig /\
    forall P, primitive_on positive fl P -> forall j k f f', (j < length rbins - 1)%nat ->
      nth_error fb k = Some f -> nth_error fb (S k) = Some f' ->
      (forall ev, In ev evs -> in_range (map Fin eb) (true_energy ev) -> in_hist_bin (map Fin fb) k (true_fov_offset ev) -> in_range rbins (reco_energy ev)) ->
      exists d m, length d = (length eb - 1)%nat /\
        (forall i e e', nth_error eb i = Some e -> nth_error eb (S i) = Some e' -> exists A M, at_ aeff [i; k] = Fin A /\ at_ mig [i; j; k] = Fin M /\
           nth_error d i = Some (A * (P e' - P e) * T * ring_deg f f' * M)) /\
        number_of (fun ev => in_range (map Fin eb) (true_energy ev) /\ in_hist_bin rbins j (reco_energy ev) /\ in_hist_bin (map Fin fb) k (true_fov_offset ev)) evs m /\
        total d = INR m.
Proof.
  intros Hn E0 E1 Hi Him HT Hr V0 V1 V2 He Le Hin Hf Lf Hfin Hrb Lr.
  assert (Hd : nondecreasing (map Fin eb)) by (apply inc_nondec; auto). assert (Hfd : nondecreasing (map Fin fb)) by (apply inc_nondec; auto).
  assert (Le' : (2 <= length (map Fin eb))%nat) by (rewrite map_length; auto). assert (Lf' : (2 <= length (map Fin fb))%nat) by (rewrite map_length; auto).
  destruct (c70_diffuse s T r eb fb evs Hn E0 E1 Hi Him HT Hr V0 V1 V2 He Le Hin Hf Lf Hfin) as (p & fl & aeff & Ep & Hc & Ea & Ha).
  destruct (c44 evs (map Fin eb) rbins (map Fin fb) Hd Le' Hrb Lr Hfd Lf') as (mig & Em & _ & Hm).
  exists p, fl, aeff, mig. split; auto. split; auto. split; auto. split; auto. intros P HP j k f f' Hj F1 F2 Hreco.
  assert (Hk : (k < length (map Fin fb) - 1)%nat) by (rewrite map_length; apply nth_some_lt in F2; lia).
  set (q := fun ev => Nat.eqb (hdd_index rbins (reco_energy ev)) (S j) && Nat.eqb (hdd_index (map Fin fb) (true_fov_offset ev)) (S k)).
  assert (Hq : forall ev, q ev = true <-> in_hist_bin rbins j (reco_energy ev) /\ in_hist_bin (map Fin fb) k (true_fov_offset ev)).
  { intros ev. unfold q. rewrite andb_true_iff, !Nat.eqb_eq, !hdd_spec by auto. tauto. }
  exists (map (fun i => INR (count (fun ev => Nat.eqb (hdd_index (map Fin eb) (true_energy ev)) (S i) && q ev) evs)) (seq 0 (length eb - 1))).
  exists (count (fun ev => (Nat.leb 1 (hdd_index (map Fin eb) (true_energy ev)) && Nat.leb (hdd_index (map Fin eb) (true_energy ev)) (length eb - 1)) && q ev) evs).
  split; [rewrite map_length, seq_length; auto|]. split; [|split].
  - intros i e e' A1 A2. assert (Hi' : (i < length (map Fin eb) - 1)%nat) by (rewrite map_length; apply nth_some_lt in A2; lia).
    destruct (Ha P HP i k e e' f f' A1 A2 F1 F2) as (A & N & EA & Nn & Eq).
    destruct (c44_value evs (map Fin eb) rbins (map Fin fb) Hd Le' Hrb Lr Hfd Lf' i j k Hi' Hj Hk) as (mig' & n & m & Em' & Cn & Cm & Ev).
    rewrite Em in Em'. injection Em' as <-.
    assert (En : n = count (fun ev => Nat.eqb (hdd_index (map Fin eb) (true_energy ev)) (S i) && q ev) evs).
    { apply (number_unique_count _ _ _ _ Cn). intros ev _. rewrite andb_true_iff, Nat.eqb_eq, hdd_spec, Hq by auto. tauto. }
    assert (Emn : m = N).
    { apply (number_of_unique _ _ _ _ Cm).
      assert (EN : N = count (fun ev => Nat.eqb (hdd_index (map Fin eb) (true_energy ev)) (S i) && Nat.eqb (hdd_index (map Fin fb) (true_fov_offset ev)) (S k)) evs).
      { apply (number_unique_count _ _ _ _ Nn). intros ev _. rewrite andb_true_iff, !Nat.eqb_eq, !hdd_spec by auto. tauto. }
      rewrite EN. apply number_of_count. intros ev Iev. rewrite andb_true_iff, !Nat.eqb_eq, !hdd_spec by auto. split; [|tauto]. intros [B1 B2]. split; auto. split; auto.
      apply Hreco; auto. apply hdd_range; auto. apply hdd_spec in B1; auto. lia. }
    subst m. destruct (Hm i k Hi' Hk) as (d & Ld & Hd1 & _). destruct (nth_some_ex d j) as [M EM]; [lia|]. destruct (Hd1 j M EM) as [EM' _].
    exists A, M. split; auto. split; auto. rewrite nth_error_map, seq_nth_some by (rewrite map_length in Hi'; lia). cbn [option_map]. f_equal. rewrite <- En, Eq.
    destruct (Nat.eq_dec N 0) as [->|NZ].
    + assert (n = 0)%nat as ->; [|cbn; lra]. assert (forall ev, In ev evs -> ~ (in_hist_bin (map Fin eb) i (true_energy ev) /\ in_hist_bin (map Fin fb) k (true_fov_offset ev))) as Z.
      { intros ev Iev B. apply (number_of_zero _ _ Nn ev Iev B). }
      rewrite En. apply count_none. intros ev Iev. destruct (Nat.eqb_spec (hdd_index (map Fin eb) (true_energy ev)) (S i)) as [B|B]; auto. cbn [andb].
      destruct (q ev) eqn:Q; auto. exfalso. apply (Z ev Iev). apply Hq in Q. apply hdd_spec in B; auto. tauto.
    + rewrite Ev in EM' by lia. injection EM' as <-. field. apply not_0_INR. auto.
  - apply number_of_count. intros ev _. rewrite !andb_true_iff, !Nat.leb_le, Hq. rewrite <- (map_length Fin eb), hdd_range by auto. tauto.
  - rewrite total_rsum. apply count_partition.
Qed.
(** without the condition on the reconstructed energies the folded number is at least the number of events *)
Theorem c70_fold_least s T r eb fb rbins evs :
  (0 < n_showers s)%Z -> 0 < energy_min s -> energy_min s < energy_max s -> spectral_index s < -1 -> 0 < max_impact s -> 0 < T -> 0 < r ->
  0 <= viewcone_min s -> viewcone_min s < viewcone_max s -> viewcone_max s <= PI ->
  increasing eb -> (2 <= length eb)%nat -> (forall e, In e eb -> energy_min s <= e <= energy_max s) ->
  increasing fb -> (2 <= length fb)%nat -> (forall f, In f fb -> viewcone_min s <= deg f <= viewcone_max s) ->
  nondecreasing rbins -> (2 <= length rbins)%nat ->
  exists p fl aeff mig, from_simulation s T r = Ok p /\ (forall E, 0 < E -> call (PowerLaw p) (Fin E) = (Fin (fl E), Diffuse)) /\
    effective_area_per_energy_and_fov evs s (map Fin eb) fb = Ok aeff /\
    energy_migration_matrix evs (map Fin eb) rbins (map Fin fb) = Ok mig /\
    forall P, primitive_on positive fl P -> forall j k f f', (j < length rbins - 1)%nat ->
      nth_error fb k = Some f -> nth_error fb (S k) = Some f' ->
      exists d m, length d = (length eb - 1)%nat /\
        (forall i e e', nth_error eb i = Some e -> nth_error eb (S i) = Some e' -> exists A M, at_ aeff [i; k] = Fin A /\ at_ mig [i; j; k] = Fin M /\
           nth_error d i = Some (A * (P e' - P e) * T * ring_deg f f' * M)) /\
        number_of (fun ev => in_range (map Fin eb) (true_energy ev) /\ in_hist_bin rbins j (reco_energy ev) /\ in_hist_bin (map Fin fb) k (true_fov_offset ev)) evs m /\
        INR m <= total d.
Proof.
  intros Hn E0 E1 Hi Him HT Hr V0 V1 V2 He Le Hin Hf Lf Hfin Hrb Lr.
  assert (Hd : nondecreasing (map Fin eb)) by (apply inc_nondec; auto). assert (Hfd : nondecreasing (map Fin fb)) by (apply inc_nondec; auto).
  assert (Le' : (2 <= length (map Fin eb))%nat) by (rewrite map_length; auto). assert (Lf' : (2 <= length (map Fin fb))%nat) by (rewrite map_length; auto).
  destruct (c70_diffuse s T r eb fb evs Hn E0 E1 Hi Him HT Hr V0 V1 V2 He Le Hin Hf Lf Hfin) as (p & fl & aeff & Ep & Hc & Ea & Ha).
  destruct (c44 evs (map Fin eb) rbins (map Fin fb) Hd Le' Hrb Lr Hfd Lf') as (mig & Em & _ & Hm).
  exists p, fl, aeff, mig. split; auto. split; auto. split; auto. split; auto. intros P HP j k f f' Hj F1 F2.
  assert (Hk : (k < length (map Fin fb) - 1)%nat) by (rewrite map_length; apply nth_some_lt in F2; lia).
  set (q := fun ev => Nat.eqb (hdd_index rbins (reco_energy ev)) (S j) && Nat.eqb (hdd_index (map Fin fb) (true_fov_offset ev)) (S k)).
  assert (Hq : forall ev, q ev = true <-> in_hist_bin rbins j (reco_energy ev) /\ in_hist_bin (map Fin fb) k (true_fov_offset ev)).
  { intros ev. unfold q. rewrite andb_true_iff, !Nat.eqb_eq, !hdd_spec by auto. tauto. }
  set (g := fun i => match nth_error eb i, nth_error eb (S i), at_ aeff [i; k], at_ mig [i; j; k] with
                     | Some e, Some e', Fin A, Fin M => A * (P e' - P e) * T * ring_deg f f' * M | _, _, _, _ => 0 end).
  assert (G : forall i e e', nth_error eb i = Some e -> nth_error eb (S i) = Some e' -> exists A M, at_ aeff [i; k] = Fin A /\ at_ mig [i; j; k] = Fin M /\
     INR (count (fun ev => Nat.eqb (hdd_index (map Fin eb) (true_energy ev)) (S i) && q ev) evs) <= A * (P e' - P e) * T * ring_deg f f' * M).
  { intros i e e' A1 A2. assert (Hi' : (i < length (map Fin eb) - 1)%nat) by (rewrite map_length; apply nth_some_lt in A2; lia).
    destruct (Ha P HP i k e e' f f' A1 A2 F1 F2) as (A & N & EA & Nn & Eq).
    destruct (c44_value evs (map Fin eb) rbins (map Fin fb) Hd Le' Hrb Lr Hfd Lf' i j k Hi' Hj Hk) as (mig' & n & m & Em' & Cn & Cm & Ev).
    rewrite Em in Em'. injection Em' as <-.
    assert (En : n = count (fun ev => Nat.eqb (hdd_index (map Fin eb) (true_energy ev)) (S i) && q ev) evs).
    { apply (number_unique_count _ _ _ _ Cn). intros ev _. rewrite andb_true_iff, Nat.eqb_eq, hdd_spec, Hq by auto. tauto. }
    assert (nm : (n <= m)%nat). { refine (number_of_le _ _ evs n m _ Cn Cm). intros ev (B1 & B2 & B3). split; auto. split; auto.
      apply hdd_range; auto. apply hdd_spec in B2; auto. lia. }
    assert (mN : (m <= N)%nat). { refine (number_of_le _ _ evs m N _ Cm Nn). intros ev (B1 & B2 & B3). auto. }
    destruct (Hm i k Hi' Hk) as (d & Ld & Hd1 & _). destruct (nth_some_ex d j) as [M EM]; [lia|]. destruct (Hd1 j M EM) as [EM' BM].
    exists A, M. split; auto. split; auto. rewrite <- En, Eq. destruct (Nat.eq_dec m 0) as [Z|NZ].
    + replace n with 0%nat by lia. cbn [INR]. apply Rmult_le_pos; [apply pos_INR|lra].
    + rewrite Ev in EM' by lia. injection EM' as <-. apply le_INR in mN. assert (0 < INR m) by (apply lt_0_INR; lia). pose proof (pos_INR n).
      apply (Rmult_le_reg_r (INR m)); auto. replace (INR N * (INR n / INR m) * INR m) with (INR N * INR n) by (field; lra). nra. }
  exists (map g (seq 0 (length eb - 1))).
  exists (count (fun ev => (Nat.leb 1 (hdd_index (map Fin eb) (true_energy ev)) && Nat.leb (hdd_index (map Fin eb) (true_energy ev)) (length eb - 1)) && q ev) evs).
  split; [rewrite map_length, seq_length; auto|]. split; [|split].
  - intros i e e' A1 A2. destruct (G i e e' A1 A2) as (A & M & EA & EM & _). exists A, M. split; auto. split; auto.
    rewrite nth_error_map, seq_nth_some by (apply nth_some_lt in A2; lia). cbn [option_map]. f_equal. unfold g. rewrite A1, A2, EA, EM. reflexivity.
  - apply number_of_count. intros ev _. rewrite !andb_true_iff, !Nat.leb_le, Hq. rewrite <- (map_length Fin eb), hdd_range by auto. tauto.
  - rewrite total_rsum, <- count_partition. apply rsum_le_map. intros i Hi'. apply in_seq in Hi'.
    destruct (nth_some_ex eb i) as [e A1]; [lia|]. destruct (nth_some_ex eb (S i)) as [e' A2]; [lia|].
    destruct (G i e e' A1 A2) as (A & M & EA & EM & L). unfold g. rewrite A1, A2, EA, EM. exact L.
Qed.
