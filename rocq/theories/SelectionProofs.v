(** * SelectionProofs: proofs for C90 *)
From Coq Require Import String Reals List Bool ZArith Lia Lra Permutation.
From Verif Require Import Num Numpy Table Binning Utils Simulations Tensor IRF Cuts SpecBinning SpecUtils SpecSimulations SpecIRF SpecTrend SpecSelection
  BinningProofs HistProofs TensorProofs IRFProofs IRFProofs2 IRFProofs3 IRFProofs4 MergeProofs SimulationsProofs PipelineProofs TrendProofs2 Lists.
Import ListNotations.
Open Scope R_scope.

Lemma filter_contained {A} (f : A -> bool) l : contained (filter f l) l.
Proof.
  exists (filter (fun a => negb (f a)) l). induction l as [|a l IH]; cbn; auto. destruct (f a); cbn; auto.
  eapply perm_trans; [apply perm_skip, IH|]. apply Permutation_middle.
Qed.
Lemma contained_trans {A} (l1 l2 l3 : list A) : contained l1 l2 -> contained l2 l3 -> contained l1 l3.
Proof.
  intros (r & H) (r' & H'). exists (r ++ r'). rewrite app_assoc. eapply perm_trans; [exact H'|]. apply Permutation_app_tail. auto.
Qed.
Lemma kept_contained {A} (m1 m : list bool) (l : list A) : Forall2 (fun b1 b => b1 = true -> b = true) m1 m -> contained (kept m1 l) (kept m l).
Proof.
  intros H. revert l. induction H as [|b1 b m1 m Hb H IH]; intros l; [exists []; cbn; auto|].
  destruct l as [|a l]; [exists []; cbn; destruct b1, b; auto|]. destruct (IH l) as (r & P). cbn [kept]. destruct b1; [rewrite Hb by auto|destruct b].
  - exists r. cbn. auto.
  - exists (a :: r). eapply perm_trans; [apply perm_skip, P|]. apply Permutation_middle.
  - exists r. auto.
Qed.
Lemma kept_all {A} (m : list bool) (l : list A) : contained (kept m l) l.
Proof.
  revert l. induction m as [|b m IH]; intros [|a l]; [exists []; auto|exists (a :: l); cbn; auto|exists []; destruct b; auto|]. destruct (IH l) as (r & P). cbn [kept]. destruct b.
  - exists r. cbn. auto.
  - exists (a :: r). eapply perm_trans; [apply perm_skip, P|]. apply Permutation_middle.
Qed.
Definition stronger (op : num -> num -> bool) (c1 c : num) : Prop := forall x, op x c1 = true -> op x c = true.
Lemma np_index_tighter op cuts1 cuts z c1 : Forall2 (stronger op) cuts1 cuts -> np_index cuts1 z = Ok c1 -> exists c, np_index cuts z = Ok c /\ stronger op c1 c.
Proof.
  intros H. unfold np_index. assert (L : List.length cuts1 = List.length cuts) by (clear z c1; induction H; cbn; auto). rewrite L.
  assert (G : forall k c1, nth_error cuts1 k = Some c1 -> exists c, nth_error cuts k = Some c /\ stronger op c1 c).
  { clear z c1 L. induction H as [|a b l l' Hab H IH]; intros [|k] c1 E; cbn in E; try discriminate; [inversion E; subst; exists b; split; [reflexivity|exact Hab]|cbn [nth_error]; apply IH; exact E]. }
  cbn zeta. match goal with |- context[if ?b then Err _ else _] => destruct b end; [discriminate|].
  match goal with |- context[nth_error cuts1 ?k] => destruct (nth_error cuts1 k) eqn:E end; [|discriminate]. intros X; inversion X; subst. destruct (G _ _ E) as (c & -> & Hc). eauto.
Qed.
Lemma eval_tighter op cuts1 cuts : Forall2 (stronger op) cuts1 cuts -> forall values idx valid m1, eval_rows op cuts1 values idx valid = Ok m1 ->
  exists m, eval_rows op cuts values idx valid = Ok m /\ Forall2 (fun b1 b => b1 = true -> b = true) m1 m.
Proof.
  intros H. induction values as [|x values IH]; intros [|z idx] [|v valid] m1 E; cbn [eval_rows] in *; try (inversion E; subst; eauto; fail).
  destruct v.
  - destruct (np_index cuts1 z) as [c1|] eqn:I; cbn [rbind] in E; [|discriminate]. destruct (np_index_tighter _ _ _ _ _ H I) as (c & -> & Hc). cbn [rbind].
    destruct (eval_rows op cuts1 values idx valid) as [bs|] eqn:B; cbn [rbind] in E; [|discriminate]. inversion E; subst. destruct (IH _ _ _ B) as (m & -> & Hm). cbn [rbind]. eauto.
  - cbn [rbind] in *. destruct (eval_rows op cuts1 values idx valid) as [bs|] eqn:B; cbn [rbind] in E; [|discriminate]. inversion E; subst. destruct (IH _ _ _ B) as (m & -> & Hm). cbn [rbind]. eauto.
Qed.
Lemma cut_tighter q values xs low high u op cuts1 cuts m1 : Forall2 (fun c1 c => forall x, op x c1 = true -> op x c = true) cuts1 cuts ->
  evaluate_binned_cut q values xs low high u cuts1 op = Ok m1 ->
  exists m, evaluate_binned_cut q values xs low high u cuts op = Ok m /\ Forall2 (fun b1 b => b1 = true -> b = true) m1 m.
Proof.
  intros H. unfold evaluate_binned_cut. destruct q; cbn [negb]; [|discriminate]. destruct (rev high) as [|h r]; [discriminate|].
  destruct (calculate_bin_indices xs (mkArr (low ++ [h]) u)) as [[i v]|]; cbn [rbind fst snd]; [|discriminate].
  unfold evaluate_binned_cut_by_index. cbn [negb]. destruct (Nat.eqb (List.length values) (List.length i)); cbn [negb]; [|discriminate].
  destruct (Nat.eqb (List.length v) (List.length i)); cbn [negb]; [|discriminate]. apply eval_tighter. exact H.
Qed.
Lemma number_perm {A} (P : A -> Prop) l l' n : Permutation l l' -> number_of P l n -> number_of P l' n.
Proof.
  intros H. revert n. induction H; intros n Hn; auto.
  - inversion Hn; subst; constructor; auto.
  - inversion Hn as [|? ? ? Hx H1|? ? ? Hx H1]; subst; inversion H1; subst; try (apply no_yes; [assumption|]); try (apply no_no; [assumption|]); try assumption;
      try (apply no_yes; [assumption|]); try (apply no_no; [assumption|]); assumption.
Qed.
Lemma number_split {A} (P : A -> Prop) l l' n : number_of P (l ++ l') n -> exists a b, number_of P l a /\ number_of P l' b /\ n = (a + b)%nat.
Proof.
  revert n. induction l as [|x l IH]; cbn; intros n H.
  - exists 0%nat, n. repeat split; auto. constructor.
  - inversion H as [|? ? m Hx H1|? ? m Hx H1]; subst; apply IH in H1 as (a & b & Ha & Hb & ->).
    + exists (S a), b. repeat split; auto. constructor; auto.
    + exists a, b. repeat split; auto. constructor; auto.
Qed.
Lemma number_contained {A} (P : A -> Prop) l l' m m' : contained l l' -> number_of P l m -> number_of P l' m' -> (m <= m')%nat.
Proof.
  intros (rest & H) Hm Hm'. apply (number_perm _ _ _ _ H) in Hm'. apply number_split in Hm' as (a & b & Ha & Hb & ->).
  rewrite (number_of_unique _ _ _ _ Hm Ha). lia.
Qed.
Lemma area_efficiency m1 m n area x1 x : (m1 <= m)%nat -> collection_area (INR m1) n area x1 -> collection_area (INR m) n area x -> 0 < area -> efficiency m1 m x1 x.
Proof.
  intros L H1 H Ha. split; auto. apply le_INR in L.
  destruct H1 as [(N1 & A1 & -> & E1 & P1 & _)|[(N1 & K1 & ->)|(N1 & K1 & ->)]], H as [(N & A & -> & E & P & _)|[(N & K & ->)|(N & K & ->)]]; try lra.
  - left. exists A1, A. repeat split; auto.
    + apply Rmult_le_reg_r with n; auto. rewrite E1, E. apply Rmult_le_compat_r; lra.
    + apply Rmult_eq_reg_r with n; [|lra]. replace (A1 * INR m * n) with (A1 * n * INR m) by ring. replace (A * INR m1 * n) with (A * n * INR m1) by ring. rewrite E1, E. ring.
  - right; left. repeat split; auto. apply INR_eq. auto.
  - right; right; right. repeat split; auto; [|apply INR_eq; auto]. intros ->. cbn in K. lra.
  - right; right; left. repeat split; auto. intros ->. cbn in K1. lra.
Qed.
Lemma area_pos s : max_impact s <> 0 -> 0 < PI * (max_impact s * max_impact s).
Proof. intros H. pose proof PI_RGT_0. apply Rmult_lt_0_compat; auto. destruct (Rdichotomy _ _ H); nra. Qed.
Lemma hist_selected small large hw hp hw' hp' edges key : nondecreasing edges -> (2 <= List.length edges)%nat -> contained small large ->
  exists t1 t n1 n, create_histogram_table (mkEvents small hw' hp') edges key = Ok t1 /\ create_histogram_table (mkEvents large hw hp) edges key = Ok t /\
  getitem t1 "n" = Some (CZ n1) /\ getitem t "n" = Some (CZ n) /\ List.length n1 = List.length n /\
  forall k c1 c, nth_error n1 k = Some c1 -> nth_error n k = Some c -> (0 <= c1 <= c)%Z.
Proof.
  intros H L C. destruct (c04 (mkEvents large hw hp) edges key H L) as (t & n & E & G & (Ln & Hh) & _).
  destruct (c04 (mkEvents small hw' hp') edges key H L) as (t1 & n1 & E1 & G1 & (Ln1 & Hh1) & _).
  exists t1, t, n1, n. repeat (split; [assumption|]). split; [congruence|]. intros k c1 c Ec1 Ec.
  destruct (Hh k c Ec) as (m & -> & M). destruct (Hh1 k c1 Ec1) as (m1 & -> & M1). cbn [et_rows] in *. pose proof (number_contained _ _ _ _ _ C M1 M). lia.
Qed.
Lemma hist_selected_w small large hp edges key : nondecreasing edges -> (2 <= List.length edges)%nat -> contained small large -> (forall e, In e large -> 0 <= ev_w e) ->
  (hp = true -> forall e, In e large -> ev_p e <> "weighted"%string) ->
  exists t1 t n1 n, create_histogram_table (mkEvents small true hp) edges key = Ok t1 /\ create_histogram_table (mkEvents large true hp) edges key = Ok t /\
  getitem t1 "n_weighted" = Some (CN (map Fin n1)) /\ getitem t "n_weighted" = Some (CN (map Fin n)) /\ List.length n1 = List.length n /\
  forall k c1 c, nth_error n1 k = Some c1 -> nth_error n k = Some c -> 0 <= c1 <= c.
Proof.
  intros H L C W Hp. assert (I : forall e, In e small -> In e large).
  { intros e I. destruct C as (rest & Hr). eapply Permutation_in; [symmetry; exact Hr|]. apply in_or_app. auto. }
  destruct (c04_weighted (mkEvents large true hp) edges key H L eq_refl) as (t & n & E & G & (Ln & Hh) & _); [exact Hp|].
  destruct (c04_weighted (mkEvents small true hp) edges key H L eq_refl) as (t1 & n1 & E1 & G1 & (Ln1 & Hh1) & _); [cbn; auto|].
  exists t1, t, n1, n. repeat (split; [assumption|]). split; [congruence|]. intros k c1 c Ec1 Ec.
  pose proof (Hh k c Ec) as M. pose proof (Hh1 k c1 Ec1) as M1. cbn [et_rows] in *. split; [|eapply weight_contained; eauto].
  eapply weight_of_nonneg; [|exact M1]. auto.
Qed.
Section Area.
Variables (s : sim_info) (ebins : list num).
Hypotheses (Hn : (0 < n_showers s)%Z) (Hi : max_impact s <> 0) (E0 : 0 < energy_min s) (E1 : energy_min s < energy_max s) (E2 : spectral_index s < -1)
  (He : nondecreasing ebins) (Le : (2 <= List.length ebins)%nat).
Let eunique e e' v w : share positive (power_law (spectral_index s)) (energy_min s) (energy_max s) e e' v -> share positive (power_law (spectral_index s)) (energy_min s) (energy_max s) e e' w -> v = w.
Proof. intros A B. eapply (share_unique positive); [| |exact A|exact B]; [lra|]. intros x Hx. unfold positive. lra. Qed.
Lemma area_selected_energy small large hw hp hw' hp' : contained small large ->
  exists out1 out, effective_area_per_energy (mkEvents small hw' hp') s ebins = Ok out1 /\ effective_area_per_energy (mkEvents large hw hp) s ebins = Ok out /\ shape out1 = shape out /\
  forall k lo hi, nth_error ebins k = Some lo -> nth_error ebins (S k) = Some hi -> energy_bin lo hi -> ~ overhangs (energy_min s) (energy_max s) lo hi ->
  exists m1 m, number_of (fun e => in_hist_bin ebins k (ev_x e)) small m1 /\ number_of (fun e => in_hist_bin ebins k (ev_x e)) large m /\
    efficiency m1 m (at_ out1 [k]) (at_ out [k]).
Proof.
  intros C. destruct (c42_energy s ebins Hn Hi E0 E1 E2 He Le (mkEvents small hw' hp')) as (out1 & Eo1 & S1 & H1).
  destruct (c42_energy s ebins Hn Hi E0 E1 E2 He Le (mkEvents large hw hp)) as (out & Eo & S & H). exists out1, out. repeat (split; [assumption|]). split; [congruence|].
  intros k lo hi A B D F. destruct (H1 k lo hi A B D F) as (m1 & v1 & M1 & V1 & X1). destruct (H k lo hi A B D F) as (m & v & M & V & X). cbn [et_rows] in *.
  exists m1, m. split; [exact M1|]. split; [exact M|]. rewrite (eunique _ _ _ _ V1 V) in X1. eapply area_efficiency; eauto; [eapply number_contained; eauto|apply area_pos; auto].
Qed.
Hypotheses (F0 : 0 <= viewcone_min s) (F1 : viewcone_min s < viewcone_max s) (F2 : viewcone_max s <= PI).
Let funique e e' v w : share everywhere per_solid_angle (viewcone_min s) (viewcone_max s) e e' v -> share everywhere per_solid_angle (viewcone_min s) (viewcone_max s) e e' w -> v = w.
Proof. intros A B. eapply (share_unique everywhere); [| |exact A|exact B]; [lra|]. intros x Hx. exact I. Qed.
Variables (small large : list dl2) (fbins : list R).
Hypotheses (C : contained small large) (Hf : increasing fbins) (Lf : (2 <= List.length fbins)%nat).
Lemma area_selected_fov :
  exists out1 out, effective_area_per_energy_and_fov small s ebins fbins = Ok out1 /\ effective_area_per_energy_and_fov large s ebins fbins = Ok out /\ shape out1 = shape out /\
  forall k j e e', nth_error ebins k = Some e -> nth_error ebins (S k) = Some e' -> (j < List.length fbins - 1)%nat -> energy_bin e e' -> ~ overhangs (energy_min s) (energy_max s) e e' ->
  exists m1 m, number_of (fun ev => in_hist_bin ebins k (true_energy ev) /\ in_hist_bin (map Fin fbins) j (true_fov_offset ev)) small m1 /\
    number_of (fun ev => in_hist_bin ebins k (true_energy ev) /\ in_hist_bin (map Fin fbins) j (true_fov_offset ev)) large m /\
    efficiency m1 m (at_ out1 [k; j]) (at_ out [k; j]).
Proof.
  destruct (c42_fov s ebins Hn Hi E0 E1 E2 He Le F0 F1 F2 small fbins Hf Lf) as (out1 & Eo1 & S1 & H1).
  destruct (c42_fov s ebins Hn Hi E0 E1 E2 He Le F0 F1 F2 large fbins Hf Lf) as (out & Eo & S & H). exists out1, out. repeat (split; [assumption|]). split; [congruence|].
  intros k j e e' A B J D F. destruct (nth_some_ex fbins j) as [f Ff]; [lia|]. destruct (nth_some_ex fbins (Datatypes.S j)) as [f' Ff']; [lia|].
  destruct (H1 k j e e' f f' A B Ff Ff' D F) as (m1 & v1 & w1 & M1 & V1 & W1 & X1). destruct (H k j e e' f f' A B Ff Ff' D F) as (m & v & w & M & V & W & X).
  exists m1, m. split; [exact M1|]. split; [exact M|]. rewrite (eunique _ _ _ _ V1 V), (funique _ _ _ _ W1 W) in X1.
  eapply area_efficiency; eauto; [eapply number_contained; eauto|apply area_pos; auto].
Qed.
Lemma area_selected_polar pbins : increasing pbins -> (2 <= List.length pbins)%nat ->
  exists out1 out, effective_area_3d_polar small s ebins fbins pbins = Ok out1 /\ effective_area_3d_polar large s ebins fbins pbins = Ok out /\ shape out1 = shape out /\
  forall k j i e e', nth_error ebins k = Some e -> nth_error ebins (S k) = Some e' -> (j < List.length fbins - 1)%nat -> (i < List.length pbins - 1)%nat ->
  energy_bin e e' -> ~ overhangs (energy_min s) (energy_max s) e e' ->
  exists m1 m, number_of (fun ev => in_hist_bin ebins k (true_energy ev) /\ in_hist_bin (map Fin fbins) j (true_fov_offset ev) /\ in_hist_bin (map Fin pbins) i (true_fov_pa ev)) small m1 /\
    number_of (fun ev => in_hist_bin ebins k (true_energy ev) /\ in_hist_bin (map Fin fbins) j (true_fov_offset ev) /\ in_hist_bin (map Fin pbins) i (true_fov_pa ev)) large m /\
    efficiency m1 m (at_ out1 [k; j; i]) (at_ out [k; j; i]).
Proof.
  intros Hp Lp. destruct (c42_polar s ebins Hn Hi E0 E1 E2 He Le F0 F1 F2 small fbins Hf Lf pbins Hp Lp) as (out1 & Eo1 & S1 & H1).
  destruct (c42_polar s ebins Hn Hi E0 E1 E2 He Le F0 F1 F2 large fbins Hf Lf pbins Hp Lp) as (out & Eo & S & H). exists out1, out. repeat (split; [assumption|]). split; [congruence|].
  intros k j i e e' A B J K D F. destruct (nth_some_ex fbins j) as [f Ff]; [lia|]. destruct (nth_some_ex fbins (Datatypes.S j)) as [f' Ff']; [lia|].
  destruct (H1 k j i e e' f f' A B Ff Ff' K D F) as (m1 & v1 & w1 & M1 & V1 & W1 & X1). destruct (H k j i e e' f f' A B Ff Ff' K D F) as (m & v & w & M & V & W & X).
  exists m1, m. split; [exact M1|]. split; [exact M|]. rewrite (eunique _ _ _ _ V1 V), (funique _ _ _ _ W1 W) in X1.
  eapply area_efficiency; eauto; [eapply number_contained; eauto|apply area_pos; auto].
Qed.
Lemma area_selected_lonlat lon lat n sim : increasing lon -> (2 <= List.length lon)%nat -> increasing lat -> (2 <= List.length lat)%nat -> (0 < n)%nat -> List.length lon = List.length lat ->
  calculate_n_showers_3d_lonlat s ebins degree degree lon lat n = Ok sim ->
  exists out1 out, effective_area_3d_lonlat small s ebins lon lat n = Ok out1 /\ effective_area_3d_lonlat large s ebins lon lat n = Ok out /\
  forall k j i N, (k < List.length ebins - 1)%nat -> (j < List.length lon - 1)%nat -> (i < List.length lat - 1)%nat -> entry3 sim k j i (Fin N) -> 0 <= N ->
  exists m1 m, number_of (fun ev => in_hist_bin ebins k (true_energy ev) /\ in_hist_bin (map Fin lon) j (true_fov_lon ev) /\ in_hist_bin (map Fin lat) i (true_fov_lat ev)) small m1 /\
    number_of (fun ev => in_hist_bin ebins k (true_energy ev) /\ in_hist_bin (map Fin lon) j (true_fov_lon ev) /\ in_hist_bin (map Fin lat) i (true_fov_lat ev)) large m /\
    efficiency m1 m (at_ out1 [k; j; i]) (at_ out [k; j; i]).
Proof.
  intros A1 A2 B1 B2 P Q Es. destruct (c42_lonlat_square s ebins Hn Hi E0 E1 E2 He Le F0 F1 F2 small lon A2 lon lat n A1 A2 B1 B2 P sim Q Es) as (out1 & Eo1 & H1).
  destruct (c42_lonlat_square s ebins Hn Hi E0 E1 E2 He Le F0 F1 F2 large lon A2 lon lat n A1 A2 B1 B2 P sim Q Es) as (out & Eo & H). exists out1, out. repeat (split; [assumption|]).
  intros k j i N K J I HN PN. destruct (H1 k j i N K J I HN PN) as (m1 & M1 & X1). destruct (H k j i N K J I HN PN) as (m & M & X).
  exists m1, m. split; [exact M1|]. split; [exact M|]. eapply area_efficiency; eauto; [eapply number_contained; eauto|apply area_pos; auto].
Qed.
End Area.
Lemma rate_selection W1 W c r1 r : W1 <= W -> 0 < c -> r1 * c = W1 -> r * c = W -> rate_of_selection W1 W (Fin r1) (Fin r).
Proof.
  intros L Hc <- <-. split; auto. exists r1, r. repeat split; auto; [|ring]. apply Rmult_le_reg_r with c; auto.
Qed.
Lemma background_selected_2d small large ebins fbins t_obs : contained small large -> (forall ev, In ev large -> 0 <= weight ev) ->
  increasing ebins -> (2 <= List.length ebins)%nat -> angles fbins -> (2 <= List.length fbins)%nat -> 0 < t_obs ->
  exists out1 out, background_2d small (map Fin ebins) fbins t_obs = Ok out1 /\ background_2d large (map Fin ebins) fbins t_obs = Ok out /\ shape out1 = shape out /\
  forall i j, (i < List.length ebins - 1)%nat -> (j < List.length fbins - 1)%nat -> exists W1 W,
    weight_of weight (fun ev => in_hist_bin (map Fin ebins) i (reco_energy ev) /\ in_hist_bin (map Fin fbins) j (reco_fov_offset ev)) small W1 /\
    weight_of weight (fun ev => in_hist_bin (map Fin ebins) i (reco_energy ev) /\ in_hist_bin (map Fin fbins) j (reco_fov_offset ev)) large W /\
    rate_of_selection W1 W (at_ out1 [i; j]) (at_ out [i; j]).
Proof.
  intros C W0 He Le Hf Lf Ht.
  destruct (c46_bin small ebins fbins t_obs He Le Hf Lf Ht) as (out1 & Eo1 & S1 & H1). destruct (c46_bin large ebins fbins t_obs He Le Hf Lf Ht) as (out & Eo & S & H).
  exists out1, out. repeat (split; [assumption|]). split; [congruence|]. intros i j I J.
  destruct (nth_some_ex ebins i) as [e A]; [lia|]. destruct (nth_some_ex ebins (Datatypes.S i)) as [e' A']; [lia|].
  destruct (nth_some_ex fbins j) as [f B]; [lia|]. destruct (nth_some_ex fbins (Datatypes.S j)) as [f' B']; [lia|].
  destruct (H1 i j e e' f f' A A' B B') as (r1 & W1 & -> & X1 & Q1). destruct (H i j e e' f f' A A' B B') as (r & W & -> & X & Q).
  exists W1, W. split; [exact X1|]. split; [exact X|]. pose proof (He _ _ _ A A').
  pose proof (angles_ring fbins j Hf (nth_some_lt _ _ _ B')) as HR. rewrite (nth_error_nth _ _ _ B), (nth_error_nth _ _ _ B') in HR.
  apply rate_selection with (c := (e' - e) * t_obs * ring_deg f f'); [eapply weight_contained; eauto|apply Rmult_lt_0_compat; [apply Rmult_lt_0_compat; lra|exact HR]|rewrite <- Q1; ring|rewrite <- Q; ring].
Qed.
Lemma background_selected_3d small large ebins lon lat t_obs : contained small large -> (forall ev, In ev large -> 0 <= weight ev) ->
  increasing ebins -> (2 <= List.length ebins)%nat -> increasing lon -> (2 <= List.length lon)%nat -> latitudes lat -> (2 <= List.length lat)%nat -> 0 < t_obs ->
  uniform lon -> List.length lon = List.length lat \/ List.length lon = 2%nat ->
  exists out1 out, background_3d_lonlat small (map Fin ebins) lon lat t_obs = Ok out1 /\ background_3d_lonlat large (map Fin ebins) lon lat t_obs = Ok out /\ shape out1 = shape out /\
  forall i j k, (i < List.length ebins - 1)%nat -> (j < List.length lon - 1)%nat -> (k < List.length lat - 1)%nat -> exists W1 W,
    weight_of weight (fun ev => in_hist_bin (map Fin ebins) i (reco_energy ev) /\ in_hist_bin (map Fin lon) j (reco_fov_lon ev) /\ in_hist_bin (map Fin lat) k (reco_fov_lat ev)) small W1 /\
    weight_of weight (fun ev => in_hist_bin (map Fin ebins) i (reco_energy ev) /\ in_hist_bin (map Fin lon) j (reco_fov_lon ev) /\ in_hist_bin (map Fin lat) k (reco_fov_lat ev)) large W /\
    rate_of_selection W1 W (at_ out1 [i; j; k]) (at_ out [i; j; k]).
Proof.
  intros C W0 He Le Hl Ll Hb Lb Ht U N.
  destruct (c47_bin small ebins lon lat t_obs He Le Hl Ll Hb Lb Ht U N) as (out1 & Eo1 & S1 & H1). destruct (c47_bin large ebins lon lat t_obs He Le Hl Ll Hb Lb Ht U N) as (out & Eo & S & H).
  exists out1, out. repeat (split; [assumption|]). split; [congruence|]. intros i j k I J K.
  destruct (nth_some_ex ebins i) as [e A]; [lia|]. destruct (nth_some_ex ebins (Datatypes.S i)) as [e' A']; [lia|].
  destruct (nth_some_ex lon j) as [l B]; [lia|]. destruct (nth_some_ex lon (Datatypes.S j)) as [l' B']; [lia|].
  destruct (nth_some_ex lat k) as [b D]; [lia|]. destruct (nth_some_ex lat (Datatypes.S k)) as [b' D']; [lia|].
  destruct (H1 i j k e e' l l' b b' A A' B B' D D') as (r1 & W1 & -> & X1 & Q1). destruct (H i j k e e' l l' b b' A A' B B' D D') as (r & W & -> & X & Q).
  exists W1, W. split; [exact X1|]. split; [exact X|]. pose proof (He _ _ _ A A').
  assert (HR : 0 < rectangle_deg l l' b b'). { destruct Hb as [Hb R]. apply rect_pos; [apply (Hl _ _ _ B B')|apply R; eapply nth_error_In; eauto|apply (Hb _ _ _ D D')|apply R; eapply nth_error_In; eauto]. }
  apply rate_selection with (c := (e' - e) * t_obs * rectangle_deg l l' b b'); [eapply weight_contained; eauto|apply Rmult_lt_0_compat; [apply Rmult_lt_0_compat; lra|exact HR]|rewrite <- Q1; ring|rewrite <- Q; ring].
Qed.
