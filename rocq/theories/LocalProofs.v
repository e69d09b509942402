(** * LocalProofs: a bin of the result depends on the events in it (C83) *)
From Coq Require Import String Reals List Bool ZArith Arith Lia Lra.
From Verif Require Import Num Numpy Table Binning Utils Simulations Tensor IRF SpecBinning SpecIRF SpecLocal
  BinningProofs HistProofs TensorProofs SpecUtils SpecSimulations SimulationsProofs IRFProofs IRFProofs2 IRFProofs3 IRFProofs4 HistDouble2Proofs Lists MergeProofs.
Import ListNotations.
Open Scope R_scope.

(** ** broadcasting keeps the index *)
Definition fit (d i : nat) : Prop := d = 1%nat -> i = 0%nat.
Definition fits (s ix : list nat) : Prop := Forall2 fit s ix.
Lemma Forall2_len {A B} (R : A -> B -> Prop) l m : Forall2 R l m -> List.length l = List.length m.
Proof. induction 1; cbn; auto. Qed.
Lemma fits_rev s ix : fits s ix -> fits (rev s) (rev ix).
Proof. intros H. induction H; cbn; [constructor|]. apply Forall2_app; auto. Qed.
Lemma bshape_rev_fits s t u ix : bshape_rev s t = Some u -> (List.length t <= List.length s)%nat -> fits s ix -> fits u ix.
Proof.
  intros H L F. revert t u H L. induction F as [|d i s ix Hd F IH]; intros [|m t] u H L; cbn in *; try (injection H as <-; constructor; auto; fail); try lia.
  destruct (bdim d m) as [d'|] eqn:Ed; [|discriminate]. destruct (bshape_rev s t) as [r|] eqn:Er; [|discriminate]. injection H as <-.
  constructor; [|apply (IH t); auto; lia]. intros E. apply Hd. unfold bdim in Ed. destruct (Nat.eqb_spec d m); [congruence|]. destruct (Nat.eqb_spec d 1); [congruence|].
  destruct (Nat.eqb m 1); congruence.
Qed.
Lemma bshape_fits s t u ix : bshape s t = Some u -> (List.length t <= List.length s)%nat -> fits s ix -> fits u ix.
Proof.
  unfold bshape. destruct (bshape_rev _ _) as [r|] eqn:E; [|discriminate]. intros H L F. injection H as <-. rewrite <- (rev_involutive ix). apply fits_rev.
  apply (bshape_rev_fits _ _ _ _ E); [rewrite !rev_length; auto|apply fits_rev, F].
Qed.
Lemma bidx_fits s ix : fits s ix -> bidx s ix = ix.
Proof.
  intros F. unfold bidx. rewrite <- (Forall2_len _ _ _ F), Nat.sub_diag. cbn [skipn]. induction F as [|d i s ix Hd F IH]; cbn; auto.
  rewrite IH. destruct (Nat.eqb_spec d 1); auto. rewrite (Hd e). auto.
Qed.
Definition agree (ix : list nat) (a a' : tensor) : Prop := shape a = shape a' /\ at_ a ix = at_ a' ix /\ fits (shape a) ix.
Definition ragree (ix : list nat) (r r' : res tensor) : Prop :=
  match r, r' with Ok a, Ok a' => agree ix a a' | Err e, Err e' => e = e' | _, _ => False end.
Lemma ragree_entry ix r r' : ragree ix r r' -> same_entry ix r r'.
Proof. destruct r, r'; cbn; auto. intros (A & B & _). auto. Qed.
Lemma tbin_agree f ix a a' b : (List.length (shape b) <= List.length (shape a))%nat -> agree ix a a' -> ragree ix (tbin f a b) (tbin f a' b).
Proof.
  intros L (S & E & F). unfold tbin. rewrite <- S. destruct (bshape _ _) as [u|] eqn:Eu; cbn; auto. split; [reflexivity|]. cbn [at_ shape].
  rewrite (bidx_fits _ _ F), E. split; [reflexivity|]. eapply bshape_fits; eauto.
Qed.
Lemma tmap_agree f ix a a' : agree ix a a' -> agree ix (tmap f a) (tmap f a').
Proof. intros (S & E & F). split; [exact S|]. split; [cbn; congruence|exact F]. Qed.
Lemma transpose_agree ix a a' : agree ix a a' -> agree (rev ix) (transpose2 a) (transpose2 a').
Proof. intros (S & E & F). split; [cbn; congruence|]. split; [cbn [at_ transpose2]; rewrite rev_involutive; exact E|apply fits_rev, F]. Qed.
Lemma ragree_bind ix ix' r r' f f' : ragree ix r r' -> (forall a a', agree ix a a' -> ragree ix' (f a) (f' a')) -> ragree ix' (rbind r f) (rbind r' f').
Proof. intros H F. destruct r, r'; cbn in *; try tauto. auto. Qed.
Lemma area_agree ix a a' b ar : (List.length (shape b) <= List.length (shape a))%nat -> agree ix a a' -> ragree ix (effective_area a b ar) (effective_area a' b ar).
Proof. intros L H. unfold effective_area. apply ragree_bind with (1 := tbin_agree ndiv ix a a' b L H). intros x x' Hx. cbn. apply tmap_agree, Hx. Qed.

(** ** counts *)
Lemma same_filter {A} (P : A -> Prop) (f : A -> bool) l l' : (forall e, f e = true -> P e) -> same_on P l l' -> filter f l = filter f l'.
Proof.
  intros H S. induction S as [|e l l' S IH|e l l' N S IH|e l l' N S IH]; cbn [filter]; auto; try (rewrite IH; auto; fail).
  - destruct (f e) eqn:E; auto. destruct N. auto.
  - destruct (f e) eqn:E; auto. destruct N. auto.
Qed.
Lemma same_number {A} (P Q : A -> Prop) l l' m m' : (forall e, Q e -> P e) -> same_on P l l' -> number_of Q l m -> number_of Q l' m' -> m = m'.
Proof.
  intros H S. revert m m'. induction S as [|e l l' S IH|e l l' N S IH|e l l' N S IH]; intros m m' M M'.
  - inversion M; inversion M'; auto.
  - inversion M; subst; inversion M'; subst; auto; contradiction.
  - inversion M; subst; [destruct N; auto|auto].
  - inversion M'; subst; [destruct N; auto|auto].
Qed.
Lemma same_weight {A} (w : A -> R) (P : A -> Prop) l l' r r' : same_on P l l' -> weight_of w P l r -> weight_of w P l' r' -> r = r'.
Proof.
  intros S. revert r r'. induction S as [|e l l' S IH|e l l' N S IH|e l l' N S IH]; intros m m' M M'.
  - inversion M; inversion M'; auto.
  - inversion M; subst; inversion M'; subst; auto; try contradiction. f_equal; auto.
  - inversion M; subst; [contradiction|auto].
  - inversion M'; subst; [contradiction|auto].
Qed.
Lemma number_zero {A} (P : A -> Prop) l : number_of P l 0 -> forall e, In e l -> ~ P e.
Proof. intros H. remember 0%nat as n. induction H; [intros e []|discriminate|]. intros e [<- |I]; auto. Qed.

Section Hdd2.
Variables (x1 x2 : dl2 -> num) (e1 e2 : list num) (w : dl2 -> R) (i j : nat) (l l' : list dl2).
Hypotheses (H1 : nondecreasing e1) (L1 : (i < List.length e1 - 1)%nat) (H2 : nondecreasing e2) (L2 : (j < List.length e2 - 1)%nat).
Hypothesis S : same_on (fun e => in_hist_bin e1 i (x1 e) /\ in_hist_bin e2 j (x2 e)) l l'.
Lemma hdd2_agree : ragree [i; j] (histogramdd [(x1, e1); (x2, e2)] w l) (histogramdd [(x1, e1); (x2, e2)] w l').
Proof.
  change [(x1, e1); (x2, e2)] with (dims2 x1 x2 e1 e2). rewrite !hist2 by (auto; lia). split; [reflexivity|]. cbn [at_ shape].
  split; [|repeat constructor; unfold fit; lia]. f_equal. unfold wsum. f_equal. f_equal. apply same_filter with (2 := S). intros e He.
  unfold dims2 in He. cbn [hdd_match] in He. rewrite andb_true_r, andb_true_iff, !Nat.eqb_eq in He. destruct He as [A B].
  split; [apply (hdd_spec e1 _ H1); auto; lia|apply (hdd_spec e2 _ H2); auto; lia].
Qed.
End Hdd2.
Section Hdd3.
Variables (x1 x2 x3 : dl2 -> num) (e1 e2 e3 : list num) (w : dl2 -> R) (i j k : nat) (l l' : list dl2).
Hypotheses (H1 : nondecreasing e1) (L1 : (i < List.length e1 - 1)%nat) (H2 : nondecreasing e2) (L2 : (j < List.length e2 - 1)%nat) (H3 : nondecreasing e3) (L3 : (k < List.length e3 - 1)%nat).
Hypothesis S : same_on (fun e => in_hist_bin e1 i (x1 e) /\ in_hist_bin e2 j (x2 e) /\ in_hist_bin e3 k (x3 e)) l l'.
Lemma hdd3_agree : ragree [i; j; k] (histogramdd [(x1, e1); (x2, e2); (x3, e3)] w l) (histogramdd [(x1, e1); (x2, e2); (x3, e3)] w l').
Proof.
  change [(x1, e1); (x2, e2); (x3, e3)] with (dims3 x1 x2 x3 e1 e2 e3). rewrite !hist3 by (auto; lia). split; [reflexivity|]. cbn [at_ shape].
  split; [|repeat constructor; unfold fit; lia]. f_equal. unfold wsum. f_equal. f_equal. apply same_filter with (2 := S). intros e He.
  unfold dims3 in He. cbn [hdd_match] in He. rewrite andb_true_r, !andb_true_iff, !Nat.eqb_eq in He. destruct He as (A & B & C).
  split; [apply (hdd_spec e1 _ H1); auto; lia|]. split; [apply (hdd_spec e2 _ H2); auto; lia|apply (hdd_spec e3 _ H3); auto; lia].
Qed.
End Hdd3.
Lemma nfin_length l k : (k < List.length l - 1)%nat -> (k < List.length (map Fin l) - 1)%nat.
Proof. rewrite map_length. auto. Qed.

Lemma agree_length ix a a' : agree ix a a' -> List.length (shape a) = List.length ix.
Proof. intros (_ & _ & F). apply (Forall2_len _ _ _ F). Qed.

(** ** effective area *)
Lemma local_fov s eb fb i j l l' : nondecreasing eb -> (i < List.length eb - 1)%nat -> increasing fb -> (j < List.length fb - 1)%nat ->
  same_on (fun e => in_hist_bin eb i (true_energy e) /\ in_hist_bin (map Fin fb) j (true_fov_offset e)) l l' ->
  same_entry [i; j] (effective_area_per_energy_and_fov l s eb fb) (effective_area_per_energy_and_fov l' s eb fb).
Proof.
  intros He Li Hf Lj S. apply ragree_entry. unfold effective_area_per_energy_and_fov. destruct (calculate_n_showers_per_energy_and_fov _ _ _) as [sim|e]; cbn [rbind]; [|cbn; auto].
  eapply ragree_bind; [apply hdd2_agree with (5 := S); auto using inc_nondec, nfin_length|]. intros a a' A. apply area_agree; auto. rewrite (agree_length _ _ _ A). cbn. lia.
Qed.
Lemma local_polar s eb fb pb i j k l l' : nondecreasing eb -> (i < List.length eb - 1)%nat -> increasing fb -> (j < List.length fb - 1)%nat -> increasing pb -> (k < List.length pb - 1)%nat ->
  same_on (fun e => in_hist_bin eb i (true_energy e) /\ in_hist_bin (map Fin fb) j (true_fov_offset e) /\ in_hist_bin (map Fin pb) k (true_fov_pa e)) l l' ->
  same_entry [i; j; k] (effective_area_3d_polar l s eb fb pb) (effective_area_3d_polar l' s eb fb pb).
Proof.
  intros He Li Hf Lj Hp Lk S. apply ragree_entry. unfold effective_area_3d_polar. destruct (calculate_n_showers_3d_polar _ _ _ _) as [sim|e]; cbn [rbind]; [|cbn; auto].
  eapply ragree_bind; [apply hdd3_agree with (7 := S); auto using inc_nondec, nfin_length|]. intros a a' A. apply area_agree; auto. rewrite (agree_length _ _ _ A). cbn. lia.
Qed.
Lemma local_lonlat s eb lon lat sub i j k l l' : nondecreasing eb -> (i < List.length eb - 1)%nat -> increasing lon -> (j < List.length lon - 1)%nat -> increasing lat -> (k < List.length lat - 1)%nat ->
  same_on (fun e => in_hist_bin eb i (true_energy e) /\ in_hist_bin (map Fin lon) j (true_fov_lon e) /\ in_hist_bin (map Fin lat) k (true_fov_lat e)) l l' ->
  same_entry [i; j; k] (effective_area_3d_lonlat l s eb lon lat sub) (effective_area_3d_lonlat l' s eb lon lat sub).
Proof.
  intros He Li Hf Lj Hp Lk S. apply ragree_entry. unfold effective_area_3d_lonlat. destruct (calculate_n_showers_3d_lonlat _ _ _ _ _ _ _) as [sim|e]; cbn [rbind]; [|cbn; auto].
  eapply ragree_bind; [apply hdd3_agree with (7 := S); auto using inc_nondec, nfin_length|]. intros a a' A. apply area_agree; auto. rewrite (agree_length _ _ _ A). cbn. lia.
Qed.
(** ** background *)
Lemma local_bg2 eb fb t i j l l' : nondecreasing eb -> (i < List.length eb - 1)%nat -> increasing fb -> (j < List.length fb - 1)%nat ->
  same_on (fun e => in_hist_bin eb i (reco_energy e) /\ in_hist_bin (map Fin fb) j (reco_fov_offset e)) l l' ->
  same_entry [i; j] (background_2d l eb fb t) (background_2d l' eb fb t).
Proof.
  intros He Li Hf Lj S. apply ragree_entry. unfold background_2d.
  eapply ragree_bind; [apply hdd2_agree with (5 := S); auto using inc_nondec, nfin_length|]. intros a a' A.
  eapply ragree_bind with (ix := [j; i]).
  - apply tbin_agree; [cbn; rewrite rev_length, (agree_length _ _ _ A); cbn; lia|]. apply (transpose_agree [i; j]), A.
  - intros b b' B. cbv zeta. pose proof (transpose_agree [j; i] _ _ B) as T. cbn [rev app] in T. apply tbin_agree; [|apply tmap_agree, T].
    cbn [shape tmap]. rewrite (agree_length _ _ _ T). cbn. lia.
Qed.
Lemma local_bg3 eb lon lat t i j k l l' : nondecreasing eb -> (i < List.length eb - 1)%nat -> increasing lon -> (j < List.length lon - 1)%nat -> increasing lat -> (k < List.length lat - 1)%nat ->
  same_on (fun e => in_hist_bin eb i (reco_energy e) /\ in_hist_bin (map Fin lon) j (reco_fov_lon e) /\ in_hist_bin (map Fin lat) k (reco_fov_lat e)) l l' ->
  same_entry [i; j; k] (background_3d_lonlat l eb lon lat t) (background_3d_lonlat l' eb lon lat t).
Proof.
  intros He Li Hf Lj Hp Lk S. apply ragree_entry. unfold background_3d_lonlat.
  eapply ragree_bind; [apply hdd3_agree with (7 := S); auto using inc_nondec, nfin_length|]. intros a a' A.
  eapply ragree_bind; [apply tbin_agree with (2 := A); rewrite (agree_length _ _ _ A); cbn; lia|]. intros b b' B.
  unfold rectangle_solid_angles. unfold tbin at 1 3. destruct (bshape (shape (vec _)) (shape (vec _))) as [sh|] eqn:E; cbn [rbind]; [|cbn; auto].
  apply tbin_agree; [|apply tmap_agree, B]. cbn [shape tmap]. rewrite (agree_length _ _ _ B).
  unfold bshape in E. cbn [shape vec rev app bshape_rev] in E. destruct (bdim _ _); [|discriminate]. injection E as <-. cbn. lia.
Qed.
(** ** distributions *)
Lemma bin_in_range edges k x : nondecreasing edges -> (2 <= List.length edges)%nat -> (k < List.length edges - 1)%nat -> in_hist_bin edges k x -> in_range edges x.
Proof. intros H L Hk B. apply (hdd_range edges x H L). apply (hdd_spec edges x H L k Hk) in B. rewrite B. lia. Qed.
Section Distributions.
Variables (l l' : list dl2) (eb fb : list num) (i j k : nat).
Hypotheses (He : nondecreasing eb) (Hi : (i < List.length eb - 1)%nat) (Hf : nondecreasing fb) (Hk : (k < List.length fb - 1)%nat).
Lemma local_edisp mig : increasing mig -> (j < List.length mig - 1)%nat ->
  same_on (fun e => in_hist_bin eb i (true_energy e) /\ in_range (map Fin mig) (ndiv (reco_energy e) (true_energy e)) /\ in_hist_bin fb k (true_fov_offset e)) l l' ->
  same_entry [i; j; k] (energy_dispersion l eb fb (map Fin mig)) (energy_dispersion l' eb fb (map Fin mig)).
Proof.
  intros Hm Hj S. destruct (c43 l eb fb mig He ltac:(lia) Hf ltac:(lia) Hm ltac:(lia)) as (d & E & Sh & D). destruct (c43 l' eb fb mig He ltac:(lia) Hf ltac:(lia) Hm ltac:(lia)) as (d' & E' & Sh' & D').
  rewrite E, E'. split; [congruence|].
  destruct (c43_value l eb fb mig He ltac:(lia) Hf ltac:(lia) Hm ltac:(lia) i j k Hi Hj Hk) as (o & n & m & a & b & Eo & N & M & A & B & V).
  destruct (c43_value l' eb fb mig He ltac:(lia) Hf ltac:(lia) Hm ltac:(lia) i j k Hi Hj Hk) as (o' & n' & m' & a' & b' & Eo' & N' & M' & A' & B' & V').
  rewrite E in Eo. injection Eo as <-. rewrite E' in Eo'. injection Eo' as <-. rewrite A in A'. injection A' as <-. rewrite B in B'. injection B' as <-.
  assert (Em : m = m') by exact (same_number _ _ _ _ _ _ (fun e H => H) S M M'). subst m'.
  assert (En : n = n').
  { refine (same_number _ _ _ _ _ _ _ S N N'). intros e (Q1 & Q2 & Q3). split; [exact Q1|split; [|exact Q3]]. eapply bin_in_range; [apply inc_nondec; exact Hm|rewrite map_length; lia| |exact Q2]. rewrite map_length. lia. }
  subst n'. destruct m as [|m]; [|rewrite V, V' by lia; reflexivity].
  destruct (D i k Hi Hk) as (q & Lq & Q & _ & Z). destruct (D' i k Hi Hk) as (q' & Lq' & Q' & _ & Z').
  destruct (nth_some_ex q j) as [v Hv]; [lia|]. destruct (nth_some_ex q' j) as [v' Hv']; [lia|].
  rewrite (proj1 (Q _ _ Hv)), (proj1 (Q' _ _ Hv')), (Z (number_zero _ _ M) v), (Z' (number_zero _ _ M') v'); auto; eapply nth_error_In; eauto.
Qed.
Lemma local_migration mig : nondecreasing mig -> (j < List.length mig - 1)%nat ->
  same_on (fun e => in_hist_bin eb i (true_energy e) /\ in_range mig (reco_energy e) /\ in_hist_bin fb k (true_fov_offset e)) l l' ->
  same_entry [i; j; k] (energy_migration_matrix l eb mig fb) (energy_migration_matrix l' eb mig fb).
Proof.
  intros Hm Hj S. destruct (c44 l eb mig fb He ltac:(lia) Hm ltac:(lia) Hf ltac:(lia)) as (d & E & Sh & D). destruct (c44 l' eb mig fb He ltac:(lia) Hm ltac:(lia) Hf ltac:(lia)) as (d' & E' & Sh' & D').
  rewrite E, E'. split; [congruence|].
  destruct (c44_value l eb mig fb He ltac:(lia) Hm ltac:(lia) Hf ltac:(lia) i j k Hi Hj Hk) as (o & n & m & Eo & N & M & V).
  destruct (c44_value l' eb mig fb He ltac:(lia) Hm ltac:(lia) Hf ltac:(lia) i j k Hi Hj Hk) as (o' & n' & m' & Eo' & N' & M' & V').
  rewrite E in Eo. injection Eo as <-. rewrite E' in Eo'. injection Eo' as <-.
  assert (Em : m = m') by exact (same_number _ _ _ _ _ _ (fun e H => H) S M M'). subst m'.
  assert (En : n = n').
  { refine (same_number _ _ _ _ _ _ _ S N N'). intros e (Q1 & Q2 & Q3). split; [exact Q1|split; [|exact Q3]]. eapply bin_in_range; [exact Hm|lia| |exact Q2]. lia. }
  subst n'. destruct m as [|m]; [|rewrite V, V' by lia; reflexivity].
  destruct (D i k Hi Hk) as (q & Lq & Q & _ & Z). destruct (D' i k Hi Hk) as (q' & Lq' & Q' & _ & Z').
  destruct (nth_some_ex q j) as [v Hv]; [lia|]. destruct (nth_some_ex q' j) as [v' Hv']; [lia|].
  rewrite (proj1 (Q _ _ Hv)), (proj1 (Q' _ _ Hv')), (Z (number_zero _ _ M) v), (Z' (number_zero _ _ M') v'); auto; eapply nth_error_In; eauto.
Qed.
Lemma local_psf src : angles src -> (j < List.length src - 1)%nat ->
  same_on (fun e => in_hist_bin eb i (true_energy e) /\ in_hist_bin fb k (true_fov_offset e) /\ in_range (map Fin src) (theta e)) l l' ->
  same_entry [i; k; j] (psf_table l eb src fb) (psf_table l' eb src fb).
Proof.
  intros Hm Hj S. destruct (c45 l eb fb src He ltac:(lia) Hf ltac:(lia) Hm ltac:(lia)) as (d & E & Sh & D). destruct (c45 l' eb fb src He ltac:(lia) Hf ltac:(lia) Hm ltac:(lia)) as (d' & E' & Sh' & D').
  rewrite E, E'. split; [congruence|].
  destruct (c45_value l eb fb src He ltac:(lia) Hf ltac:(lia) Hm ltac:(lia) i k j Hi Hk Hj) as (o & n & m & a & b & Eo & N & M & A & B & V).
  destruct (c45_value l' eb fb src He ltac:(lia) Hf ltac:(lia) Hm ltac:(lia) i k j Hi Hk Hj) as (o' & n' & m' & a' & b' & Eo' & N' & M' & A' & B' & V').
  rewrite E in Eo. injection Eo as <-. rewrite E' in Eo'. injection Eo' as <-. rewrite A in A'. injection A' as <-. rewrite B in B'. injection B' as <-.
  assert (Em : m = m') by exact (same_number _ _ _ _ _ _ (fun e H => H) S M M'). subst m'.
  assert (En : n = n').
  { refine (same_number _ _ _ _ _ _ _ S N N'). intros e (Q1 & Q2 & Q3). split; [exact Q1|split; [exact Q2|]]. eapply bin_in_range; [apply inc_nondec, Hm|rewrite map_length; lia| |exact Q3]. rewrite map_length. lia. }
  subst n'. destruct m as [|m]; [|rewrite V, V' by lia; reflexivity].
  destruct (D i k Hi Hk) as (q & Lq & Q & _ & Z). destruct (D' i k Hi Hk) as (q' & Lq' & Q' & _ & Z').
  destruct (nth_some_ex q j) as [v Hv]; [lia|]. destruct (nth_some_ex q' j) as [v' Hv']; [lia|].
  rewrite (proj1 (Q _ _ Hv)), (proj1 (Q' _ _ Hv')), (Z (number_zero _ _ M) v), (Z' (number_zero _ _ M') v'); auto; eapply nth_error_In; eauto.
Qed.
End Distributions.

(** ** tables of counts *)
Lemma local_hist l l' hw hp edges key k : nondecreasing edges -> (k < List.length edges - 1)%nat -> same_on (fun e => in_hist_bin edges k (ev_x e)) l l' ->
  exists t t' n n' c, create_histogram_table (mkEvents l hw hp) edges key = Ok t /\ create_histogram_table (mkEvents l' hw hp) edges key = Ok t' /\
  getitem t "n" = Some (CZ n) /\ getitem t' "n" = Some (CZ n') /\ nth_error n k = Some c /\ nth_error n' k = Some c.
Proof.
  intros H L S. destruct (c04 (mkEvents l hw hp) edges key H ltac:(lia)) as (t & n & E & G & (Ln & N) & _).
  destruct (c04 (mkEvents l' hw hp) edges key H ltac:(lia)) as (t' & n' & E' & G' & (Ln' & N') & _).
  destruct (nth_some_ex n k) as [c Hc]; [lia|]. destruct (nth_some_ex n' k) as [c' Hc']; [lia|].
  destruct (N _ _ Hc) as (m & -> & M). destruct (N' _ _ Hc') as (m' & -> & M'). cbn [et_rows] in *.
  assert (m = m') by exact (same_number _ _ _ _ _ _ (fun e H => H) S M M'). subst m'.
  exists t, t', n, n', (Z.of_nat m). repeat (split; [assumption|]). assumption.
Qed.
Lemma local_hist_weighted l l' edges key k : nondecreasing edges -> (k < List.length edges - 1)%nat -> same_on (fun e => in_hist_bin edges k (ev_x e)) l l' ->
  exists t t' n n' c, create_histogram_table (mkEvents l true false) edges key = Ok t /\ create_histogram_table (mkEvents l' true false) edges key = Ok t' /\
  getitem t "n_weighted" = Some (CN (map Fin n)) /\ getitem t' "n_weighted" = Some (CN (map Fin n')) /\ nth_error n k = Some c /\ nth_error n' k = Some c.
Proof.
  intros H L S. destruct (c04_weighted (mkEvents l true false) edges key H ltac:(lia) eq_refl ltac:(discriminate)) as (t & n & E & G & (Ln & N) & _).
  destruct (c04_weighted (mkEvents l' true false) edges key H ltac:(lia) eq_refl ltac:(discriminate)) as (t' & n' & E' & G' & (Ln' & N') & _).
  destruct (nth_some_ex n k) as [c Hc]; [lia|]. destruct (nth_some_ex n' k) as [c' Hc']; [lia|].
  pose proof (N _ _ Hc) as M. pose proof (N' _ _ Hc') as M'. cbn [et_rows] in *.
  assert (c = c') by exact (same_weight _ _ _ _ _ _ S M M'). subst c'.
  exists t, t', n, n', c. repeat (split; [assumption|]). assumption.
Qed.
Lemma local_area s l l' hw hp edges k : nondecreasing edges -> (k < List.length edges - 1)%nat -> same_on (fun e => in_hist_bin edges k (ev_x e)) l l' ->
  same_entry [k] (effective_area_per_energy (mkEvents l hw hp) s edges) (effective_area_per_energy (mkEvents l' hw hp) s edges).
Proof.
  intros H L S. unfold effective_area_per_energy.
  destruct (c04 (mkEvents l hw hp) edges "true_energy" H ltac:(lia)) as (t0 & n0 & E0 & G0 & (Ln & _) & _).
  destruct (c04 (mkEvents l' hw hp) edges "true_energy" H ltac:(lia)) as (t0' & n0' & E0' & G0' & (Ln' & _) & _).
  destruct (local_hist l l' hw hp edges "true_energy" k H L S) as (t & t' & n & n' & c & E & E' & G & G' & C & C').
  rewrite E in E0. rewrite E' in E0'. injection E0 as <-. injection E0' as <-. rewrite G in G0. rewrite G' in G0'. injection G0 as <-. injection G0' as <-.
  rewrite E, E'. cbn [rbind]. rewrite G, G'. apply ragree_entry, area_agree; [cbn; lia|].
  split; [cbn [shape vec]; rewrite !map_length; congruence|]. cbn [at_ shape vec].
  rewrite (nth_error_nth _ _ _ (map_nth_some nz _ _ _ C)), (nth_error_nth _ _ _ (map_nth_some nz _ _ _ C')). split; [reflexivity|].
  rewrite map_length, Ln. repeat constructor. unfold fit. lia.
Qed.
