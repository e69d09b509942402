(** * TrendProofs3: trends of the sensitivity *)
From Coq Require Import String Reals List Bool ZArith Arith Lia Lra Permutation.
From Verif Require Import Num Numpy Lists Table Binning Statistics Sensitivity CutOptimization SpecBinning SpecStatistics SpecSensitivity SpecCutOptimization SpecPipeline SpecTrend
  StatisticsProofs SensitivityProofs SensitivityProofs2 PipelineProofs PipelineProofs2 TrendProofs TrendProofs2.
Import ListNotations.
Open Scope R_scope.

Lemma bracketed_dec W B a s : {bracketed W B a s} + {~ bracketed W B a s}.
Proof.
  unfold bracketed. destruct (Rlt_dec 1 B) as [L|L].
  - destruct (Rle_dec s (lima (10 * (s * sqrt (a * B)) + a * B) B a)) as [D|D]; [left; left; split; assumption|right; intros [[_ H]|[H _]]; [exact (D H)|lra]].
  - destruct (Rle_dec (lima (W * (1 / 10000) + a * B) B a) s) as [D|D]; [|right; intros [[H _]|[_ [H _]]]; [exact (L H)|exact (D H)]].
    destruct (Rle_dec s (lima (W * 100 + a * B) B a)) as [D'|D']; [left; right; repeat split; auto; lra|right; intros [[H _]|[_ [_ H]]]; [exact (L H)|exact (D' H)]].
Qed.
(** the two outcomes that are not NaN *)
Lemma sd_cases W B a s m e rel : 0 <= W -> smallest_detectable W B a s m e rel -> rel <> NaN ->
  (W = 0 /\ rel = PInf) \/ (0 < W /\ exists r, rel = Fin r /\ 0 < r /\
    (forall r', r + brentq_tol r <= r' -> detectable W B a s m e r') /\ (forall r', detectable W B a s m e r' -> r - brentq_tol r <= r')).
Proof.
  intros [P|<-] (D0 & D1) N; [|left; split; auto]. right. split; [exact P|]. destruct (D1 P) as (F & G).
  destruct (bracketed_dec W B a s) as [Y|Y]; [|exfalso; auto]. destruct (F Y) as (r & -> & R & _ & _ & U & L). exists r. auto.
Qed.
Lemma sd_trend W1 B1 a1 s1 m1 e1 rel1 W2 B2 a2 s2 m2 e2 rel2 : 0 <= W1 -> 0 <= W2 -> (W2 = 0 -> W1 = 0) ->
  smallest_detectable W1 B1 a1 s1 m1 e1 rel1 -> smallest_detectable W2 B2 a2 s2 m2 e2 rel2 ->
  (forall r, 0 < W1 -> 0 < W2 -> 0 < r -> detectable W1 B1 a1 s1 m1 e1 r -> detectable W2 B2 a2 s2 m2 e2 r) -> rel1 <> NaN -> rel2 <> NaN -> not_worse rel2 rel1.
Proof.
  intros P1 P2 Z D1 D2 T N1 N2. destruct (sd_cases _ _ _ _ _ _ _ P2 D2 N2) as [(E2 & ->)|(Q2 & r2 & -> & R2 & U2 & L2)].
  - destruct (sd_cases _ _ _ _ _ _ _ P1 D1 N1) as [(E1 & ->)|(Q1 & _)]; [exact I|]. specialize (Z E2). lra.
  - destruct (sd_cases _ _ _ _ _ _ _ P1 D1 N1) as [(E1 & ->)|(Q1 & r1 & -> & R1 & U1 & L1)]; [exact I|]. cbn. pose proof (tol_pos r1).
    pose proof (U1 (r1 + brentq_tol r1) ltac:(lra)) as U. pose proof (L2 _ (T (r1 + brentq_tol r1) Q1 Q2 ltac:(lra) U)). lra.
Qed.
Section Two.
Variables (br : (R -> num) -> R -> R -> res R) (sw sp bw bp : bool) (bins : list num) (centers cuts : list R) (alpha mn mx s m e : R).
Hypothesis HS : settings br bins centers cuts alpha mn mx s.
Local Notation sens s1 b1 := (sensitivity_of br sw sp bw bp s1 b1 bins centers cuts alpha mn mx s m e).
(** samples whose weights are related in every bin *)
Lemma chain_trend signal1 background1 signal2 background2 t1 t2 : valid_events sp bp signal1 background1 -> valid_events sp bp signal2 background2 ->
  sens signal1 background1 = Ok t1 -> sens signal2 background2 = Ok t2 ->
  (forall k W1 V1 W2 V2 q, 0 <= W1 -> 0 <= V1 -> 0 <= W2 -> 0 <= V2 -> 0 <= q ->
     weight_of (weight_in sw) (fun v => in_hist_bin bins k (ev_x v)) signal1 W1 ->
     weight_of (fun b => weight_in bw (bg_ev b)) (fun b => in_annulus mn mx (bg_offset b) /\ in_hist_bin bins k (ev_x (bg_ev b))) background1 V1 ->
     weight_of (weight_in sw) (fun v => in_hist_bin bins k (ev_x v)) signal2 W2 ->
     weight_of (fun b => weight_in bw (bg_ev b)) (fun b => in_annulus mn mx (bg_offset b) /\ in_hist_bin bins k (ev_x (bg_ev b))) background2 V2 ->
     (W2 = 0 -> W1 = 0) /\ forall r, 0 < W1 -> 0 < W2 -> 0 < r -> detectable W1 (V1 * q / alpha) alpha s m e r -> detectable W2 (V2 * q / alpha) alpha s m e r) ->
  forall k, (k < List.length bins - 1)%nat -> exists r1 r2, cell t1 "relative_sensitivity" k r1 /\ cell t2 "relative_sensitivity" k r2 /\ (r1 <> NaN -> r2 <> NaN -> not_worse r2 r1).
Proof.
  intros E1 E2 T1 T2 H k Hk.
  destruct (sensitivity_row br sw sp bw bp signal1 background1 bins centers cuts alpha mn mx s m e HS E1) as (t1' & T1' & R1). rewrite T1 in T1'. injection T1' as <-.
  destruct (sensitivity_row br sw sp bw bp signal2 background2 bins centers cuts alpha mn mx s m e HS E2) as (t2' & T2' & R2). rewrite T2 in T2'. injection T2' as <-.
  destruct (nth_some_ex bins k) as (lo & Hlo); [lia|]. destruct (nth_some_ex bins (S k)) as (hi & Hhi); [lia|].
  destruct (R1 k lo hi Hlo Hhi) as (th & W1 & V1 & r1 & C1 & Q & P1 & P1' & HW1 & HV1 & K1 & _ & D1). destruct (R2 k lo hi Hlo Hhi) as (th' & W2 & V2 & r2 & C2 & Q' & P2 & P2' & HW2 & HV2 & K2 & _ & D2).
  assert (th' = th) by (eapply cut_unique; [apply HS|apply HS|exact C2|exact C1]). subst th'.
  exists r1, r2. split; [exact K1|]. split; [exact K2|]. intros N1 N2. destruct (H k W1 V1 W2 V2 _ P1 P1' P2 P2' Q HW1 HV1 HW2 HV2) as (Z & T). eapply sd_trend; [..|exact D1|exact D2|exact T|exact N1|exact N2]; auto.
Qed.
Lemma B_mono V1 V2 q : 0 <= V1 -> V1 <= V2 -> 0 <= q -> 0 <= V1 * q / alpha <= V2 * q / alpha.
Proof.
  intros. assert (A : 0 < alpha) by apply HS. assert (0 < / alpha) by (apply Rinv_0_lt_compat; auto). unfold Rdiv. split.
  - apply Rmult_le_pos; [apply Rmult_le_pos|]; lra.
  - apply Rmult_le_compat_r; [lra|]. apply Rmult_le_compat_r; lra.
Qed.
(** more signal and less background *)
Theorem trend_events signal1 background1 signal2 background2 t1 t2 : 0 <= e -> valid_events sp bp signal2 background1 ->
  contained signal1 signal2 -> contained background2 background1 ->
  sens signal1 background1 = Ok t1 -> sens signal2 background2 = Ok t2 ->
  forall k, (k < List.length bins - 1)%nat -> exists r1 r2, cell t1 "relative_sensitivity" k r1 /\ cell t2 "relative_sensitivity" k r2 /\ (r1 <> NaN -> r2 <> NaN -> not_worse r2 r1).
Proof.
  intros He (V1 & V2 & V3 & V4) CS CB T1 T2.
  assert (IS : forall v, In v signal1 -> In v signal2). { intros v I. destruct CS as (rest & P). eapply Permutation_in; [symmetry; exact P|]. apply in_or_app. auto. }
  assert (IB : forall b, In b background2 -> In b background1). { intros b I. destruct CB as (rest & P). eapply Permutation_in; [symmetry; exact P|]. apply in_or_app. auto. }
  apply (chain_trend signal1 background1 signal2 background2 t1 t2); auto; try (repeat split; intros; auto; fail).
  intros k W1 U1 W2 U2 q P1 P2 P3 P4 P5 HW1 HV1 HW2 HV2. assert (A : 0 < alpha) by apply HS.
  assert (W1 <= W2) by (eapply weight_contained; [exact CS| |exact HW1|exact HW2]; intros v I; unfold weight_in; destruct sw; [auto|lra]).
  assert (U2 <= U1) by (eapply weight_contained; [exact CB| |exact HV2|exact HV1]; intros v I; cbn; unfold weight_in; destruct bw; [auto|lra]).
  pose proof (B_mono U2 U1 q P4 ltac:(lra) P5) as (B1 & B2). split; [lra|]. intros r Q1 Q2 R D. apply (det_signal W1 W2); auto. apply (det_background W1 (U1 * q / alpha)); auto.
Qed.
Lemma valid_scaled c d signal background : 0 <= c -> 0 <= d -> valid_events sp bp signal background -> valid_events sp bp (map (reweighted c) signal) (map (reweighted_bg d) background).
Proof.
  intros C D (V1 & V2 & V3 & V4). repeat split.
  - intros E v I. apply in_map_iff in I as (x & <- & I). apply (V1 E x I).
  - intros E v I. apply in_map_iff in I as (x & <- & I). apply (V2 E x I).
  - intros v I. apply in_map_iff in I as (x & <- & I). cbn. apply Rmult_le_pos; auto.
  - intros v I. apply in_map_iff in I as (x & <- & I). cbn. apply Rmult_le_pos; auto.
Qed.
(** a longer observation *)
Theorem trend_time signal background c t1 t2 : 1 <= c -> sw = true -> bw = true -> valid_events sp bp signal background ->
  sens signal background = Ok t1 -> sens (map (reweighted c) signal) (map (reweighted_bg c) background) = Ok t2 ->
  forall k, (k < List.length bins - 1)%nat -> exists r1 r2, cell t1 "relative_sensitivity" k r1 /\ cell t2 "relative_sensitivity" k r2 /\ (r1 <> NaN -> r2 <> NaN -> not_worse r2 r1).
Proof.
  intros C Es Eb V T1 T2. apply (chain_trend signal background (map (reweighted c) signal) (map (reweighted_bg c) background) t1 t2); auto; [apply valid_scaled; auto; lra|].
  intros k W1 U1 W2 U2 q P1 P2 P3 P4 P5 HW1 HV1 HW2 HV2. assert (A : 0 < alpha) by apply HS. rewrite Es, Eb in *.
  assert (EW : W2 = c * W1). { eapply weight_unique; [exact HW2|]. eapply weight_scaled; [| |exact HW1]; intros; cbn; reflexivity. }
  assert (EU : U2 = c * U1). { eapply weight_unique; [exact HV2|]. eapply weight_scaled; [| |exact HV1]; intros; cbn; reflexivity. }
  split; [intros Z; rewrite EW in Z; apply Rmult_integral in Z as [|]; lra|]. intros r Q1 Q2 R D. rewrite EW, EU. replace (c * U1 * q / alpha) with (c * (U1 * q / alpha)) by (field; lra).
  apply det_time; auto; [|apply HS]. apply (B_mono U1 U1 q); lra.
Qed.
(** another normalisation of the source *)
Theorem scale_source signal background c t1 t2 : 0 < c -> sw = true -> valid_events sp bp signal background ->
  sens signal background = Ok t1 -> sens (map (reweighted c) signal) background = Ok t2 ->
  forall k, (k < List.length bins - 1)%nat -> exists r1 r2 B, cell t1 "relative_sensitivity" k r1 /\ cell t2 "relative_sensitivity" k r2 /\
    cell t1 "n_background_weighted" k (Fin B) /\ (r1 = PInf <-> r2 = PInf) /\ (1 < B -> (r1 = NaN <-> r2 = NaN)) /\
    forall x1 x2, r1 = Fin x1 -> r2 = Fin x2 -> Rabs (c * x2 - x1) <= c * brentq_tol x2 + brentq_tol x1.
Proof.
  intros C Es V T1 T2 k Hk.
  assert (V' : valid_events sp bp (map (reweighted c) signal) background).
  { destruct (valid_scaled c 1 signal background ltac:(lra) ltac:(lra) V) as (A1 & _ & A3 & _). destruct V as (_ & A2 & _ & A4). repeat split; auto. }
  destruct (sensitivity_row br sw sp bw bp signal background bins centers cuts alpha mn mx s m e HS V) as (t1' & T1' & R1). rewrite T1 in T1'. injection T1' as <-.
  destruct (sensitivity_row br sw sp bw bp (map (reweighted c) signal) background bins centers cuts alpha mn mx s m e HS V') as (t2' & T2' & R2). rewrite T2 in T2'. injection T2' as <-.
  destruct (nth_some_ex bins k) as (lo & Hlo); [lia|]. destruct (nth_some_ex bins (S k)) as (hi & Hhi); [lia|].
  destruct (R1 k lo hi Hlo Hhi) as (th & W1 & V1 & r1 & C1 & Q & P1 & P1' & HW1 & HV1 & K1 & KB & D1). destruct (R2 k lo hi Hlo Hhi) as (th' & W2 & V2 & r2 & C2 & Q' & P2 & P2' & HW2 & HV2 & K2 & _ & D2).
  assert (th' = th) by (eapply cut_unique; [apply HS|apply HS|exact C2|exact C1]). subst th'.
  assert (EW : W2 = c * W1). { rewrite Es in *. eapply weight_unique; [exact HW2|]. eapply weight_scaled; [| |exact HW1]; intros; cbn; reflexivity. }
  assert (EV : V2 = V1) by (eapply weight_unique; [exact HV2|exact HV1]). subst W2 V2. set (B := V1 * ring_ratio th mn mx / alpha) in *.
  exists r1, r2, B. split; [exact K1|]. split; [exact K2|]. split; [exact KB|].
  assert (NF : forall W rel, 0 < W -> smallest_detectable W B alpha s m e rel -> rel <> PInf).
  { intros W rel P (_ & D). destruct (D P) as (F & G). destruct (bracketed_dec W B alpha s) as [Y|Y]; [destruct (F Y) as (r & -> & _); discriminate|rewrite (G Y); discriminate]. }
  destruct P1 as [P1|<-].
  - assert (P2p : 0 < c * W1) by (apply Rmult_lt_0_compat; auto).
    split; [split; intros E; exfalso; [apply (NF W1 r1)|apply (NF (c * W1) r2)]; auto|]. split.
    + intros HB. destruct D1 as (_ & D1). destruct D2 as (_ & D2). destruct (D1 P1) as (F1 & G1). destruct (D2 P2p) as (F2 & G2).
      assert (BB : bracketed W1 B alpha s <-> bracketed (c * W1) B alpha s) by (unfold bracketed; split; intros [H|[H _]]; try lra; left; exact H).
      destruct (bracketed_dec W1 B alpha s) as [Y|Y].
      * destruct (F1 Y) as (x1 & -> & _). destruct (F2 (proj1 BB Y)) as (x2 & -> & _). split; discriminate.
      * rewrite (G1 Y), G2 by (rewrite <- BB; exact Y). tauto.
    + intros x1 x2 -> ->.
      destruct (sd_cases _ _ _ _ _ _ _ (Rlt_le _ _ P1) D1 ltac:(discriminate)) as [(E & _)|(_ & y1 & E1 & R1' & U1 & L1)]; [lra|]. injection E1 as <-.
      destruct (sd_cases _ _ _ _ _ _ _ P2 D2 ltac:(discriminate)) as [(E & _)|(_ & y2 & E2 & R2' & U2 & L2)]; [lra|]. injection E2 as <-.
      pose proof (U1 (x1 + brentq_tol x1) ltac:(lra)) as A1. pose proof (U2 (x2 + brentq_tol x2) ltac:(lra)) as A2. rewrite detectable_scale in A2.
      pose proof (L1 _ A2) as I1.
      replace (x1 + brentq_tol x1) with (c * ((x1 + brentq_tol x1) / c)) in A1 by (field; lra). rewrite <- detectable_scale in A1. pose proof (L2 _ A1) as I2.
      assert (I3 : c * (x2 - brentq_tol x2) <= x1 + brentq_tol x1).
      { apply (Rmult_le_compat_l c) in I2; [|lra]. replace (c * ((x1 + brentq_tol x1) / c)) with (x1 + brentq_tol x1) in I2 by (field; lra). exact I2. }
      apply Rabs_le. lra.
  - destruct D1 as (D1 & _). rewrite Rmult_0_r in *. destruct D2 as (D2 & _). rewrite (D1 eq_refl), (D2 eq_refl). repeat split; intros; try discriminate; reflexivity.
Qed.
End Two.
