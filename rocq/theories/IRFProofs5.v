(** * IRFProofs5: energy dispersion to migration matrix (C44) *)
From Coq Require Import String Reals List Bool ZArith Arith Lia Lra.
From Verif Require Import Num Numpy Lists SpecBinning Table Binning BinningProofs HistProofs BinningProofs2 CutsProofs SpecSimulations
  Tensor TensorProofs SpecIRF IRF IRFProofs IRFProofs2.
Import ListNotations.
Open Scope R_scope.

Lemma rmap_fun {A B} (f : A -> res B) (g : A -> B) l : (forall a, In a l -> f a = Ok (g a)) -> rmap f l = Ok (map g l).
Proof. induction l as [|a l IH]; intros H; cbn; auto. rewrite H by (left; auto). cbn. rewrite IH by (intros; apply H; right; auto). auto. Qed.
Section M.
Variables (itp : list R -> list R -> R -> R) (Hitp : passes_through_knots itp)
  (disp : nat -> nat -> nat -> R) (nfov : nat) (te mig nt reco : list R).
Hypotheses (Ht : increasing te) (Lt : (3 <= length te)%nat) (Hm : increasing mig) (Lm : (3 <= length mig)%nat).
Hypothesis (Hc : forall i e e', nth_error nt i = Some e -> nth_error nt (S i) = Some e' -> 0 < e + e').
Let nT := (length te - 1)%nat.
Let nM := (length mig - 1)%nat.
Let St : strictly_increasing te = true. Proof. apply strictly_increasing_iff. auto. Qed.
Let Sm : strictly_increasing mig = true. Proof. apply strictly_increasing_iff. auto. Qed.
Let data j k := map (fun i => disp i j k * nth j (diffR mig) 0) (seq 0 nT).
Let Ld j k : length te = S (length (data j k)). Proof. unfold data, nT. rewrite map_length, seq_length. lia. Qed.
Let R0 (d old new : list R) : list R := match resample_histogram1d itp false d (map Fin old) (map Fin new) with Ok o => o | Err _ => [] end.
Let T j k := R0 (data j k) te nt.
Lemma T_ok j k : resample_histogram1d itp false (data j k) (map Fin te) (map Fin nt) = Ok (T j k).
Proof. unfold T, R0. destruct (resample_length itp (data j k) te (Ld j k) Lt St nt) as (o & -> & _). auto. Qed.
Definition column_of (f : nat -> R) := map f (seq 0 nM).
Let col i k := map (fun j => nth i (T j k) 0) (seq 0 nM).
Let nrm i k := if Reqb (rsum (col i k)) 0 then 1 else rsum (col i k).
Let prb i k := map (fun v => v / nrm i k) (col i k).
Let Lp i k : length mig = S (length (prb i k)). Proof. unfold prb, col, nM. rewrite !map_length, seq_length. lia. Qed.
Let row i c k := R0 (prb i k) mig (map (fun r => r / c) reco).
Let cen := zipwith (fun a b => (b + a) / 2) (but_last nt) (tl nt).
Lemma cen_nth i c : nth_error cen i = Some c -> exists e e', nth_error nt i = Some e /\ nth_error nt (S i) = Some e' /\ c = (e' + e) / 2.
Proof. intros H. unfold cen in H. apply adj_inv in H as (a & b & A & B & ->). eauto. Qed.
Lemma row_ok i c k : c <> 0 -> resample_histogram1d itp false (prb i k) (map Fin mig) (map (fun r => ndiv (Fin r) (Fin c)) reco) = Ok (row i c k) /\ length (row i c k) = (length reco - 1)%nat.
Proof.
  intros H. replace (map (fun r => ndiv (Fin r) (Fin c)) reco) with (map Fin (map (fun r => r / c) reco)).
  - unfold row, R0. destruct (resample_length itp (prb i k) mig (Lp i k) Lm Sm (map (fun r => r / c) reco)) as (o & -> & L). rewrite map_length in L. auto.
  - rewrite map_map. apply map_ext. intros r. rewrite ndiv_fin; auto.
Qed.
Lemma to_mig_ok : energy_dispersion_to_migration itp disp nT nM nfov te mig nt reco =
  Ok (map (fun ie : nat * R => map (fun k => row (fst ie) (snd ie) k) (seq 0 nfov)) (combine (seq 0 (length cen)) cen)).
Proof.
  unfold energy_dispersion_to_migration. fold cen.
  rewrite (rmap_fun _ (fun k => map (fun j => T j k) (seq 0 nM))).
  2:{ intros k _. apply rmap_fun. intros j _. apply T_ok. }
  cbn [rbind]. apply rmap_fun. intros [i c] Hin. cbn [fst snd]. apply in_combine_r in Hin. apply In_nth_error in Hin as (i' & Hin).
  apply cen_nth in Hin as (e & e' & A & B & Ec). pose proof (Hc _ _ _ A B).
  replace (map (fun k => row i c k) (seq 0 nfov)) with (map (fun rows => R0 (map (fun v => v / (if Reqb (rsum (map (fun r => nth i r 0) rows)) 0 then 1 else rsum (map (fun r => nth i r 0) rows))) (map (fun r => nth i r 0) rows)) mig (map (fun r => r / c) reco)) (map (fun k => map (fun j => T j k) (seq 0 nM)) (seq 0 nfov))).
  - apply rmap_fun. intros rows Hr. apply in_map_iff in Hr as (k & <- & _). cbn beta zeta.
    assert (Ecol : map (fun r : list R => nth i r 0) (map (fun j => T j k) (seq 0 nM)) = col i k) by apply map_map. rewrite Ecol.
    assert (Hc0 : c <> 0) by lra. exact (proj1 (row_ok i c k Hc0)).
  - rewrite map_map. apply map_ext. intros k.
    assert (Ecol : map (fun r : list R => nth i r 0) (map (fun j => T j k) (seq 0 nM)) = col i k) by apply map_map. rewrite Ecol. reflexivity.
Qed.
Lemma combine_seq {A} (l : list A) i x : nth_error l i = Some x -> forall s, nth_error (combine (seq s (length l)) l) i = Some ((s + i)%nat, x).
Proof.
  revert i. induction l as [|a l IH]; intros [|i] H s; cbn in *; try discriminate.
  - rewrite Nat.add_0_r. congruence.
  - rewrite (IH _ H). do 2 f_equal. lia.
Qed.
Lemma cen_length : length cen = (length nt - 1)%nat.
Proof. apply adj_length. Qed.
Lemma nth_combine {A B} (l : list A) (m : list B) : length (combine l m) = Nat.min (length l) (length m).
Proof. apply combine_length. Qed.
(** the general form *)
Lemma to_mig_gen : exists out, energy_dispersion_to_migration itp disp nT nM nfov te mig nt reco = Ok out /\
  shape3 out (length nt - 1) nfov (length reco - 1) /\
  forall i k e e', nth_error nt i = Some e -> nth_error nt (S i) = Some e' -> (k < nfov)%nat ->
    exists plane r, nth_error out i = Some plane /\ nth_error plane k = Some r /\ r = row i ((e' + e) / 2) k.
Proof.
  rewrite to_mig_ok. eexists. split; [reflexivity|]. split.
  - split; [rewrite map_length, combine_length, seq_length, cen_length; lia|]. intros m Hin. apply in_map_iff in Hin as ([i c] & <- & Hin). split; [rewrite map_length, seq_length; auto|].
    intros r Hr. apply in_map_iff in Hr as (k & <- & _). cbn [fst snd]. apply in_combine_r in Hin. apply In_nth_error in Hin as (i' & Hin).
    apply cen_nth in Hin as (e & e' & A & B & Ec). pose proof (Hc _ _ _ A B). apply row_ok. lra.
  - intros i k e e' A B Hk.
    assert (Hcen : nth_error cen i = Some ((e' + e) / 2)) by (unfold cen; rewrite (adj_nth _ nt i e e' A B); auto).
    eexists _, _. split; [apply map_nth_some, (combine_seq _ _ _ Hcen)|]. cbn [fst snd Nat.add]. split; [|reflexivity].
    apply (map_nth_some (fun k => row i ((e' + e) / 2) k)). rewrite nth_error_nth' with (d := 0%nat) by (rewrite seq_length; auto). rewrite seq_nth by auto. auto.
Qed.
Lemma prb_sum i k : rsum (col i k) <> 0 -> rsum (prb i k) = 1.
Proof.
  intros H. unfold prb, nrm. rewrite (proj2 (Reqb_false _ _) H). rewrite (map_ext (fun v => v / rsum (col i k)) (fun v => / rsum (col i k) * v)) by (intros; unfold Rdiv; ring).
  rewrite rsum_scale. apply Rinv_l. auto.
Qed.
Lemma hd_map_div c : hd 0 (map (fun r => r / c) reco) = hd 0 reco / c.
Proof. destruct reco; cbn; auto. unfold Rdiv. ring. Qed.
Lemma last_map_div c (l : list R) : last (map (fun r => r / c) l) 0 = last l 0 / c.
Proof.
  induction l as [|a l IH]; [cbn; unfold Rdiv; ring|]. destruct l; cbn in *; auto.
Qed.
Lemma div_le a b c : 0 < c -> (a / c <= b <-> a <= c * b) /\ (b <= a / c <-> c * b <= a).
Proof.
  intros H. assert (E : a = c * (a / c)) by (field; lra). split; split; intros X.
  - rewrite E. apply Rmult_le_compat_l; lra.
  - apply (Rmult_le_reg_l c); lra.
  - rewrite E. apply Rmult_le_compat_l; lra.
  - apply (Rmult_le_reg_l c); lra.
Qed.
Lemma to_mig_any : exists out, energy_dispersion_to_migration itp disp nT nM nfov te mig nt reco = Ok out /\
  shape3 out (length nt - 1) nfov (length reco - 1) /\
  forall i k e e', nth_error nt i = Some e -> nth_error nt (S i) = Some e' -> (k < nfov)%nat ->
    exists plane r P, nth_error out i = Some plane /\ nth_error plane k = Some r /\ length P = nM /\
      (* the resampled probabilities of the migration bins *)
      (forall j, (j < nM)%nat -> exists slice, resample_histogram1d itp false (map (fun h => disp h j k * (nth (S j) mig 0 - nth j mig 0)) (seq 0 nT)) (map Fin te) (map Fin nt) = Ok slice /\ nth_error slice i = nth_error P j) /\
      (forall u v j, nth_error te u = Some e -> nth_error te v = Some e' -> (j < nM)%nat ->
         nth_error P j = Some (between u v (map (fun h => disp h j k * (nth (S j) mig 0 - nth j mig 0)) (seq 0 nT)))) /\
      (total P <> 0 -> reco <> [] -> hd 0 reco <= (e + e') / 2 * hd 0 mig -> (e + e') / 2 * last mig 0 <= last reco 0 -> total r = 1) /\
      (total P <> 0 -> forall n a b u v, nth_error reco n = Some ((e + e') / 2 * a) -> nth_error reco (S n) = Some ((e + e') / 2 * b) ->
         nth_error mig u = Some a -> nth_error mig v = Some b -> nth_error r n = Some (between u v P / total P)) /\
      (total P <> 0 -> forall n a b, nth_error reco n = Some a -> nth_error reco (S n) = Some b ->
         (a <= (e + e') / 2 * hd 0 mig /\ b <= (e + e') / 2 * hd 0 mig) \/ ((e + e') / 2 * last mig 0 <= a /\ (e + e') / 2 * last mig 0 <= b) ->
         nth_error r n = Some 0) /\
      ((forall x, In x P -> x = 0) -> forall a b, reco = [a; b] -> a = (e + e') / 2 * hd 0 mig -> (e + e') / 2 * last mig 0 < b -> r = [1]).
Proof.
  destruct to_mig_gen as (out & Eo & Sh & H). exists out. split; auto. split; auto. intros i k e e' A B Hk. pose proof (Hc _ _ _ A B) as Hp.
  destruct (H i k e e' A B Hk) as (plane & r & E1 & E2 & ->). replace ((e' + e) / 2) with ((e + e') / 2) in * by lra. set (c := (e + e') / 2) in *. assert (Hc0 : 0 < c) by (unfold c; lra). clearbody c. clear H.
  eexists plane, _, (col i k). split; auto. split; [exact E2|]. rewrite total_rsum.
  split; [unfold col; rewrite map_length, seq_length; auto|]. 
  assert (W : forall j h, (j < nM)%nat -> disp h j k * (nth (S j) mig 0 - nth j mig 0) = disp h j k * nth j (diffR mig) 0).
  { intros j h Hj. f_equal. destruct (nth_some_ex mig j) as [x Hx]; [unfold nM in *; lia|]. destruct (nth_some_ex mig (S j)) as [y Hy]; [unfold nM in *; lia|].
    rewrite (nth_error_nth _ _ _ Hx), (nth_error_nth _ _ _ Hy). symmetry. apply nth_error_nth. erewrite diffR_nth; eauto. }
  assert (N : forall j, (j < nM)%nat -> nth_error (col i k) j = Some (nth i (T j k) 0)).
  { intros j Hj. unfold col. apply (map_nth_some (fun j => nth i (T j k) 0) (seq 0 nM) j j).
    rewrite nth_error_nth' with (d := 0%nat) by (rewrite seq_length; auto). rewrite seq_nth by auto. auto. }
  split; [|split; [|split; [|split; [|split]]]].
  2:{ intros u v j Hu Hv Hj. rewrite N by auto. f_equal.
      destruct (resample_aligned itp Hitp (data j k) te (Ld j k) Lt St nt i u v e e' A B Hu Hv) as (o & Ho & Eo').
      rewrite T_ok in Ho. assert (o = T j k) by congruence. subst o. rewrite (nth_error_nth _ _ _ Eo'). unfold between. rewrite (map_ext (fun h => disp h j k * (nth (S j) mig 0 - nth j mig 0)) (fun h => disp h j k * nth j (diffR mig) 0)) by (intros; apply W; auto).
      fold (data j k). replace (total (firstn v (data j k))) with (rsum (firstn v (data j k))) by (symmetry; apply total_rsum). replace (total (firstn u (data j k))) with (rsum (firstn u (data j k))) by (symmetry; apply total_rsum). auto. }
  - intros j Hj. exists (T j k). split.
    + rewrite <- T_ok. unfold data. f_equal. apply map_ext. intros h. apply W; auto.
    + rewrite N by auto. assert (Hi := nth_some_lt _ _ _ B). apply nth_error_nth'.
      destruct (resample_length itp (data j k) te (Ld j k) Lt St nt) as (o & Ho & L). rewrite T_ok in Ho. assert (o = T j k) by congruence. subst o. lia.
  - intros HP Hr H1 H2. rewrite total_rsum.
    destruct (resample_total itp Hitp (prb i k) mig (Lp i k) Lm Sm (map (fun r => r / c) reco)) as (o & Ho & Eo').
    + destruct reco; [congruence|discriminate].
    + rewrite prb_sum by auto. lra.
    + rewrite hd_map_div. apply (proj1 (div_le (hd 0 reco) (hd 0 mig) c Hc0)); auto.
    + rewrite last_map_div. apply (proj2 (div_le (last reco 0) (last mig 0) c Hc0)); auto.
    + unfold row, R0. rewrite Ho. rewrite Eo'. apply prb_sum; auto.
  - intros HP n a b u v Ra Rb Mu Mv.
    destruct (resample_aligned itp Hitp (prb i k) mig (Lp i k) Lm Sm (map (fun r => r / c) reco) n u v a b) as (o & Ho & Eo'); auto.
    + rewrite (map_nth_some (fun r => r / c) _ _ _ Ra). f_equal. field. lra.
    + rewrite (map_nth_some (fun r => r / c) _ _ _ Rb). f_equal. field. lra.
    + unfold row, R0. rewrite Ho, Eo'. f_equal. unfold between.
      replace (total (firstn v (col i k))) with (rsum (firstn v (col i k))) by (symmetry; apply total_rsum). replace (total (firstn u (col i k))) with (rsum (firstn u (col i k))) by (symmetry; apply total_rsum). unfold prb, nrm. rewrite (proj2 (Reqb_false _ _) HP).
      assert (Q : forall z, rsum (firstn z (map (fun v0 => v0 / rsum (col i k)) (col i k))) = rsum (firstn z (col i k)) / rsum (col i k)).
      { intros z. rewrite firstn_map. rewrite (map_ext (fun v0 => v0 / rsum (col i k)) (fun v0 => / rsum (col i k) * v0)) by (intros; unfold Rdiv; ring). rewrite rsum_scale. unfold Rdiv. ring. }
      rewrite !Q. field. auto.
  - intros HP n a b Ra Rb Hout.
    destruct (resample_outside itp Hitp (prb i k) mig (Lp i k) Lm Sm (map (fun r => r / c) reco) n (a / c) (b / c)) as (o & Ho & Eo').
    + apply (map_nth_some (fun r => r / c) _ _ _ Ra).
    + apply (map_nth_some (fun r => r / c) _ _ _ Rb).
    + rewrite prb_sum by auto. destruct Hout as [[X Y]|[X Y]]; [left; split; [apply (proj1 (div_le a _ c Hc0))|apply (proj1 (div_le b _ c Hc0))]; auto
      |right; split; [|split]; [apply (proj2 (div_le a _ c Hc0)); auto|apply (proj2 (div_le b _ c Hc0)); auto|lra]].
    + unfold row, R0. rewrite Ho. auto.
  - intros Hz a b Er Ea Hb. unfold row, R0. rewrite Er. cbn [map].
    assert (Z : prb i k = repeat 0 (length mig - 1)).
    { fold nM. unfold prb. clear -Hz. assert (L : length (col i k) = nM) by (unfold col; rewrite map_length, seq_length; auto). rewrite <- L. generalize (nrm i k). intros q. clear L. induction (col i k) as [|x l IH]; cbn; auto.
      rewrite IH by (intros; apply Hz; right; auto). rewrite (Hz x (or_introl eq_refl)). f_equal. unfold Rdiv. ring. }
    rewrite Z. pose proof (resample_empty_phantom itp mig (b / c) Hitp Lm Sm) as Q. cbn [map] in Q.
    replace (a / c) with (hd 0 mig) by (rewrite Ea; field; lra). rewrite Q; auto.
    apply (Rmult_lt_reg_l c); auto. replace (c * (b / c)) with b by (field; lra). auto.
Qed.
End M.
