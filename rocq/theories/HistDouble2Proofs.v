(** * HistDouble2Proofs: create_histogram_table in double precision *)
From Coq Require Import String Reals List Bool ZArith Arith Lia Lra Psatz Permutation.
From Flocq Require Import Core.
From Coq Require Import Sorted.
From Verif Require Import Num Numpy Lists SpecBinning Table Binning BinningProofs HistProofs BinningWitness
  Sort
  Double SpecDouble DoubleProofs NearProofs LiMaDoubleProofs LiMaDouble2Proofs IRFDouble IRFDoubleProofs IRFDouble2Proofs PSFDoubleProofs HistDouble HistDoubleProofs.
Import ListNotations.
Open Scope R_scope.

Lemma weight_of_unique {A} (w : A -> R) P l c : weight_of w P l c -> forall d, weight_of w P l d -> c = d.
Proof. induction 1; intros d Hd; inversion Hd; subst; auto; try contradiction. f_equal; auto. Qed.
Lemma upto_spec edges k hi y : nondecreasing edges -> nth_error edges (S k) = Some hi ->
  ((if Nat.eqb (S (S k)) (length edges) then nle y hi else nlt y hi) = true <-> up_to_bin edges k y).
Proof.
  intros ED Hhi. assert (Nh : is_nan hi = false) by (apply ED; eapply nth_error_In; eauto). unfold up_to_bin. split.
  - intros H. exists hi. split; auto. destruct (Nat.eqb_spec (S (S k)) (length edges)) as [E|E]; [|auto].
    destruct (nlt y hi) eqn:L; [auto|]. right. split; auto. apply nle_antisym; auto. apply not_nlt_le; auto. eapply nle_nan_l; eauto.
  - intros (h & Hh & [L|[E ->]]); rewrite Hh in Hhi; inversion Hhi; subst h.
    + destruct (Nat.eqb _ _); auto using nlt_nle.
    + destruct (Nat.eqb_spec (S (S k)) (length edges)); [apply nle_refl; auto|contradiction].
Qed.
Lemma filter_all {A} (l : list A) : filter (fun _ => true) l = l.
Proof. induction l; cbn; f_equal; auto. Qed.
Lemma huge_300 : 10 ^ 300 <= huge.
Proof. unfold huge. rewrite <- (IZR_Zpower radix2 1000) by lia. rewrite pow_IZR. apply IZR_le. vm_compute. discriminate. Qed.
Lemma K_bound {A} (evs : list A) : INR (K evs) <= Rmin (INR (length evs)) 65536 + INR (length evs) / 65536 + 1.
Proof.
  unfold K. rewrite plus_INR. pose proof (blocks_number (length evs) evs) as B. apply le_INR in B. rewrite mult_INR, plus_INR in B.
  assert (EB : INR BLOCK = 65536) by (unfold BLOCK; rewrite INR_IZR_INZ, Z2Nat.id by lia; reflexivity).
  rewrite minus_INR in B by (pose proof block_pos; lia). rewrite EB in B. change (INR 1) with 1 in B.
  assert (INR (Nat.min (length evs) BLOCK) <= Rmin (INR (length evs)) 65536) by (rewrite <- EB; apply Rmin_glb; apply le_INR; lia).
  assert (INR (length (blocks (length evs) evs)) <= INR (length evs) / 65536 + 1); [|lra].
  apply (Rmult_le_reg_r 65536); [lra|]. unfold Rdiv. rewrite Rmult_plus_distr_r, Rmult_assoc, Rinv_l, Rmult_1_r by lra. lra.
Qed.
Lemma K_small {A} (evs : list A) : (Z.of_nat (length evs) <= 2 ^ 53)%Z -> INR (K evs) * u <= / 4.
Proof.
  intros H. pose proof (K_bound evs) as B. apply IZR_le in H. rewrite <- INR_IZR_INZ in H. change (IZR (2 ^ 53)) with 9007199254740992 in H.
  pose proof (Rmin_r (INR (length evs)) 65536). change u with (/ 9007199254740992). lra.
Qed.
Section W.
Context {A : Type} (argsort : list A -> list A) (x : A -> num) (w : A -> R) (edges : list num).
Hypothesis SORT : sorting x argsort.
Hypothesis ED : nondecreasing edges.
Hypothesis L2 : (2 <= length edges)%nat.
Lemma hist_close evs : usable_weights w evs -> (Z.of_nat (length evs) <= 2 ^ 53)%Z ->
  exists h, np_histogram_w_double argsort x w evs edges = Ok h /\ close_histogram x w evs edges h.
Proof.
  intros [W0 WT] HN. assert (NE : edges <> []) by (intros ->; cbn in L2; lia).
  assert (WT' : rsum (map w evs) <= huge).
  { eapply Rle_trans; [|apply huge_300]. apply WT. replace (rsum (map w evs)) with (wsum w (fun _ => true) evs); [apply weight_of_wsum; intros; split; auto|].
    unfold wsum. rewrite filter_all; auto. }
  pose proof (K_small evs HN) as HK. rewrite (hist_double_eq argsort x w edges SORT ED NE evs W0 WT' HK). eexists. split; [reflexivity|]. split.
  - rewrite diff_double_length, map_length, cum_preds_length; auto.
  - intros k y Hy. assert (Hk : (S k < length edges)%nat).
    { assert (L : (k < length (diff_double (map (fun p => Fin (cum argsort x w p evs)) (cum_preds edges))))%nat) by (apply nth_error_Some; congruence).
      rewrite diff_double_length, map_length, cum_preds_length in L by auto. lia. }
    destruct (nth_error_ex edges k) as (lo & Hlo); [lia|]. destruct (nth_error_ex edges (S k)) as (hi & Hhi); [lia|].
    destruct (entry argsort x w edges SORT ED NE evs W0 WT' HK k lo hi Hlo Hhi) as (v & E & V0 & Z & B). cbv zeta in *. rewrite E in Hy. inversion Hy; subst y.
    exists v. split; auto. split; auto. split.
    + intros Hn. apply Z. intros e He. apply not_true_iff_false. intros T. apply (Hn e He). apply (hist_binb_spec edges k lo hi); auto.
    + intros c t Hc Ht.
      assert (Ec : c = wsum w (fun e => hist_binb lo hi (Nat.eqb (S (S k)) (length edges)) (x e)) evs) by (eapply weight_of_unique; [exact Hc|]; apply weight_of_wsum; intros; apply hist_binb_spec; auto).
      assert (Et : t = wsum w (fun e => if Nat.eqb (S (S k)) (length edges) then nle (x e) hi else nlt (x e) hi) evs) by (eapply weight_of_unique; [exact Ht|]; apply weight_of_wsum; intros; apply upto_spec; auto).
      rewrite Ec, Et. rewrite Et in Ht. eapply Rle_trans; [exact B|]. rewrite eps53_u. destruct evs as [|e0 evs0] eqn:EE; [rewrite !wsum_nil, !Rmult_0_r; lra|]. rewrite <- EE in *.
      apply Rmult_le_compat_r; [apply wsum_nonneg; intros; apply W0; auto|]. replace (4 * u * (INR (K evs) + 1)) with (u * (4 * (INR (K evs) + 1))) by ring.
      replace (6 * u * (Rmin (INR (length evs)) 65536 + INR (length evs) / 65536 + 1)) with (u * (6 * (Rmin (INR (length evs)) 65536 + INR (length evs) / 65536 + 1))) by ring.
      apply Rmult_le_compat_l; [pose proof u_pos; lra|]. pose proof (K_bound evs). assert (1 <= INR (length evs)) by (change 1 with (INR 1); apply le_INR; rewrite EE; cbn; lia).
      assert (1 <= Rmin (INR (length evs)) 65536) by (apply Rmin_glb; lra). lra.
Qed.
End W.

(** ** whole numbers: exact *)
Lemma racc_int (l : list R) : Forall (fun v => exists z, (0 <= z)%Z /\ v = IZR z) l -> forall z, (0 <= z)%Z -> IZR z + rsum l <= 2 ^ 53 -> racc (IZR z) l = IZR z + rsum l.
Proof.
  induction 1 as [|v l (y & Hy & ->) F IH]; intros z Hz B; [unfold racc, rsum; cbn; ring|].
  change (rsum (IZR y :: l)) with (IZR y + rsum l) in *. cbn [racc fold_left]. change (fold_left (fun c v => round64 (c + v)) l (round64 (IZR z + IZR y))) with (racc (round64 (IZR z + IZR y)) l).
  assert (0 <= rsum l). { apply rsum_nonneg. intros v Hv. apply (proj1 (Forall_forall _ _) F) in Hv as (q & Hq & ->). apply IZR_le. auto. }
  rewrite <- plus_IZR. rewrite round64_int; [rewrite IH; [rewrite plus_IZR; ring|lia|rewrite plus_IZR; lra]|]. rewrite Z.abs_eq by lia. apply le_IZR. rewrite plus_IZR.
  replace (IZR (2 ^ 53)) with (2 ^ 53) by (rewrite pow_IZR; reflexivity). lra.
Qed.
Lemma rsum_whole l : Forall (fun v => exists z, (0 <= z)%Z /\ v = IZR z) l -> exists z, (0 <= z)%Z /\ rsum l = IZR z.
Proof. induction 1 as [|v l (y & Hy & ->) F (z & Hz & E)]; [exists 0%Z; split; [lia|reflexivity]|]. exists (y + z)%Z. split; [lia|]. change (rsum (IZR y :: l)) with (IZR y + rsum l). rewrite E, plus_IZR. ring. Qed.
Section E.
Context {A : Type} (argsort : list A -> list A) (x : A -> num) (w : A -> R) (edges : list num).
Hypothesis SORT : sorting x argsort.
Hypothesis ED : nondecreasing edges.
Hypothesis L2 : (2 <= length edges)%nat.
Variable evs : list A.
Hypothesis W0 : forall e, In e evs -> exists z, (0 <= z)%Z /\ w e = IZR z.
Hypothesis WT : rsum (map w evs) <= 2 ^ 53.
Hypothesis HN : (Z.of_nat (length evs) <= 2 ^ 53)%Z.
Lemma W0' e : In e evs -> 0 <= w e.
Proof. intros H. destruct (W0 e H) as (z & Hz & ->). apply IZR_le; auto. Qed.
Lemma w_le e : In e evs -> w e <= rsum (map w evs).
Proof.
  intros H. assert (P : forall e, In e evs -> 0 <= w e) by apply W0'. clear - H P. induction evs as [|a l IH]; [destruct H|]. change (rsum (map w (a :: l))) with (w a + rsum (map w l)).
  assert (0 <= rsum (map w l)) by (apply rsum_nonneg; intros v Hv; apply in_map_iff in Hv as (b & <- & Hb); apply P; right; auto).
  destruct H as [->|H]; [lra|]. assert (w e <= rsum (map w l)) by (apply IH; auto; intros; apply P; right; auto). pose proof (P a (or_introl eq_refl)). lra.
Qed.
Lemma whole_double z : (0 <= z)%Z -> IZR z <= 2 ^ 53 -> double (IZR z).
Proof.
  intros H B. rewrite <- (round64_int z). 2:{ rewrite Z.abs_eq by lia. apply le_IZR. replace (IZR (2 ^ 53)) with (2 ^ 53) by (rewrite pow_IZR; reflexivity). lra. }
  apply double_round. rewrite Rabs_pos_eq by (apply IZR_le; auto). eapply Rle_trans; [exact B|]. eapply Rle_trans; [|apply (bpow_fmax 53); lia]. rewrite <- (IZR_Zpower radix2 53) by lia. rewrite pow_IZR. apply Rle_refl.
Qed.
Lemma WD e : In e evs -> 0 <= w e /\ double (w e).
Proof. intros H. split; [apply W0'; auto|]. pose proof (w_le e H) as B. destruct (W0 e H) as (z & Hz & E). rewrite E in *. apply whole_double; auto. lra. Qed.
Lemma WT'' : rsum (map w evs) <= huge.
Proof. eapply Rle_trans; [exact WT|]. unfold huge. rewrite <- (IZR_Zpower radix2 1000) by lia. rewrite pow_IZR. apply IZR_le. vm_compute. discriminate. Qed.
Lemma part_exact p b : In b (blocks (length evs) evs) -> part argsort x w p b = wsum w (fun e => p (x e)) b.
Proof.
  intros Hb. unfold part. rewrite <- (below_sum argsort x w SORT p b). change 0 with (IZR 0) at 1. rewrite racc_int; [apply Rplus_0_l| |lia|].
  - apply Forall_forall. intros v Hv. apply in_map_iff in Hv as (e & <- & He). apply W0. eapply below_in; eauto.
  - change (IZR 0) with 0. rewrite Rplus_0_l, (below_sum argsort x w SORT p b). eapply Rle_trans; [|exact WT].
    eapply Rle_trans; [apply (block_total w evs WD b); auto|]. apply wsum_le_all. intros; apply W0'; auto.
Qed.
Lemma cum_exact p : cum argsort x w p evs = wsum w (fun e => p (x e)) evs.
Proof.
  unfold cum. rewrite (map_ext_in _ (wsum w (fun e => p (x e)))) by (intros; apply part_exact; auto).
  assert (T : wsum w (fun e => p (x e)) evs = rsum (map (wsum w (fun e => p (x e))) (blocks (length evs) evs))) by (rewrite <- wsum_concat, blocks_concat; auto).
  change 0 with (IZR 0) at 1. rewrite racc_int; [rewrite T; apply Rplus_0_l| |lia|].
  - apply Forall_forall. intros v Hv. apply in_map_iff in Hv as (b & <- & Hb).
    destruct (rsum_whole (map w (filter (fun e => p (x e)) b))) as (z & Hz & E); [|exists z; auto]. apply Forall_forall. intros v Hv. apply in_map_iff in Hv as (e & <- & He). apply filter_In in He as [He _]. apply W0. eapply in_blocks; eauto.
  - change (IZR 0) with 0. rewrite Rplus_0_l, <- T. eapply Rle_trans; [apply wsum_le_all; intros; apply W0'; auto|exact WT].
Qed.
Lemma hist_exact : exists h, np_histogram_w_double argsort x w evs edges = Ok (map Fin h) /\ is_histogram_w x w evs edges h.
Proof.
  assert (NE : edges <> []) by (intros ->; cbn in L2; lia).
  rewrite (hist_double_eq argsort x w edges SORT ED NE evs WD WT'' (K_small evs HN)). exists (diffR (cum_weights x w evs edges)).
  split; [|apply hist_is_histogram_w; auto]. f_equal. rewrite cum_weights_preds.
  rewrite (map_ext _ (fun p => Fin (wsum w (fun v => p (x v)) evs))) by (intros p; rewrite cum_exact; reflexivity).
  assert (F : forall p, exists z, (0 <= z <= 2 ^ 53)%Z /\ wsum w (fun v => p (x v)) evs = IZR z).
  { intros p. destruct (rsum_whole (map w (filter (fun e => p (x e)) evs))) as (z & Hz & E). { apply Forall_forall. intros v Hv. apply in_map_iff in Hv as (e & <- & He). apply filter_In in He as [He _]. auto. }
    exists z. split; [|exact E]. split; auto. apply le_IZR. replace (IZR (2 ^ 53)) with (2 ^ 53) by (rewrite pow_IZR; reflexivity). rewrite <- E. eapply Rle_trans; [apply (wsum_le_all w); intros; apply W0'; auto|exact WT]. }
  revert F. generalize (cum_preds edges). clear. intros l F. unfold diff_double. induction l as [|p l IH]; [reflexivity|]. destruct l as [|q l]; [reflexivity|].
  cbn [map but_last tl zipwith diffR] in *. f_equal; [|exact IH].
  destruct (F p) as (a & Ha & ->). destruct (F q) as (b & Hb & ->). change (fsub (Fin (IZR b)) (Fin (IZR a))) with (fl (IZR b - IZR a)). rewrite <- minus_IZR.
  apply fl_of; [apply round64_int; lia|]. rewrite <- (Rabs_Zabs (b - a)) || idtac. eapply Rle_trans; [|apply (bpow_fmax 53); lia]. rewrite <- (IZR_Zpower radix2 53) by lia. rewrite Rabs_Zabs. apply IZR_le. cbn -[Z.sub]. lia.
Qed.
End E.

(** ** the table *)
Section T.
Variables (C : list event -> col).
Fixpoint groups_gen (evs : list event) edges keys (hist : table) : table :=
  match keys with
  | [] => hist
  | p :: keys' => groups_gen evs edges keys' (setitem (setitem hist ("n_" ++ p) (CZ (diffZ (cum_counts ev_x (group evs p) edges)))) (("n_" ++ p) ++ "_weighted") (C (group evs p)))
  end%string.
Lemma groups_gen_other evs edges keys hist name : (forall p, In p keys -> ~ In name (names_of p)) -> getitem (groups_gen evs edges keys hist) name = getitem hist name.
Proof.
  revert hist; induction keys as [|p keys IH]; intros hist H; auto. cbn [groups_gen]. assert (Hp := H p (or_introl eq_refl)). simpl in Hp.
  rewrite IH by (intros; apply H; right; auto). rewrite !getitem_setitem_neq; auto.
Qed.
Lemma groups_gen_get evs edges keys hist p : NoDup keys -> no_collision keys -> In p keys ->
  getitem (groups_gen evs edges keys hist) (("n_" ++ p) ++ "_weighted") = Some (C (group evs p)).
Proof.
  revert hist; induction keys as [|q keys IH]; intros hist Hnd Hc Hp; [destruct Hp|]. inversion Hnd; subst. simpl in Hp. cbn [groups_gen]. destruct (string_dec q p) as [->|Hqp].
  - rewrite groups_gen_other; [apply getitem_setitem_eq|]. intros r Hr. eapply (names_disjoint (p :: keys)); [exact Hc|left; auto|right; auto| |right; left; auto]. intros ->; contradiction.
  - destruct Hp as [|Hp]; [congruence|]. apply IH; auto. intros a b Ha Hb. apply Hc; right; auto.
Qed.
End T.
Theorem table_double argsort ev bins key : sorting ev_x argsort -> nondecreasing bins -> (2 <= length bins)%nat ->
  et_has_weight ev = true -> usable_weights ev_w (et_rows ev) -> (Z.of_nat (length (et_rows ev)) <= 2 ^ 53)%Z ->
  no_collision (map ev_p (et_rows ev)) -> ~ In "weighted"%string (map ev_p (et_rows ev)) ->
  exists t, create_histogram_table_double argsort ev bins key = Ok t /\
    (exists h, getitem t "n_weighted" = Some (CN h) /\ close_histogram ev_x ev_w (et_rows ev) bins h) /\
    (et_has_ptype ev = true -> forall p, In p (map ev_p (et_rows ev)) ->
       exists h, getitem t ("n_" ++ p ++ "_weighted") = Some (CN h) /\ close_histogram ev_x ev_w (filter (fun e => String.eqb (ev_p e) p) (et_rows ev)) bins h).
Proof.
  intros SORT ED L2 HW UW HN NC NW. assert (NE : bins <> []) by (intros ->; cbn in L2; lia).
  pose (C := fun evs => match np_histogram_w_double argsort ev_x ev_w evs bins with Ok h => CN h | _ => CN [] end).
  assert (SUB : forall f, usable_weights ev_w (filter f (et_rows ev)) /\ (Z.of_nat (length (filter f (et_rows ev))) <= 2 ^ 53)%Z).
  { intros f. pose proof (count_bound f (et_rows ev)) as CB. unfold count in CB. split; [|lia]. destruct UW as [U1 U2]. split.
    - intros e He. apply filter_In in He as [He _]. auto.
    - intros t Ht. apply Rle_trans with (wsum ev_w (fun _ => true) (et_rows ev)); [|apply U2; apply weight_of_wsum; intros; split; auto].
      replace t with (wsum ev_w (fun _ => true) (filter f (et_rows ev))) by (eapply weight_of_unique; [|exact Ht]; apply weight_of_wsum; intros; split; auto).
      unfold wsum. rewrite !filter_all. apply (wsum_le_all ev_w f). intros; apply U1; auto. }
  assert (COL : forall f, exists h, np_histogram_w_double argsort ev_x ev_w (filter f (et_rows ev)) bins = Ok h /\ close_histogram ev_x ev_w (filter f (et_rows ev)) bins h)
    by (intros f; destruct (SUB f); apply hist_close; auto).
  assert (COLS : forall f, hist_columns_double argsort (filter f (et_rows ev)) true bins = Ok (diffZ (cum_counts ev_x (filter f (et_rows ev)) bins), C (filter f (et_rows ev)))).
  { intros f. unfold hist_columns_double, C. rewrite np_histogram_ok by auto. cbn [rbind]. destruct (COL f) as (h & -> & _). reflexivity. }
  assert (GR : forall keys hist, add_groups_double argsort (et_rows ev) true bins keys hist = Ok (groups_gen C (et_rows ev) bins keys hist)).
  { induction keys as [|p keys IH]; intros hist; [reflexivity|]. cbn [add_groups_double groups_gen]. unfold group. rewrite COLS. cbn [rbind fst snd]. apply IH. }
  assert (ALL := COLS (fun _ => true)). rewrite filter_all in ALL. destruct (COL (fun _ => true)) as (h0 & E0 & H0). rewrite filter_all in E0, H0.
  assert (C0 : C (et_rows ev) = CN h0) by (unfold C; rewrite E0; reflexivity).
  assert (PK : forall p, In p (group_keys (map ev_p (et_rows ev))) -> p <> "weighted"%string) by (intros p Hp ->; apply NW; apply in_group_keys; auto).
  unfold create_histogram_table_double. cbv zeta. rewrite HW, ALL. cbn [rbind fst snd].
  destruct (et_has_ptype ev && negb (Nat.eqb (length (et_rows ev)) 0))%bool eqn:EP.
  - rewrite GR. eexists. split; [reflexivity|]. split.
    + exists h0. split; [|exact H0]. rewrite groups_gen_other; [rewrite getitem_setitem_eq, C0; reflexivity|]. intros p Hp. apply n_weighted_not_group. auto.
    + intros _ p Hp. destruct (COL (fun e => String.eqb (ev_p e) p)) as (h & E & Hh). exists h. split; [|exact Hh].
      change ("n_" ++ p ++ "_weighted")%string with (("n_" ++ p) ++ "_weighted")%string.
      rewrite groups_gen_get; [unfold C, group; rewrite E; reflexivity|apply nodup_group_keys| |apply in_group_keys; auto].
      intros a b Ha Hb. apply NC; apply in_group_keys; auto.
  - eexists. split; [reflexivity|]. split.
    + exists h0. split; [|exact H0]. rewrite getitem_setitem_eq, C0. reflexivity.
    + intros HP p Hp. rewrite HP in EP. cbn in EP. destruct (et_rows ev); [destruct Hp|discriminate].
Qed.

(** ** cancellation *)
Definition ea := mkEvent (Fin (1 / 2)) (2 ^ 54) "".
Definition eb := mkEvent (Fin (3 / 2)) 1 "".
Lemma big_plus_one : round64 (2 ^ 54 + 1) = 2 ^ 54.
Proof.
  rewrite (round64_eq (2 ^ 52) 2).
  - change (bpow radix2 2) with 4. rewrite !pow_IZR. change (2 ^ Z.of_nat 54)%Z with (2 ^ 54)%Z. rewrite <- mult_IZR. reflexivity.
  - lia.
  - change (2 + 52)%Z with 54%Z. change (2 + 53)%Z with 55%Z. rewrite <- !(IZR_Zpower radix2) by lia. rewrite pow_IZR, <- plus_IZR. split; [apply IZR_le|apply IZR_lt]; cbn; lia.
  - change (bpow radix2 (- (2))) with (/ 4). rewrite pow_IZR. change (2 ^ Z.of_nat 54)%Z with (4 * 2 ^ 52)%Z. rewrite mult_IZR.
    replace ((4 * IZR (2 ^ 52) + 1) * / 4 - IZR (2 ^ 52)) with (/ 4) by field. rewrite Rabs_pos_eq; lra.
Qed.
Lemma double_54 : double (2 ^ 54).
Proof. exists 1%Z, 54%Z. split; [reflexivity|]. split; [lia|]. rewrite Rmult_1_l. reflexivity. Qed.
Lemma argsort_ab argsort : sorting ev_x argsort -> argsort [ea; eb] = [ea; eb].
Proof.
  intros S. destruct (S [ea; eb]) as [P O]. apply Permutation_length_2_inv in P as [->|E]; [reflexivity|]. rewrite E in *.
  destruct (O 0%nat 1%nat eb ea) as [N|N]; try reflexivity; [lia|discriminate|]. cbn in N. destruct (Rleb_spec (3 / 2) (1 / 2)); [lra|discriminate].
Qed.
Lemma blocks_ab : blocks 2 [ea; eb] = [[ea; eb]].
Proof.
  assert (2 <= BLOCK)%nat by (unfold BLOCK; lia). cbn [blocks]. rewrite firstn_all2 by (cbn; lia). rewrite skipn_all2 by (cbn; lia). reflexivity.
Qed.
Theorem cancellation argsort key : sorting ev_x argsort ->
  (exists t, create_histogram_table_double argsort (mkEvents [ea; eb] true false) [Fin 0; Fin 1; Fin 2] key = Ok t /\ getitem t "n_weighted" = Some (CN [Fin (2 ^ 54); Fin 0])) /\
  weight_of ev_w (fun e => in_hist_bin [Fin 0; Fin 1; Fin 2] 1 (ev_x e)) [ea; eb] 1.
Proof.
  intros S. assert (ED : nondecreasing [Fin 0; Fin 1; Fin 2]) by conc_nondec. split.
  - assert (H54 : 2 ^ 54 = 18014398509481984) by (rewrite pow_IZR; reflexivity).
    assert (W : forall e, In e [ea; eb] -> 0 <= ev_w e /\ double (ev_w e)).
    { intros e [<-|[<-|[]]]; cbn [ev_w ea eb]; [split; [rewrite H54; lra|apply double_54]|split; [lra|apply double_1]]. }
    assert (WT : rsum (map ev_w [ea; eb]) <= huge).
    { eapply Rle_trans; [|apply huge_300]. change (rsum (map ev_w [ea; eb])) with (2 ^ 54 + (1 + 0)). rewrite H54, pow_IZR, Rplus_0_r, <- plus_IZR. apply IZR_le. vm_compute. discriminate. }
    assert (HK : INR (K [ea; eb]) * u <= / 4) by (apply K_small; cbn; lia).
    assert (E : np_histogram_w_double argsort ev_x ev_w [ea; eb] [Fin 0; Fin 1; Fin 2] = Ok [Fin (2 ^ 54); Fin 0]).
    { rewrite (hist_double_eq argsort ev_x ev_w [Fin 0; Fin 1; Fin 2] S ED) by (auto; discriminate).
      assert (C : forall p v, filter (fun e => p (ev_x e)) [ea; eb] = v -> cum argsort ev_x ev_w p [ea; eb] = racc 0 [racc 0 (map ev_w v)]).
      { intros p v F. unfold cum. cbn [length]. rewrite blocks_ab. cbn [map]. unfold part, below. rewrite (argsort_ab argsort S), F. reflexivity. }
      unfold cum_preds. cbn [but_last map app last].
      rewrite (C _ []) by (cbn; unfold np_lt; cbn; destruct (Rltb_spec (1 / 2) 0), (Rltb_spec (3 / 2) 0); try lra; reflexivity).
      rewrite (C _ [ea]) by (cbn; unfold np_lt; cbn; destruct (Rltb_spec (1 / 2) 1), (Rltb_spec (3 / 2) 1); try lra; reflexivity).
      rewrite (C _ [ea; eb]) by (cbn; unfold np_lt; cbn; destruct (Rltb_spec 2 (1 / 2)), (Rltb_spec 2 (3 / 2)); try lra; reflexivity).
      cbn [map ev_w ea eb racc fold_left]. rewrite !Rplus_0_l, round64_0. destruct (double_fix _ double_54) as [R54 B54]. rewrite R54, big_plus_one, R54.
      cbn [diff_double but_last tl zipwith]. unfold diff_double. cbn [but_last tl zipwith].
      change (fsub (Fin (2 ^ 54)) (Fin 0)) with (fl (2 ^ 54 - 0)). change (fsub (Fin (2 ^ 54)) (Fin (2 ^ 54))) with (fl (2 ^ 54 - 2 ^ 54)).
      rewrite Rminus_0_r, (fl_double _ double_54), Rminus_diag_eq, fl0 by reflexivity. reflexivity. }
    unfold create_histogram_table_double, hist_columns_double. cbn [et_rows et_has_weight et_has_ptype andb]. rewrite np_histogram_ok by (auto; discriminate). cbn [rbind]. rewrite E. cbn [rbind fst snd].
    eexists. split; [reflexivity|]. apply getitem_setitem_eq.
  - set (B := [Fin 0; Fin 1; Fin 2]) in *. apply wo_no; [|replace 1 with (ev_w eb + 0) by (cbn; ring); apply wo_yes; [|constructor]].
    + intros H. apply (hist_binb_spec _ 1 (Fin 1) (Fin 2)) in H; auto. unfold hist_binb in H. cbn in H. destruct (Rleb_spec 1 (1 / 2)); [lra|discriminate].
    + apply (hist_binb_spec _ 1 (Fin 1) (Fin 2)); auto. unfold hist_binb. cbn. destruct (Rleb_spec 1 (3 / 2)); [|lra]. destruct (Rleb_spec (3 / 2) 2); [reflexivity|lra].
Qed.

(** a sorting algorithm *)
Definition sort_events {A} (x : A -> num) : list A -> list A := isort (fun a b => negb (np_lt (x b) (x a))).
Lemma sort_events_sorting {A} (x : A -> num) : sorting x (sort_events x).
Proof.
  intros l. split; [apply isort_perm|]. intros i j a b Hij Ha Hb.
  assert (T : forall a b : num, negb (np_lt b a) = true <-> is_nan b = true \/ nle a b = true).
  { clear. intros a b. unfold np_lt. destruct (is_nan b) eqn:Eb.
    - destruct b; try discriminate. cbn. split; auto.
    - cbn. destruct (is_nan a) eqn:Ea; [destruct a; try discriminate; cbn; rewrite orb_true_r; cbn; split; [discriminate|intros [H|H]; discriminate]|]. rewrite orb_false_r.
      destruct (nlt b a) eqn:L; cbn; split; auto; try discriminate.
      + intros [H|H]; [discriminate|]. rewrite (nlt_not_le _ _ L) in H. discriminate.
      + intros _. right. apply not_nlt_le; auto. }
  assert (S : StronglySorted (fun a b => negb (np_lt (x b) (x a)) = true) (sort_events x l)).
  { apply (isort_sorted (fun a b => negb (np_lt (x b) (x a)))).
    - intros p q. rewrite !T. destruct (is_nan (x p)) eqn:Ep, (is_nan (x q)) eqn:Eq; auto. destruct (nle (x p) (x q)) eqn:L; auto. right. right. apply nlt_nle. apply not_nle_lt; auto.
    - intros p q r. rewrite !T. intros [H|H] [G|G]; auto.
      + destruct (x q); try discriminate H. discriminate G.
      + right. eapply nle_trans; eauto. }
  apply T. revert i j Hij Ha Hb. induction S as [|c m Sm IH F]; intros i j Hij Ha Hb; [destruct i; discriminate|].
  destruct j as [|j]; [lia|]. destruct i as [|i].
  - cbn in Ha. inversion Ha; subst c. rewrite Forall_forall in F. apply F. eapply nth_error_In. exact Hb.
  - apply (IH i j); auto. lia.
Qed.
Theorem whole_weights {A} argsort (x : A -> num) w evs edges : sorting x argsort -> nondecreasing edges -> (2 <= length edges)%nat ->
  (forall e, In e evs -> exists z, (0 <= z)%Z /\ w e = IZR z) -> (forall t, weight_of w (fun _ => True) evs t -> t <= 2 ^ 53) -> (Z.of_nat (length evs) <= 2 ^ 53)%Z ->
  exists h, np_histogram_w_double argsort x w evs edges = Ok (map Fin h) /\ is_histogram_w x w evs edges h.
Proof.
  intros S ED L2 W0 WT HN. apply hist_exact; auto. apply WT. replace (rsum (map w evs)) with (wsum w (fun _ => true) evs); [apply weight_of_wsum; intros; split; auto|]. unfold wsum. rewrite filter_all. reflexivity.
Qed.
Lemma usable_example : usable_weights ev_w [ea; eb].
Proof.
  split.
  - intros e [<-|[<-|[]]]; cbn [ev_w ea eb]; [split; [apply pow_le; lra|apply double_54]|split; [lra|apply double_1]].
  - intros t Ht. rewrite (weight_of_unique _ _ _ _ Ht (ev_w ea + (ev_w eb + 0))) by (repeat constructor). cbn [ev_w ea eb].
    rewrite Rplus_0_r, !pow_IZR, <- plus_IZR. apply IZR_le. vm_compute. discriminate.
Qed.
