(** * ConvertDoubleProofs: C94 *)
From Coq Require Import String Reals List Bool ZArith Lia Lra.
From Flocq Require Import Core.
From Verif Require PercentileDoubleProofs.
From Verif Require Import Num Numpy Lists Table Binning SpecBinning BinningProofs HistProofs Double SpecDouble DoubleProofs NearProofs LiMaDoubleProofs LiMaDouble2Proofs WeightsDoubleProofs ConvertDouble SpecConvert.
Import ListNotations.
Notation length := List.length.
Open Scope list_scope.
Open Scope R_scope.

Lemma fl_cases y : (fl y = Fin (round64 y) /\ Rabs (round64 y) <= fmax) \/ (fl y = PInf /\ fmax < round64 y) \/ (fl y = NInf /\ round64 y < - fmax).
Proof.
  unfold fl. cbv zeta. destruct (Rltb fmax (Rabs (round64 y))) eqn:E.
  - apply Rltb_true in E. destruct (Rltb 0 (round64 y)) eqn:P.
    + apply Rltb_true in P. rewrite Rabs_pos_eq in E by lra. auto.
    + apply Rltb_false in P. rewrite Rabs_left1 in E by lra. right. right. split; auto. lra.
  - apply Rltb_false in E. left. split; auto.
Qed.
(** rounding keeps the order *)
Lemma fl_mono x y : x <= y -> nle (fl x) (fl y) = true.
Proof.
  intros H. apply round64_mono in H. pose proof fmax_pos as F.
  destruct (fl_cases x) as [[-> A]|[[-> A]|[-> A]]]; destruct (fl_cases y) as [[-> B]|[[-> B]|[-> B]]]; cbn; auto; try (apply Rabs_le_inv in A); try (apply Rabs_le_inv in B); try lra.
  apply Rleb_true. auto.
Qed.
Section S.
Variable s : R.
Hypothesis Hs : 0 < s.
Lemma nmul_s e : e <> NaN -> nmul e (Fin s) = match e with Fin a => Fin (a * s) | _ => e end.
Proof.
  intros H. destruct e; cbn; auto; unfold inf_signed; destruct (Reqb_spec s 0); try lra; destruct (Rltb 0 s) eqn:E; auto; apply Rltb_false in E; lra.
Qed.
Lemma fmul_s e : e <> NaN -> fmul e (Fin s) = match e with Fin a => fl (a * s) | _ => e end.
Proof. intros H. unfold fmul. rewrite nmul_s by auto. destruct e; auto. Qed.
Lemma nan_of e : is_nan e = false -> e <> NaN.
Proof. intros H ->. discriminate. Qed.
Lemma fl_nan y : is_nan (fl y) = false.
Proof. destruct (fl_cases y) as [[-> _]|[[-> _]|[-> _]]]; auto. Qed.
Lemma nth_map_inv {A B} (f : A -> B) l i b : nth_error (map f l) i = Some b -> exists a, nth_error l i = Some a /\ b = f a.
Proof. rewrite nth_error_map. destruct (nth_error l i); cbn; intros H; inversion H; eauto. Qed.
Lemma exact_nondec bins : nondecreasing bins -> nondecreasing (exact_edges s bins).
Proof.
  intros [N H]. split.
  - intros e He. apply in_map_iff in He as (a & <- & Ha). rewrite nmul_s by (apply nan_of, N; auto). specialize (N a Ha). destruct a; auto.
  - intros i a b Ha Hb. apply nth_map_inv in Ha as (a' & Ha & ->). apply nth_map_inv in Hb as (b' & Hb & ->). specialize (H i a' b' Ha Hb).
    rewrite !nmul_s by (apply nan_of, N; eapply nth_error_In; eauto). destruct a', b'; cbn in *; auto. apply Rleb_true. apply Rleb_true in H. apply Rmult_le_compat_r; lra.
Qed.
Lemma converted_nondec bins : nondecreasing bins -> nondecreasing (converted s bins).
Proof.
  intros [N H]. split.
  - intros e He. apply in_map_iff in He as (a & <- & Ha). rewrite fmul_s by (apply nan_of, N; auto). specialize (N a Ha). destruct a; auto. apply fl_nan.
  - intros i a b Ha Hb. apply nth_map_inv in Ha as (a' & Ha & ->). apply nth_map_inv in Hb as (b' & Hb & ->). specialize (H i a' b' Ha Hb).
    rewrite !fmul_s by (apply nan_of, N; eapply nth_error_In; eauto). pose proof (fl_nan) as FN.
    destruct a' as [a'| | |], b' as [b'| | |]; cbn [nle] in H; try discriminate; auto.
    + apply Rleb_true in H. apply fl_mono. apply Rmult_le_compat_r; lra.
    + specialize (FN (a' * s)). destruct (fl (a' * s)); auto.
    + specialize (FN (b' * s)). destruct (fl (b' * s)); auto.
Qed.
(** one edge and one value *)
Lemma edge_test x y : double x -> (y <= x -> nle (fl y) (Fin x) = true) /\
  (nle (fl y) (Fin x) = true -> y <= x \/ (x < y /\ x = round64 y)).
Proof.
  intros D. destruct (double_fix x D) as [E B]. apply Rabs_le_inv in B. split.
  - intros H. apply round64_mono in H. rewrite E in H. destruct (fl_cases y) as [[-> A]|[[-> A]|[-> A]]]; cbn; auto; [apply Rleb_true; auto|lra].
  - intros H. destruct (Rle_or_lt y x) as [L|L]; auto. right. split; auto. assert (M : round64 x <= round64 y) by (apply round64_mono; lra). rewrite E in M.
    destruct (fl_cases y) as [[F A]|[[F A]|[F A]]]; rewrite F in H; cbn in H; try discriminate; [apply Rleb_true in H; lra|lra].
Qed.
Lemma not_lt x e : is_nan e = false -> negb (np_lt (Fin x) e) = nle e (Fin x).
Proof.
  intros N. unfold np_lt. destruct e as [r| | |]; cbn in *; auto; try discriminate. rewrite orb_false_r.
  unfold Rltb, Rleb. destruct (Rlt_dec x r), (Rle_dec r x); auto; lra.
Qed.
Lemma counts bins x : (forall e, In e bins -> is_nan e = false) -> double x ->
  (searchsorted_right (exact_edges s bins) (Fin x) <= searchsorted_right (converted s bins) (Fin x))%nat /\
  (searchsorted_right (exact_edges s bins) (Fin x) = searchsorted_right (converted s bins) (Fin x) \/ just_below_an_edge s bins x).
Proof.
  intros N D. unfold searchsorted_right, exact_edges, converted. rewrite !count_map.
  set (p := fun e => negb (np_lt (Fin x) (nmul e (Fin s)))). set (q := fun e => negb (np_lt (Fin x) (fmul e (Fin s)))).
  assert (P : forall e, In e bins -> p e = match e with Fin a => Rleb (a * s) x | PInf => false | _ => true end).
  { intros e He. unfold p. rewrite nmul_s by (apply nan_of, N; auto). specialize (N e He). destruct e; try discriminate; rewrite not_lt; auto. }
  assert (Q : forall e, In e bins -> q e = match e with Fin a => nle (fl (a * s)) (Fin x) | PInf => false | _ => true end).
  { intros e He. unfold q. rewrite fmul_s by (apply nan_of, N; auto). specialize (N e He). destruct e; try discriminate; rewrite not_lt; auto. apply fl_nan. }
  split.
  - apply count_le. intros e He H. rewrite P in H by auto. rewrite Q by auto. destruct e; auto. apply edge_test; auto. apply Rleb_true. auto.
  - destruct (existsb (fun e => q e && negb (p e)) bins) eqn:X.
    + right. apply existsb_exists in X as (e & He & X). apply andb_true_iff in X as [X1 X2]. apply negb_true_iff in X2. rewrite P in X2 by auto. rewrite Q in X1 by auto.
      destruct e as [a| | |]; try discriminate. destruct (edge_test x (a * s) D) as [_ T]. destruct (T X1) as [L|[L1 L2]].
      * apply Rleb_true in L. congruence.
      * exists a. split; auto. split; auto. assert (R : Rabs (round64 (a * s) - a * s) <= eps53 * Rabs (a * s) + bpow radix2 (-1075)) by (rewrite eps53_u; apply round64_error). rewrite <- L2 in R. replace (/ 2 ^ 1075) with (bpow radix2 (-1075)).
        -- rewrite (Rabs_left1 (x - a * s)) in R by lra. lra.
        -- change (-1075)%Z with (- (1075))%Z. rewrite bpow_opp, <- (IZR_Zpower radix2 1075) by lia. f_equal. rewrite pow_IZR. f_equal.
    + left. apply count_ext. intros e He. assert (Y : q e && negb (p e) = false).
      { destruct (q e && negb (p e)) eqn:Z; auto. exfalso. assert (existsb (fun e => q e && negb (p e)) bins = true) by (apply existsb_exists; eauto). congruence. }
      destruct (p e) eqn:Pe; [|rewrite andb_true_r in Y; auto]. symmetry. rewrite P in Pe by auto. rewrite Q by auto. destruct e; auto. apply edge_test; auto. apply Rleb_true. auto.
Qed.
Lemma index_of bins x : nondecreasing bins -> bin_index1 bins x = 
  (let idx := (Z.of_nat (searchsorted_right bins x) - 1)%Z in let n := (Z.of_nat (length bins) - 1)%Z in
   Ok (if Z.leb n idx then OVERFLOW_INDEX else if Z.ltb idx 0 then UNDERFLOW_INDEX else idx, negb (Z.ltb idx 0) && negb (Z.leb n idx))).
Proof. intros H. unfold bin_index1, digitize1. rewrite monotonicity_nondec by auto. reflexivity. Qed.
Theorem c94_bin_index bins data : nondecreasing bins -> bins <> [] -> (Z.of_nat (length bins) <= INT64_MAX)%Z -> values data ->
  exists idx valid idx' valid', calculate_bin_indices_double s (map Fin data) bins = Ok (idx, valid) /\
    calculate_bin_indices (mkArr (map Fin data) None) (mkArr (exact_edges s bins) None) = Ok (idx', valid') /\
    length idx = length data /\ length valid = length data /\
    forall i x, nth_error data i = Some x -> exists z v z' v',
      nth_error idx i = Some z /\ nth_error valid i = Some v /\ nth_error idx' i = Some z' /\ nth_error valid' i = Some v' /\
      bin_outcome (exact_edges s bins) (Fin x) z' v' /\ (z' <= z)%Z /\ (z = z' /\ v = v' \/ just_below_an_edge s bins x).
Proof.
  intros ND NE HL V.
  assert (L1 : length (converted s bins) = length bins) by (apply map_length). assert (L2 : length (exact_edges s bins) = length bins) by (apply map_length).
  assert (N1 : converted s bins <> []) by (destruct bins; [contradiction|discriminate]). assert (N2 : exact_edges s bins <> []) by (destruct bins; [contradiction|discriminate]).
  pose proof (converted_nondec bins ND) as C1. pose proof (exact_nondec bins ND) as C2.
  destruct (bin_indices_general (fun x z v => bin_index1 (converted s bins) x = Ok (z, v)) (map Fin data) (converted s bins)) as (idx & valid & E1 & A1 & A2 & A3).
  { rewrite monotonicity_nondec; auto. lia. } { intros x. destruct (bin_index1_inc _ x C1 N1) as (z & v & E & _). eauto. }
  destruct (bin_indices_general (fun x z v => bin_index1 (exact_edges s bins) x = Ok (z, v) /\ bin_outcome (exact_edges s bins) x z v) (map Fin data) (exact_edges s bins)) as (idx' & valid' & E2 & B1 & B2 & B3).
  { rewrite monotonicity_nondec; auto. lia. } { intros x. destruct (bin_index1_inc _ x C2 N2) as (z & v & E & O). eauto. }
  rewrite map_length in A1, A2. exists idx, valid, idx', valid'. split; [exact E1|]. split; [exact E2|]. split; [auto|]. split; [auto|].
  intros i x Hx. assert (Hx' : nth_error (map Fin data) i = Some (Fin x)) by (rewrite nth_error_map, Hx; auto).
  destruct (A3 i _ Hx') as (z & v & Z1 & Z2 & Z3). destruct (B3 i _ Hx') as (z' & v' & Y1 & Y2 & Y3 & Y4).
  exists z, v, z', v'. split; [auto|]. split; [auto|]. split; [auto|]. split; [auto|]. split; [auto|].
  assert (D : double x) by (apply V; eapply nth_error_In; eauto). destruct (counts bins x (proj1 ND) D) as [Q1 Q2].
  rewrite index_of in Z3 by auto. rewrite index_of in Y3 by auto. cbv zeta in Z3, Y3. rewrite L1 in Z3. rewrite L2 in Y3.
  set (a := searchsorted_right (exact_edges s bins) (Fin x)) in *. set (b := searchsorted_right (converted s bins) (Fin x)) in *.
  assert (Bb : (b <= length bins)%nat) by (unfold b, searchsorted_right; rewrite <- L1; apply count_bound).
  injection Z3 as <- <-. injection Y3 as <- <-. split.
  - unfold OVERFLOW_INDEX, UNDERFLOW_INDEX, INT64_MAX in *. clearbody a b. clear - Q1 Bb HL.
    destruct (Z.leb_spec (Z.of_nat (length bins) - 1) (Z.of_nat a - 1)), (Z.leb_spec (Z.of_nat (length bins) - 1) (Z.of_nat b - 1)); try lia;
    destruct (Z.ltb_spec (Z.of_nat a - 1) 0); destruct (Z.ltb_spec (Z.of_nat b - 1) 0); lia.
  - destruct Q2 as [Q2|Q2]; auto. left. rewrite Q2. auto.
Qed.
End S.
Theorem c94_histogram s ev bins key : 0 < s -> nondecreasing bins -> (2 <= length bins)%nat ->
  exists t n idx valid, create_histogram_table_converted s ev bins key = Ok t /\ getitem t "n" = Some (CZ n) /\
    calculate_bin_indices_double s (map ev_x (et_rows ev)) bins = Ok (idx, valid) /\
    forall k c, nth_error n k = Some c ->
      c = (Z.of_nat (count (fun p : Z * bool => snd p && Z.eqb (fst p) (Z.of_nat k)) (combine idx valid))
          + if Nat.eqb (S (S k)) (length bins) then Z.of_nat (count (fun e => neqb (ev_x e) (last (converted s bins) NaN)) (et_rows ev)) else 0)%Z.
Proof.
  intros Hs ND HL. assert (L : length (converted s bins) = length bins) by apply map_length.
  destruct (c07 ev (converted s bins) key (converted_nondec s Hs bins ND)) as (t & n & idx & valid & A & B & C & D); [lia|].
  exists t, n, idx, valid. split; [exact A|]. split; [exact B|]. split; [exact C|]. intros k c Hk. rewrite (D k c Hk), L. reflexivity.
Qed.
(** edges that are further apart than the rounding stay apart *)
Theorem c94_bins_kept s a b : 0 < s -> Rabs (a * s) <= 10 ^ 300 -> Rabs (b * s) <= 10 ^ 300 ->
  eps53 * (Rabs (a * s) + Rabs (b * s)) + 2 * / 2 ^ 1075 < b * s - a * s ->
  exists a' b', converted s [Fin a; Fin b] = [Fin a'; Fin b'] /\ a' < b'.
Proof.
  intros Hs Ha Hb H. destruct (rnd _ Ha) as [E1 K1]. destruct (rnd _ Hb) as [E2 K2]. exists (round64 (a * s)), (round64 (b * s)). split.
  - unfold converted, fmul. cbn [map nmul fl_num]. rewrite E1, E2. auto.
  - replace (bpow radix2 (-1075)) with (/ 2 ^ 1075) in K1, K2.
    + apply Rabs_le_inv in K1. apply Rabs_le_inv in K2. lra.
    + change (-1075)%Z with (- (1075))%Z. rewrite bpow_opp, <- (IZR_Zpower radix2 1075) by lia. f_equal. rewrite pow_IZR. f_equal.
Qed.
(** two different edges in TeV that are the same in GeV *)
Theorem c94_bins_merge_refuted : exists a b c, double a /\ double b /\ a < b /\ converted 1000 [Fin a; Fin b] = [Fin c; Fin c] /\
  forall x z v, bin_outcome (converted 1000 [Fin a; Fin b]) x z v -> v = false.
Proof.
  assert (T : 2000 <= 10 ^ 300) by pw.
  assert (E : converted 1000 [Fin (6755399441055765 / 4503599627370496); Fin (6755399441055766 / 4503599627370496)] = [Fin (6597069766656021 / 4398046511104); Fin (6597069766656021 / 4398046511104)]).
  { unfold converted, fmul. cbn [map nmul fl_num]. rewrite !fl_small by (apply Rle_trans with 2000; [apply Rabs_le; lra|auto]). f_equal; [|f_equal]; f_equal; rq 6597069766656021%Z 42%Z. }
  exists (6755399441055765 / 4503599627370496), (6755399441055766 / 4503599627370496), (6597069766656021 / 4398046511104).
  split; [apply (double_q 6755399441055765 52); cbn; lia|]. split; [apply (double_q 6755399441055766 52); cbn; lia|]. split; [lra|]. split; [exact E|].
  intros x z v. rewrite E. intros O. inversion O as [k K| |]; auto. exfalso. destruct K as (lo & hi & A & B & C & D). destruct k as [|[|[|k]]]; cbn in A, B; try discriminate.
  injection A as <-. injection B as <-. destruct x as [r| | |]; cbn in C, D; try discriminate. apply Rleb_true in C. apply Rltb_true in D. lra.
Qed.
(** an event with 1 GeV is put into the bin that starts just above, at the double nearest to 0.001 TeV *)
Theorem c94_event_moves_refuted : exists e x, double e /\ double x /\ x < e * 1000 /\
  calculate_bin_indices_double 1000 [Fin x] [Fin e; Fin 1] = Ok ([0%Z], [true]).
Proof.
  assert (T : 2000 <= 10 ^ 300) by pw.
  exists (4611686018427388 / 4611686018427387904), 1. split; [apply (double_q 4611686018427388 62); cbn; lia|]. split; [apply d_one|]. split; [lra|].
  assert (E : converted 1000 [Fin (4611686018427388 / 4611686018427387904); Fin 1] = [Fin 1; Fin 1000]).
  { unfold converted, fmul. cbn [map nmul fl_num]. rewrite !fl_small by (apply Rle_trans with 2000; [apply Rabs_le; lra|auto]). rewrite Rmult_1_l, (round64_int 1000) by (cbn; lia). f_equal. f_equal.
    transitivity (4503599627370496 / 4503599627370496); [rq 4503599627370496%Z 52%Z|lra]. }
  unfold calculate_bin_indices_double. rewrite E.
  assert (ND : nondecreasing [Fin 1; Fin 1000]).
  { split; [intros e [<-|[<-|[]]]; auto|]. intros [|[|i]] a b A B; cbn in A, B; try discriminate; try (destruct i; discriminate). injection A as <-. injection B as <-. cbn. apply Rleb_true. lra. }
  assert (SS : searchsorted_right [Fin 1; Fin 1000] (Fin 1) = 1%nat).
  { unfold searchsorted_right, count, np_lt. cbn. unfold Rltb. destruct (Rlt_dec 1 1); [lra|]. destruct (Rlt_dec 1 1000); [|lra]. reflexivity. }
  unfold calculate_bin_indices_raw. rewrite (monotonicity_nondec _ ND). cbn [Z.eqb rmap]. rewrite (index_of _ _ ND), SS. reflexivity.
Qed.
