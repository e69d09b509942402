(** * The layout of the arrays in EnergyDispersionEstimator and PSFTableEstimator *)
From Coq Require Import String Reals List Bool ZArith Arith Lia Lra Permutation.
From Verif Require Import Num Numpy Sort Table Binning SpecBinning Lists Utils SpecSimulations SpecIRF Morph SpecInterp Geometry Quantile Tensor Quantities Estimators SpecEstimators EstimatorProofs EstimatorProofs4 PDFEstimators SpecPDFEstimators.
Import ListNotations.
Open Scope R_scope.

Lemma all_indices_length s : length (all_indices s) = size s.
Proof.
  induction s as [|n s IH]; auto. cbn [all_indices size fold_right]. fold (size s). rewrite <- IH.
  assert (G : forall b, length (flat_map (fun i => map (cons i) (all_indices s)) (seq b n)) = (n * length (all_indices s))%nat).
  { clear IH. induction n as [|n IH]; intros b; cbn [seq flat_map]; auto. rewrite app_length, map_length, IH. cbn. lia. }
  apply G.
Qed.
Lemma flat_map_nth {A} (l : list (list A)) (r : nat) (x : list A) : nth_error l r = Some x -> forall n i b, (i < n)%nat ->
  forall f : nat -> list A -> list A, nth_error (flat_map (fun j => map (f j) l) (seq b n)) (i * length l + r) = Some (f (b + i)%nat x).
Proof.
  intros H n. induction n as [|n IH]; intros i b Hi f; [lia|]. cbn [seq flat_map]. assert (Hr : (r < length l)%nat) by (apply nth_error_Some; congruence).
  destruct i as [|i].
  - rewrite Nat.mul_0_l, Nat.add_0_l, Nat.add_0_r, nth_error_app1 by (rewrite map_length; auto). apply map_nth_error; auto.
  - rewrite nth_error_app2 by (rewrite map_length; cbn; lia). rewrite map_length. replace (S i * length l + r - length l)%nat with (i * length l + r)%nat by (cbn; lia).
    rewrite IH by lia. do 2 f_equal. lia.
Qed.
Lemma ravel_nth s : forall ix, index_of s ix -> nth_error (all_indices s) (ravel s ix) = Some ix.
Proof.
  induction s as [|n s IH]; intros ix H; inversion H; subst; auto. cbn [all_indices ravel]. rewrite <- all_indices_length.
  rewrite (flat_map_nth _ _ _ (IH _ H4) n x 0 H3 (fun i => cons i)). auto.
Qed.
Lemma all_indices_in s : forall ix, In ix (all_indices s) -> index_of s ix.
Proof.
  induction s as [|n s IH]; intros ix H; cbn [all_indices] in H.
  - destruct H as [<-|[]]. constructor.
  - apply in_flat_map in H. destruct H as (i & Hi & H). apply in_map_iff in H. destruct H as (jx & <- & H). apply in_seq in Hi. constructor; [lia|]. apply IH; auto.
Qed.
Lemma index_nth s ix : index_of s ix <-> length ix = length s /\ forall q, (q < length s)%nat -> (nth q ix 0 < nth q s 0)%nat.
Proof.
  split.
  - intros H. split; [apply (F2_length _ _ _ H)|]. induction H as [|x y l r Hx H IH]; cbn; intros [|q] Hq; try lia. apply IH. lia.
  - revert s. induction ix as [|x l IH]; intros [|y r] (H & G); cbn in H; try lia; constructor; [apply (G 0%nat); cbn; lia|]. apply IH. split; [lia|]. intros q Hq. apply (G (S q)). cbn. lia.
Qed.
Lemma swap_index s ix i j : (i < length s)%nat -> (j < length s)%nat -> index_of s ix -> index_of (swap 0%nat i j s) (swap 0%nat i j ix).
Proof.
  intros Hi Hj H. apply index_nth in H. destruct H as (L & H). apply index_nth. rewrite !swap_length. split; [auto|]. intros q Hq. rewrite !swap_nth by lia.
  apply H. destruct (Nat.eqb_spec q i); auto. destruct (Nat.eqb_spec q j); auto.
Qed.
Lemma swap_comm {A} (d : A) i j l : swap d i j l = swap d j i l.
Proof.
  unfold swap. apply map_ext. intros q. destruct (Nat.eqb_spec q i), (Nat.eqb_spec q j); subst; auto.
Qed.

Section Layout.
Variables (a : array) (axis : Z) (k : nat).
Hypothesis Hn : (2 <= length (ashape a))%nat.
Hypothesis Hax : axis_at (length (ashape a)) axis k.
Hypothesis Hk : (1 <= k)%nat.
Let n := length (ashape a).
Definition swapped : array := mkA (swap 0%nat k (n - 1) (ashape a)) (fun ix => aat a (swap 0%nat k (n - 1) ix)).
Lemma swapped_ok : swapaxes a axis (-1)%Z = Ok swapped.
Proof.
  unfold swapaxes. fold n. rewrite (axis_ok n axis k) by auto. cbn [rbind]. rewrite (axis_ok n (-1) (n - 1)) by (split; [unfold n; lia|right; unfold n; lia]). reflexivity.
Qed.
Lemma k_lt : (k < n)%nat. Proof. destruct Hax; auto. Qed.
Lemma n_ge : (2 <= n)%nat. Proof. exact Hn. Qed.
Lemma swapped_length : length (ashape swapped) = n. Proof. cbn. apply swap_length. Qed.
Lemma swapped_hd : hd 0%nat (ashape swapped) = hd 0%nat (ashape a).
Proof.
  cbn. destruct (swap_cons (ashape a) k (n - 1) Hk ltac:(pose proof n_ge; lia) ltac:(lia)) as (t & ->). auto.
Qed.
Lemma swapped_last : last (ashape swapped) 0%nat = nth k (ashape a) 0%nat.
Proof.
  pose proof k_lt. pose proof n_ge. cbn. rewrite last_nth_nat, swap_length. fold n. rewrite swap_nth by (fold n; lia). destruct (Nat.eqb_spec (n - 1) k) as [<-|]; [auto|]. rewrite Nat.eqb_refl. auto.
Qed.
Lemma swapped_shape : ashape swapped = hd 0%nat (ashape a) :: inner swapped ++ [nth k (ashape a) 0%nat].
Proof.
  rewrite <- swapped_hd, <- swapped_last. unfold inner. pose proof swapped_length as L. pose proof n_ge.
  destruct (ashape swapped) as [|x [|y l]]; cbn [length] in L; try lia. cbn [hd tl]. f_equal.
  rewrite (app_removelast_last 0%nat (l := y :: l)) at 1 by discriminate. f_equal.
Qed.
(** the index of the histogram *)
Definition slice_index (ix : list nat) : list nat := removelast (tl (swap 0%nat (n - 1) k ix)).
Lemma inner_length : length (inner swapped) = (n - 2)%nat.
Proof. unfold inner. rewrite removelast_len, tl_len, swapped_length. lia. Qed.
Lemma split_index ix : length ix = n -> swap 0%nat (n - 1) k ix = hd 0%nat ix :: slice_index ix ++ [nth k ix 0%nat].
Proof.
  intros L. pose proof k_lt. pose proof n_ge. unfold slice_index. pose proof (swap_length 0%nat (n - 1) k ix) as Ls.
  assert (Hh : hd 0%nat (swap 0%nat (n - 1) k ix) = hd 0%nat ix). { destruct (swap_cons ix (n - 1) k ltac:(lia) Hk ltac:(lia)) as (t & ->). auto. }
  assert (Hl : last (swap 0%nat (n - 1) k ix) 0%nat = nth k ix 0%nat). { rewrite last_nth_nat, swap_length, L, swap_nth by lia. rewrite Nat.eqb_refl. auto. }
  rewrite <- Hh, <- Hl. destruct (swap 0%nat (n - 1) k ix) as [|x [|y l]]; cbn [length] in Ls; try lia. cbn [hd tl]. f_equal.
  rewrite (app_removelast_last 0%nat (l := y :: l)) at 1 by discriminate. f_equal.
Qed.
Lemma slice_index_ok ix : index_of (1%nat :: tl (ashape a)) ix -> index_of (inner swapped) (slice_index ix).
Proof.
  intros H. pose proof k_lt. pose proof n_ge. apply index_nth in H. cbn [length] in H. rewrite tl_len in H. fold n in H. destruct H as (L & H). assert (L' : length ix = n) by lia. clear L.
  apply index_nth. rewrite inner_length. split.
  - unfold slice_index. rewrite removelast_len, tl_len, swap_length. lia.
  - intros q Hq. unfold slice_index, inner. rewrite !removelast_nth by (rewrite tl_len, ?swapped_length, ?swap_length; lia). rewrite !tl_nth. cbn [ashape swapped]. rewrite (swap_comm 0%nat (n - 1) k). 
    assert (Ln : length (ashape a) = n) by reflexivity. rewrite !swap_nth by lia. 
    set (r := if Nat.eqb (S q) k then (n - 1)%nat else if Nat.eqb (S q) (n - 1) then k else S q). assert (Hr : (1 <= r < n)%nat). { unfold r. destruct (Nat.eqb_spec (S q) k); [lia|]. destruct (Nat.eqb_spec (S q) (n - 1)); lia. }
    specialize (H r ltac:(lia)). destruct r as [|r]; [lia|]. cbn [nth] in H. rewrite tl_nth in H. exact H.
Qed.
Lemma point_slices_nth ix p : index_of (1%nat :: tl (ashape a)) ix ->
  nth_error (point_slices swapped p) (ravel (inner swapped) (slice_index ix)) = Some (histogram_along a k ix p).
Proof.
  intros H. pose proof k_lt. pose proof n_ge. unfold point_slices. rewrite (map_nth_error _ _ _ (ravel_nth _ _ (slice_index_ok ix H))). f_equal.
  unfold last_slice, histogram_along. rewrite swapped_last. apply map_ext. intros m. cbn [aat swapped]. f_equal. unfold slice_index.
  assert (Li : length ix = n). { apply F2_length in H. cbn [length] in H. rewrite tl_len in H. fold n in H. lia. }
  apply swap_back; auto; lia.
Qed.
Lemma point_slices_length p : length (point_slices swapped p) = size (inner swapped).
Proof. unfold point_slices. rewrite map_length. apply all_indices_length. Qed.
(** every histogram is one along axis k *)
Lemma slices_histograms p h : (p < hd 0%nat (ashape a))%nat -> (forall ix, index_of (ashape a) ix -> 0 <= aat a ix) ->
  In h (point_slices swapped p) -> histogram_of (nth k (ashape a) 0%nat) h.
Proof.
  intros Hp Hpos Hin. pose proof k_lt. pose proof n_ge. unfold point_slices in Hin. apply in_map_iff in Hin. destruct Hin as (jx & <- & Hj). apply all_indices_in in Hj.
  unfold last_slice. rewrite swapped_last. split; [rewrite map_length, seq_length; auto|]. intros x Hx. apply in_map_iff in Hx. destruct Hx as (m & <- & Hm). apply in_seq in Hm. cbn [aat swapped].
  apply Hpos. assert (Ln : length (ashape a) = n) by reflexivity. rewrite <- (swap_swap (ashape a) k (n - 1)) by lia. rewrite !(swap_comm 0%nat k (n - 1)).
  apply swap_index; [rewrite swap_length; lia|rewrite swap_length; lia|].
  replace (swap 0%nat (n - 1) k (ashape a)) with (ashape swapped) by (cbn; apply swap_comm). rewrite swapped_shape. constructor; [auto|]. apply Forall2_app; [exact Hj|]. constructor; [lia|constructor].
Qed.

(** the result *)
Section Result.
Variable sl : list (list num).
Definition raw : tensor := assemble (inner swapped) (nth k (ashape a) 0%nat) ([1%nat], sl).
Lemma raw_shape : shape raw = 1%nat :: tl (ashape swapped).
Proof. unfold raw, assemble. cbn [shape fst app]. rewrite swapped_shape. auto. Qed.
Lemma raw_swap : exists out, tswapaxes raw (-1)%Z axis = Ok out /\ shape out = 1%nat :: tl (ashape a) /\
  forall ix, at_ out ix = at_ raw (swap 0%nat (n - 1) k ix).
Proof.
  pose proof k_lt. pose proof n_ge. assert (Lr : length (shape raw) = n). { rewrite raw_shape. cbn [length]. rewrite tl_len, swapped_length. lia. }
  unfold tswapaxes. rewrite Lr. rewrite (axis_ok n (-1) (n - 1)) by (split; [lia|right; lia]). rewrite (axis_ok n axis k) by auto. cbn [rbind]. eexists. split; [reflexivity|]. cbn [shape at_]. split; [|auto].
  rewrite raw_shape. assert (Ln : length (ashape a) = n) by reflexivity.
  assert (Lt : length (1%nat :: tl (ashape swapped)) = n) by (rewrite <- raw_shape; auto).
  apply nth_ext with (d := 0%nat) (d' := 0%nat); [rewrite swap_length, Lt; cbn [length]; rewrite tl_len; lia|]. intros q Hq. rewrite swap_length, Lt in Hq. rewrite swap_nth by lia.
  set (r := if Nat.eqb q (n - 1) then k else if Nat.eqb q k then (n - 1)%nat else q).
  destruct q as [|q].
  { replace r with 0%nat by (unfold r; destruct (Nat.eqb_spec 0 (n - 1)); [lia|]; destruct (Nat.eqb_spec 0 k); lia). auto. }
  assert (Hr : (1 <= r < n)%nat) by (unfold r; destruct (Nat.eqb_spec (S q) (n - 1)); [lia|]; destruct (Nat.eqb_spec (S q) k); lia).
  replace (nth r (1%nat :: tl (ashape swapped)) 0%nat) with (nth r (ashape swapped) 0%nat) by (destruct r as [|r']; [lia|]; cbn [nth]; rewrite tl_nth; auto).
  change (nth (S q) (1%nat :: tl (ashape a)) 0%nat) with (nth q (tl (ashape a)) 0%nat). rewrite tl_nth. cbn [ashape swapped]. rewrite swap_nth by lia. match goal with |- nth ?x _ _ = nth ?y _ _ => replace x with y; [reflexivity|] end. subst r. destruct (Nat.eqb_spec (S q) (n - 1)) as [E1|E1]; [rewrite Nat.eqb_refl; lia|]. destruct (Nat.eqb_spec (S q) k) as [E2|E2].
  - destruct (Nat.eqb_spec (n - 1) k); [lia|]. rewrite Nat.eqb_refl. auto.
  - destruct (Nat.eqb_spec (S q) k); [lia|]. destruct (Nat.eqb_spec (S q) (n - 1)); [lia|]. auto.
Qed.
Lemma raw_result : length sl = size (inner swapped) -> (forall h, In h sl -> length h = nth k (ashape a) 0%nat) ->
  exists out, tswapaxes raw (-1)%Z axis = Ok out /\ shape out = 1%nat :: tl (ashape a) /\
  forall ix, index_of (shape out) ix -> nth_error sl (ravel (inner swapped) (slice_index ix)) = Some (result_along out k ix).
Proof.
  intros Ls Lh. pose proof k_lt. pose proof n_ge. destruct raw_swap as (out & E & Sh & At). exists out. split; [auto|]. split; [auto|]. intros ix Hix. rewrite Sh in Hix.
  assert (Li : length ix = n). { pose proof (F2_length _ _ _ Hix) as L. cbn [length] in L. rewrite tl_len in L. fold n in L. lia. }
  pose proof (slice_index_ok ix Hix) as Hs. pose proof (ravel_nth _ _ Hs) as Hr.
  assert (Hlt : (ravel (inner swapped) (slice_index ix) < length sl)%nat). { rewrite Ls, <- all_indices_length. apply nth_error_Some. congruence. }
  destruct (nth_error sl (ravel (inner swapped) (slice_index ix))) as [h|] eqn:Eh; [|apply nth_error_None in Eh; lia].
  f_equal. pose proof (Lh h (nth_error_In _ _ Eh)) as Lh'. unfold result_along. rewrite Sh. replace (nth k (1%nat :: tl (ashape a)) 0%nat) with (nth k (ashape a) 0%nat) by (destruct k as [|q]; [lia|]; cbn [nth]; rewrite tl_nth; auto).
  apply nth_ext with (d := NaN) (d' := NaN); [rewrite map_length, seq_length; auto|]. intros m Hm.
  set (fm := fun m => at_ out (with_index ix k m)). rewrite (nth_indep (map fm _) NaN (fm 0%nat)) by (rewrite map_length, seq_length; lia). rewrite map_nth, seq_nth by lia. unfold fm. cbn [Nat.add].
  rewrite At. assert (Lw : length (with_index ix k m) = n) by (rewrite with_length; lia). rewrite (split_index _ Lw). unfold raw, assemble. cbn [at_ fst snd length skipn].
  rewrite with_nth by lia. rewrite Nat.eqb_refl. rewrite app_comm_cons, last_last. rewrite removelast_last.
  replace (slice_index (with_index ix k m)) with (slice_index ix).
  - rewrite (nth_error_nth sl _ [] Eh). auto.
  - unfold slice_index. apply nth_ext with (d := 0%nat) (d' := 0%nat); [rewrite !removelast_len, !tl_len, !swap_length; lia|]. intros q Hq. rewrite removelast_len, tl_len, swap_length in Hq.
    rewrite !removelast_nth by (rewrite tl_len, swap_length; lia). rewrite !tl_nth. rewrite !swap_nth by lia. rewrite with_nth by lia. repeat match goal with |- context [Nat.eqb ?x ?y] => destruct (Nat.eqb_spec x y) end; try lia; auto.
Qed.
End Result.
End Layout.
