(** * Proofs about the RadMaxEstimator *)
From Coq Require Import String Reals List Bool ZArith Arith Lia Lra Permutation Sorting.Sorted.
From Verif Require Import Num Numpy Sort Table Binning SpecBinning BinningProofs Lists CutsProofs CutsProofs2 Utils SpecSimulations SpecIRF IRFProofs IRFProofs2 Morph SpecInterp MorphProofs MorphProofs2 Geometry GeometryProofs GeometryProofs2 GeometryProofs3 Quantile QuantileProofs2 QuantileProofs3 Estimators SpecEstimators EstimatorProofs EstimatorProofs2.
Import ListNotations.
Open Scope R_scope.

Lemma increasing_head_le a l x : increasing (a :: l) -> In x l -> a < x.
Proof.
  intros I Hx. apply In_nth_error in Hx. destruct Hx as (i & Hi). pose proof (nth_some_lt _ _ _ Hi). pose proof (inc_nth_lt (a :: l) 0 (S i) I ltac:(lia) ltac:(cbn; lia)) as H1.
  cbn [nth] in H1. rewrite (nthE _ _ _ Hi) in H1. auto.
Qed.
Lemma increasing_perm l : forall l', increasing l -> increasing l' -> Permutation l l' -> l = l'.
Proof.
  induction l as [|a l IH]; intros [|b l'] H H' P; auto.
  - apply Permutation_nil in P. auto.
  - symmetry in P. apply Permutation_nil in P. discriminate.
  - assert (Ha : In a (b :: l')) by (eapply Permutation_in; eauto; left; auto). assert (Hb : In b (a :: l)) by (eapply Permutation_in; [symmetry; eauto|left; auto]).
    assert (a = b). { destruct Ha as [|Ha]; auto. destruct Hb as [|Hb]; auto. pose proof (increasing_head_le _ _ _ H Hb). pose proof (increasing_head_le _ _ _ H' Ha). lra. }
    subst b. f_equal. apply IH; [intros i; apply (H (S i))|intros i; apply (H' (S i))|eapply Permutation_cons_inv; eauto].
Qed.
Lemma fill_active fa rm f : fill_used fa rm f -> 0 < f ->
  active_fill match fa with FillNone => None | FillInfer => Some (list_max (concat rm)) | FillValue v => Some v end = Some f.
Proof.
  intros [->|(-> & (r & Hr & Hf) & H)] Hp; unfold active_fill.
  - destruct (Reqb f 0) eqn:E; rcmp; [lra|auto].
  - assert (In f (concat rm)) by (apply in_concat; eauto). assert (Ne : concat rm <> []) by (intros X; rewrite X in *; contradiction).
    destruct (list_max_spec _ Ne) as (M1 & M2). assert (list_max (concat rm) = f).
    { apply Rle_antisym; [|auto]. apply in_concat in M1. destruct M1 as (r' & ? & ?). eapply H; eauto. }
    rewrite H1. destruct (Reqb f 0) eqn:E; rcmp; [lra|auto].
Qed.
Lemma zip3_nth {A B C D} (f : A -> B -> C -> D) l : forall m n i a b c, nth_error l i = Some a -> nth_error m i = Some b -> nth_error n i = Some c ->
  nth_error (zip3 f l m n) i = Some (f a b c).
Proof. induction l as [|x l IH]; intros [|y m] [|z n] [|i] a b c; cbn; try discriminate; [congruence|]. intros; eapply IH; eauto. Qed.
Lemma zip3_length {A B C D} (f : A -> B -> C -> D) l : forall m n k, length l = k -> length m = k -> length n = k -> length (zip3 f l m n) = k.
Proof. induction l as [|x l IH]; intros [|y m] [|z n] k; cbn; intros; subst; try discriminate; auto. Qed.
Lemma combine_some {A B} (l : list A) : forall (m : list B) i x y, nth_error l i = Some x -> nth_error m i = Some y -> nth_error (combine l m) i = Some (x, y).
Proof. induction l as [|a l IH]; intros [|b m] [|i] x y; cbn; try discriminate; [congruence|apply IH]. Qed.
Lemma min_entry_max x : min_entry x = Rmax 0 x.
Proof. unfold min_entry. destruct (Rltb x 0) eqn:E; rcmp; [rewrite Rmax_left|rewrite Rmax_right]; lra. Qed.
Lemma cap_min f x : cap f x = Rmin x f.
Proof. unfold cap. destruct (Rltb f x) eqn:E; rcmp; [rewrite Rmin_right|rewrite Rmin_left]; lra. Qed.
Lemma fill_1D_rule f a b e : 0 < f -> 0 <= e -> fill_rule_1 f a b e (fill_1D f a b e) /\ 0 <= fill_1D f a b e <= f.
Proof.
  intros Hf He. unfold fill_rule_1, fill_1D. rewrite cap_min. destruct (Rleb f a) eqn:Ea, (Rleb f b) eqn:Eb; cbn [orb]; rcmp; unfold Rmin; split; try split; intros; destruct (Rle_dec _ _); lra.
Qed.
Lemma fill_2D_rule f a b c e : 0 < f -> 0 <= e -> 0 <= a -> 0 <= b -> 0 <= c -> fill_rule_2 f a b c e (fill_2D f a b c e) /\ 0 <= fill_2D f a b c e <= f.
Proof.
  intros Hf He Ha Hb Hc. unfold fill_rule_2, fill_2D. rewrite !count_cons.
  destruct (Rleb f a) eqn:Ea, (Rleb f b) eqn:Eb, (Rleb f c) eqn:Ec; cbn; rewrite cap_min; rcmp; unfold Rmin; repeat split; intros; repeat destruct (Rle_dec _ _); lra.
Qed.
Lemma two_neighbours xs x k : left_neighbour xs x k -> (2 <= length xs)%nat -> (S k < length xs)%nat.
Proof. intros [(-> & _)|[(-> & _)|(a & b & Ha & Hb & _)]] H; [lia|lia|]. eapply nth_some_lt; eauto. Qed.

(** *** C58: one dimension *)
Section C58.
Variable inside : list coords -> coords -> bool.
Variable g : grid_arg. Variable d : nat. Variable pts : list (list R).
Variable rm : list (list R). Variable n : nat. Variable fa : fill_arg. Variable f : R.
Variable interp : method (list R) (list R). Variable extrap : option (method (list R) (list R)).
Variable est : estimator (list R). Variable E : rad_max_estimator.
Hypothesis Hg : float_grid g d pts.
Hypothesis Hn : (d + 1 <= length pts)%nat.
Hypothesis Hl : length rm = length pts.
Hypothesis Ht : tables n rm.
Hypothesis Hf : fill_used fa rm f.
Hypothesis Hp : 0 < f.
Hypothesis HE : rad_max_init g rm fa interp extrap = Ok E.
Hypothesis He : parametrized_init g (Some rm) interp extrap = Ok est.

Lemma c58_inv : (d < 3)%nat /\ E = mkRM est rm (fill_val E) (is_nearest interp) match extrap with Some e => is_nearest e | None => false end /\ active_fill (fill_val E) = Some f.
Proof.
  unfold rad_max_init in HE. rewrite He in HE. cbn [rbind] in HE. rewrite (fill_active fa rm f Hf Hp) in HE.
  destruct (init_inv g d pts rm interp extrap est Hg Hn Hl He) as (pts' & tm' & h & _ & _ & _ & E1 & _). rewrite E1 in HE.
  destruct (Nat.leb 3 d) eqn:L; [discriminate|]. apply Nat.leb_gt in L. injection HE as <-. cbn [fill_val]. repeat split; auto. apply fill_active; auto.
Qed.
Lemma target_ok tgt t : one_target tgt t -> length t = d -> check_target (grid_dim est) tgt = Ok t.
Proof.
  intros Ho Hlt. destruct (init_inv g d pts rm interp extrap est Hg Hn Hl He) as (pts' & tm' & h & _ & _ & _ & E1 & _). unfold check_target. rewrite E1.
  destruct Ho as [->| ->]; cbn [rbind]; rewrite Hlt, Nat.eqb_refl; auto.
Qed.
Lemma entry_nth k j : (k < length pts)%nat -> (j < n)%nat -> exists r, nth_error rm k = Some r /\ nth_error r j = Some (entry rm k j).
Proof.
  intros Hk Hj. destruct (nth_some_ex rm k ltac:(lia)) as (r & Hr). exists r. split; auto. unfold entry. rewrite (nth_error_nth _ _ _ Hr). apply nth_error_nth'. rewrite (Ht r); [auto|eapply nth_error_In; eauto].
Qed.

Lemma c58_1D tri find tgt x k w raw : d = 1%nat -> in_order pts -> one_target tgt [x] -> left_neighbour (map (fun p => nth 0 p 0) pts) x k ->
  is_nearest interp = false -> ((forall e, extrap = Some e -> is_nearest e = false) \/ in_hull 1 pts [x]) ->
  estimator_call inside est tgt = Ok (w, raw) -> length raw = n ->
  exists out, rad_max_call inside tri find true E tgt = Ok (w, out) /\ length out = n /\
    forall j v, nth_error out j = Some v -> fill_rule_1 f (entry rm k j) (entry rm (S k) j) (Rmax 0 (nth j raw 0)) v /\ 0 <= v <= f.
Proof.
  intros Hd Ho Hone Hk Hin Hex Hc Hr. destruct c58_inv as (_ & EE & Ea). pose proof (target_ok tgt [x] Hone ltac:(cbn; lia)) as Hct.
  destruct (init_inv g d pts rm interp extrap est Hg Hn Hl He) as (pts' & tm' & h & A & _ & _ & E1 & E2 & _ & _).
  destruct (base_ok g d pts Hg Hn) as (_ & Hdim). rewrite Hd in A, E1, Hdim.
  set (xs := map (fun p => nth 0 p 0) pts) in *. assert (Lx : length xs = length pts) by apply map_length.
  assert (Cx : concat (grid est) = xs).
  { rewrite E2. destruct A as (L & P & _ & A). assert (Pp : Permutation pts pts'). { rewrite <- (combine_fst pts rm), <- (combine_fst pts' tm') by auto. apply Permutation_map. auto. }
    rewrite dim1_concat by (intros p Hp'; apply Hdim; eapply Permutation_in; [symmetry; exact Pp|auto]).
    symmetry. apply increasing_perm; [exact Ho| |apply Permutation_map; auto]. assert (Np : NoDup (map (fun p => nth 0 p 0) pts')). { eapply Permutation_NoDup; [apply Permutation_map; exact Pp|]. apply increasing_NoDup. exact Ho. }
    intros i a b Ha Hb. apply map_nth_inv in Ha, Hb. destruct Ha as (p & Hpa & ->). destruct Hb as (q & Hqb & ->).
    destruct (A eq_refl _ _ _ Hpa Hqb) as [L'|L']; [auto|]. exfalso. assert (i = S i); [|lia]. apply (proj1 (NoDup_nth_error _) Np).
    - rewrite map_length. eapply nth_some_lt; eauto.
    - rewrite (map_nth_error _ _ _ Hpa), (map_nth_error _ _ _ Hqb), L'. auto. }
  assert (Ne : xs <> []) by (intros X; rewrite X in Lx; cbn in Lx; lia). destruct (list_min_spec xs Ne) as (M1 & M2). destruct (list_max_spec xs Ne) as (X1 & X2).
  pose proof (two_neighbours xs x k Hk ltac:(lia)) as Hk2. rewrite Lx in Hk2.
  destruct (nth_some_ex rm k ltac:(lia)) as (ra & Hra). destruct (nth_some_ex rm (S k) ltac:(lia)) as (rb & Hrb).
  exists (zip3 (fill_1D f) ra rb (map min_entry raw)). unfold rad_max_call. rewrite EE. cbn [rm_est fill_val interp_nearest extrap_nearest rm_params]. rewrite Hc, Hct, Ea, E1, Cx. cbn [rbind fst snd hd Nat.eqb].
  rewrite Hin, orb_false_r.
  assert (Lra : length ra = n) by (apply Ht; eapply nth_error_In; eauto). assert (Lrb : length rb = n) by (apply Ht; eapply nth_error_In; eauto).
  assert (X : (Rltb x (list_min xs) || Rltb (list_max xs) x) && match extrap with Some e => is_nearest e | None => false end = false).
  { destruct Hex as [Hex|Hex]; [destruct extrap; [rewrite Hex by auto|]; apply andb_false_r|]. apply hull_1d in Hex; auto. destruct Hex as (p & q & Hpi & Hqi & H1 & H2). cbn [nth] in *.
    assert (list_min xs <= nth 0 p 0) by (apply M2, (in_map (fun p => nth 0 p 0)); auto). assert (nth 0 q 0 <= list_max xs) by (apply X2, (in_map (fun p => nth 0 p 0)); auto).
    replace (Rltb x (list_min xs)) with false by (symmetry; rsolve; lra). replace (Rltb (list_max xs) x) with false by (symmetry; rsolve; lra). auto. }
  rewrite X.
  assert (Sg : exists i j, rm_segment xs x = Ok (i, j) /\ pyget rm i = Ok ra /\ pyget rm j = Ok rb).
  { unfold rm_segment. destruct Hk as [(-> & H)|[(-> & H)|(a & b & Ha & Hb & H)]].
    - pose proof (H _ M1). replace (Rltb x (list_min xs)) with true by (symmetry; rsolve; auto). exists 0%Z, 1%Z. split; auto. split; [exact (pyget_nat rm 0 ra Hra)|exact (pyget_nat rm 1 rb Hrb)].
    - pose proof (H _ M1). pose proof (H _ X1). replace (Rltb x (list_min xs)) with false by (symmetry; rsolve; lra). replace (Rltb (list_max xs) x) with true by (symmetry; rsolve; auto).
      exists (-2)%Z, (-1)%Z. split; auto. split; [apply (pyget_end rm 2); [lia|lia|]|apply (pyget_end rm 1); [lia|lia|]].
      + rewrite <- Hra. f_equal. lia.
      + rewrite <- Hrb. f_equal. lia.
    - pose proof (M2 _ (nth_error_In _ _ Ha)). pose proof (X2 _ (nth_error_In _ _ Hb)). replace (Rltb x (list_min xs)) with false by (symmetry; rsolve; lra). replace (Rltb (list_max xs) x) with false by (symmetry; rsolve; lra).
      rewrite (digitize_inside xs x k a b Ho Ha Hb H). cbn [rbind]. exists (Z.of_nat k), (Z.of_nat (S k)). split; [f_equal; f_equal; lia|]. split; apply pyget_nat; auto. }
  destruct Sg as (i & j & -> & Gi & Gj). cbn [rbind fst snd]. rewrite Gi. cbn [rbind]. rewrite Gj. cbn [rbind].
  split; [auto|]. split; [apply zip3_length; auto; rewrite map_length; auto|].
  intros q v Hv. assert (Hq : (q < n)%nat). { rewrite <- (zip3_length (fill_1D f) ra rb (map min_entry raw) n); auto; [eapply nth_some_lt; eauto|rewrite map_length; auto]. }
  destruct (entry_nth k q ltac:(lia) Hq) as (ra' & Ha1 & Ha2). destruct (entry_nth (S k) q ltac:(lia) Hq) as (rb' & Hb1 & Hb2). assert (ra' = ra) by congruence. assert (rb' = rb) by congruence. subst ra' rb'.
  pose proof (nth_error_nth' raw 0 (n := q) ltac:(lia)) as Hrq. pose proof (zip3_nth (fill_1D f) ra rb (map min_entry raw) q _ _ _ Ha2 Hb2 (map_nth_error min_entry _ _ Hrq)) as Hz.
  assert (v = fill_1D f (entry rm k q) (entry rm (S k) q) (Rmax 0 (nth q raw 0))) by (rewrite <- min_entry_max; congruence). subst v. apply fill_1D_rule; auto. apply Rmax_l.
Qed.

(** two dimensions: [s] is the simplex of the target *)
Lemma c58_2D tri find tgt t s p q r w raw : d = 2%nat -> (forall row v, In row rm -> In v row -> 0 <= v) -> one_target tgt t -> length t = 2%nat ->
  (find t = Some s \/ (find t = None /\ tgt = TFlat t /\ find_nearest_simplex tri (nth 0 t 0, nth 1 t 0) = Ok s /\ (forall e, extrap = Some e -> is_nearest e = false))) ->
  nth_error (simplices tri) s = Some (p, q, r) -> (p < length pts)%nat -> (q < length pts)%nat -> (r < length pts)%nat ->
  is_nearest interp = false -> estimator_call inside est tgt = Ok (w, raw) -> length raw = n ->
  exists out, rad_max_call inside tri find true E tgt = Ok (w, out) /\ length out = n /\
    forall j v, nth_error out j = Some v -> fill_rule_2 f (entry rm p j) (entry rm q j) (entry rm r j) (Rmax 0 (nth j raw 0)) v /\ 0 <= v <= f.
Proof.
  intros Hd Hpos Hone Hlt Hfind Hs Hpl Hql Hrl Hin Hc Hr. destruct c58_inv as (_ & EE & Ea). pose proof (target_ok tgt t Hone ltac:(lia)) as Hct.
  destruct (init_inv g d pts rm interp extrap est Hg Hn Hl He) as (pts' & tm' & h & A & _ & _ & E1 & E2 & _ & _).
  destruct (nth_some_ex rm p ltac:(lia)) as (ra & Hra). destruct (nth_some_ex rm q ltac:(lia)) as (rb & Hrb). destruct (nth_some_ex rm r ltac:(lia)) as (rc & Hrc).
  exists (zip3 (fun ab c e => fill_2D f (fst ab) (snd ab) c e) (combine ra rb) rc (map min_entry raw)). unfold rad_max_call. rewrite EE. cbn [rm_est fill_val interp_nearest extrap_nearest rm_params].
  rewrite Hc, Hct, Ea, E1, Hd. cbn [rbind fst snd Nat.eqb]. rewrite Hin, orb_false_r.
  assert (Lra : length ra = n) by (apply Ht; eapply nth_error_In; eauto). assert (Lrb : length rb = n) by (apply Ht; eapply nth_error_In; eauto). assert (Lrc : length rc = n) by (apply Ht; eapply nth_error_In; eauto).
  assert (Lo : length (zip3 (fun ab c e => fill_2D f (fst ab) (snd ab) c e) (combine ra rb) rc (map min_entry raw)) = n) by (apply zip3_length; [rewrite combine_length, Lra, Lrb; apply Nat.min_id|auto|rewrite map_length; auto]).
  assert (X : match find t with Some _ => false | None => match extrap with Some e => is_nearest e | None => false end end = false).
  { destruct Hfind as [->|(-> & _ & _ & H)]; auto. destruct extrap; auto. }
  rewrite X.
  replace (match find t with Some i => Ok i | None => match tgt with TFlat _ => find_nearest_simplex tri (nth 0 t 0, nth 1 t 0) | _ => Err ValueError end end) with (Ok s).
  2:{ destruct Hfind as [->|(-> & -> & -> & _)]; auto. }
  cbn [rbind]. rewrite Hs. rewrite (pyget_nat rm p ra Hra). cbn [rbind]. rewrite (pyget_nat rm q rb Hrb). cbn [rbind]. rewrite (pyget_nat rm r rc Hrc). cbn [rbind].
  split; [auto|]. split; [auto|]. intros j v Hv. pose proof (nth_some_lt _ _ _ Hv) as Hj. rewrite Lo in Hj.
  destruct (entry_nth p j Hpl Hj) as (ra' & Ha1 & Ha2). destruct (entry_nth q j Hql Hj) as (rb' & Hb1 & Hb2). destruct (entry_nth r j Hrl Hj) as (rc' & Hc1 & Hc2).
  assert (ra' = ra) by congruence. assert (rb' = rb) by congruence. assert (rc' = rc) by congruence. subst ra' rb' rc'.
  assert (Cab : nth_error (combine ra rb) j = Some (entry rm p j, entry rm q j)).
  { apply combine_some; auto. }
  pose proof (nth_error_nth' raw 0 (n := j) ltac:(lia)) as Hrq.
  pose proof (zip3_nth (fun ab c e => fill_2D f (fst ab) (snd ab) c e) (combine ra rb) rc (map min_entry raw) j _ _ _ Cab Hc2 (map_nth_error min_entry _ _ Hrq)) as Hz. cbn [fst snd] in Hz.
  assert (v = fill_2D f (entry rm p j) (entry rm q j) (entry rm r j) (Rmax 0 (nth j raw 0))) by (rewrite <- min_entry_max; congruence). subst v.
  apply fill_2D_rule; auto; [apply Rmax_l| | | ]; [apply (Hpos ra)|apply (Hpos rb)|apply (Hpos rc)]; eapply nth_error_In; eauto.
Qed.

(** nearest neighbours: the entry of the tables, not changed *)
Lemma c58_nearest tri find two tgt t w raw : (d = 1 \/ d = 2)%nat -> one_target tgt t -> length t = d -> is_nearest interp = true ->
  estimator_call inside est tgt = Ok (w, raw) -> rad_max_call inside tri find two E tgt = Ok (w, map (Rmax 0) raw).
Proof.
  intros Hd Hone Hlt Hin Hc. destruct c58_inv as (_ & EE & Ea). pose proof (target_ok tgt t Hone Hlt) as Hct. unfold rad_max_call. rewrite EE. cbn [rm_est fill_val interp_nearest extrap_nearest rm_params].
  rewrite Hc, Hct, Ea. cbn [rbind fst snd]. rewrite Hin, !orb_true_r. rewrite (map_ext _ _ min_entry_max). destruct (Nat.eqb _ _); auto.
Qed.
End C58.

(** without a fill value, or with a fill value of 0: the estimate, not below 0 *)
Lemma c58_no_fill inside g rm fa interp extrap est E tri find two tgt w raw : parametrized_init g (Some rm) interp extrap = Ok est ->
  rad_max_init g rm fa interp extrap = Ok E -> fa = FillNone \/ fill_used fa rm 0 ->
  estimator_call inside est tgt = Ok (w, raw) -> rad_max_call inside tri find two E tgt = Ok (w, map (Rmax 0) raw).
Proof.
  intros He HE Hf Hc. unfold rad_max_init in HE. rewrite He in HE. cbn [rbind] in HE.
  assert (A : active_fill match fa with FillNone => None | FillInfer => Some (list_max (concat rm)) | FillValue v => Some v end = None).
  { destruct Hf as [->|[->|(-> & (r & Hr & Hf) & H)]]; unfold active_fill; auto; [rewrite Reqb_refl; auto|].
    assert (In 0 (concat rm)) by (apply in_concat; eauto). assert (Ne : concat rm <> []) by (intros X; rewrite X in *; contradiction).
    destruct (list_max_spec _ Ne) as (M1 & M2). assert (Z : list_max (concat rm) = 0).
    { apply Rle_antisym; [|auto]. apply in_concat in M1. destruct M1 as (r' & ? & ?). eapply H; eauto. }
    rewrite Z, Reqb_refl. auto. }
  rewrite A in HE. injection HE as <-. unfold rad_max_call. cbn [rm_est fill_val]. rewrite A, Hc. cbn [rbind fst snd].
  unfold estimator_call in Hc. destruct (check_target (grid_dim est) tgt) as [t|]; [|discriminate]. cbn [rbind]. rewrite (map_ext _ _ min_entry_max). auto.
Qed.
Lemma c58_dims g d pts rm fa f interp extrap est : float_grid g d pts -> (d + 1 <= length pts)%nat -> length rm = length pts -> fill_used fa rm f -> 0 < f -> (3 <= d)%nat ->
  parametrized_init g (Some rm) interp extrap = Ok est -> rad_max_init g rm fa interp extrap = Err ValueError.
Proof.
  intros Hg Hn Hl Hf Hp Hd He. unfold rad_max_init. rewrite He. cbn [rbind]. rewrite (fill_active fa rm f Hf Hp).
  destruct (init_inv g d pts rm interp extrap est Hg Hn Hl He) as (pts' & tm' & h & _ & _ & _ & E1 & _). rewrite E1.
  replace (Nat.leb 3 d) with true by (symmetry; apply Nat.leb_le; auto). auto.
Qed.
