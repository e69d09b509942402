(** * Proofs: the layout of the arrays of EnergyDispersionEstimator and PSFTableEstimator, keyword arguments; more about RadMaxEstimator *)
From Coq Require Import String Reals List Bool ZArith Arith Lia Lra Permutation Sorting.Sorted.
From Verif Require Import Num Numpy Sort Table Binning SpecBinning BinningProofs Lists CutsProofs CutsProofs2 Utils SpecSimulations SpecIRF IRFProofs IRFProofs2 Morph SpecInterp MorphProofs MorphProofs2 Geometry GeometryProofs GeometryProofs2 GeometryProofs3 Quantile QuantileProofs2 QuantileProofs3 Estimators SpecEstimators EstimatorProofs EstimatorProofs2 EstimatorProofs3.
Import ListNotations.
Open Scope R_scope.

(** *** C59 *)
Lemma axis_ok n axis k : axis_at n axis k -> axis_of n axis = Ok k.
Proof.
  intros (Hk & [-> | ->]); unfold axis_of.
  - destruct (Z.ltb_spec (Z.of_nat k) 0); [lia|]. destruct (Z.ltb_spec (Z.of_nat k) 0); [lia|]. destruct (Z.leb_spec (Z.of_nat n) (Z.of_nat k)); [lia|]. cbn. f_equal. lia.
  - destruct (Z.ltb_spec (Z.of_nat k - Z.of_nat n) 0); [|lia]. destruct (Z.ltb_spec (Z.of_nat k - Z.of_nat n + Z.of_nat n) 0); [lia|]. destruct (Z.leb_spec (Z.of_nat n) (Z.of_nat k - Z.of_nat n + Z.of_nat n)); [lia|]. cbn. f_equal. lia.
Qed.
Lemma swap_length {A} (d : A) i j l : length (swap d i j l) = length l.
Proof. unfold swap. rewrite map_length, seq_length. auto. Qed.
Lemma swap_nth {A} (d : A) i j l q : (q < length l)%nat -> nth q (swap d i j l) d = nth (if Nat.eqb q i then j else if Nat.eqb q j then i else q) l d.
Proof.
  intros H. unfold swap. set (f := fun k => nth (if Nat.eqb k i then j else if Nat.eqb k j then i else k) l d).
  rewrite (nth_indep _ d (f 0%nat)) by (rewrite map_length, seq_length; auto). rewrite map_nth, seq_nth by auto. reflexivity.
Qed.
Lemma with_length ix k m : (k < length ix)%nat -> length (with_index ix k m) = length ix.
Proof. intros H. unfold with_index. rewrite app_length. cbn [length]. rewrite firstn_length, skipn_length. lia. Qed.
Lemma with_nth ix k m q : (k < length ix)%nat -> nth q (with_index ix k m) 0%nat = if Nat.eqb q k then m else nth q ix 0%nat.
Proof.
  intros H. unfold with_index. assert (L : length (firstn k ix) = k) by (rewrite firstn_length; lia). destruct (Nat.eqb_spec q k) as [->|Hq].
  - rewrite app_nth2 by lia. rewrite L, Nat.sub_diag. auto.
  - destruct (Nat.lt_ge_cases q k).
    + rewrite app_nth1 by lia. rewrite <- (firstn_skipn k ix) at 2. rewrite app_nth1 by lia. auto.
    + rewrite app_nth2 by lia. rewrite L. destruct (q - k)%nat as [|r] eqn:E; [lia|]. cbn [nth]. rewrite <- (firstn_skipn (S k) ix) at 2.
      assert (L2 : length (firstn (S k) ix) = S k) by (rewrite firstn_length; lia). rewrite app_nth2 by lia. rewrite L2. f_equal. lia.
Qed.
Lemma last_nth_nat (l : list nat) : last l 0%nat = nth (length l - 1) l 0%nat.
Proof. induction l as [|a [|b l] IH]; auto. change (last (a :: b :: l) 0%nat) with (last (b :: l) 0%nat). rewrite IH. cbn. rewrite Nat.sub_0_r. auto. Qed.
Lemma removelast_len {A} (l : list A) : length (removelast l) = (length l - 1)%nat.
Proof. rewrite removelast_firstn_len, firstn_length. lia. Qed.
Lemma removelast_nth (l : list nat) q : (q < length l - 1)%nat -> nth q (removelast l) 0%nat = nth q l 0%nat.
Proof. revert q. induction l as [|a [|b l] IH]; intros q H; cbn in H; try lia. destruct q; auto. change (nth q (removelast (b :: l)) 0%nat = nth q (b :: l) 0%nat). apply IH. cbn. lia. Qed.
Lemma hd_tl_nth (l : list nat) : hd 0%nat l = nth 0 l 0%nat. Proof. destruct l; auto. Qed.
Lemma tl_nth (l : list nat) q : nth q (tl l) 0%nat = nth (S q) l 0%nat. Proof. destruct l; auto. destruct q; auto. Qed.
Lemma tl_len {A} (l : list A) : length (tl l) = (length l - 1)%nat. Proof. destruct l; cbn; lia. Qed.

Lemma F2_length {A B} (P : A -> B -> Prop) l m : Forall2 P l m -> length l = length m.
Proof. induction 1; cbn; auto. Qed.
Lemma swap_back ix k p m n : length ix = n -> (2 <= n)%nat -> (1 <= k < n)%nat ->
  swap 0%nat k (n - 1) ((p :: removelast (tl (swap 0%nat (n - 1) k ix))) ++ [m]) = with_index (with_index ix 0 p) k m.
Proof.
  intros Hl Hn Hk. set (s := swap 0%nat (n - 1) k ix). assert (Ls : length s = n) by (unfold s; rewrite swap_length; auto).
  set (jx := (p :: removelast (tl s)) ++ [m]). assert (Lr : length (removelast (tl s)) = (n - 2)%nat) by (rewrite removelast_len, tl_len; lia).
  assert (Lj : length jx = n) by (unfold jx; rewrite app_length; cbn [length]; rewrite Lr; lia).
  apply nth_ext with (d := 0%nat) (d' := 0%nat). { rewrite swap_length, with_length; rewrite with_length; lia. }
  intros q Hq. rewrite swap_length in Hq. rewrite swap_nth by lia. rewrite with_nth by (rewrite with_length; lia). rewrite with_nth by lia.
  assert (J : forall r, (r < n)%nat -> nth r jx 0%nat = if Nat.eqb r 0 then p else if Nat.eqb r (n - 1) then m else nth r s 0%nat).
  { intros r Hr. unfold jx. destruct r as [|r]; [reflexivity|]. destruct (Nat.eqb_spec (S r) 0); [lia|]. cbn [app nth]. destruct (Nat.eqb_spec (S r) (n - 1)) as [E|E].
    - rewrite app_nth2 by lia. rewrite Lr. replace (r - (n - 2))%nat with 0%nat by lia. auto.
    - rewrite app_nth1 by lia. rewrite removelast_nth by (rewrite tl_len; lia). rewrite tl_nth. auto. }
  assert (S' : forall r, (r < n)%nat -> nth r s 0%nat = nth (if Nat.eqb r (n - 1) then k else if Nat.eqb r k then (n - 1)%nat else r) ix 0%nat).
  { intros r Hr. unfold s. rewrite swap_nth by lia. auto. }
  destruct (Nat.eqb_spec q k) as [->|Hqk].
  - rewrite J by lia. destruct (Nat.eqb_spec (n - 1) 0); [lia|]. rewrite Nat.eqb_refl. auto.
  - destruct (Nat.eqb_spec q (n - 1)) as [->|Hqn].
    + rewrite J by lia. destruct (Nat.eqb_spec k 0); [lia|]. destruct (Nat.eqb_spec k (n - 1)); [lia|]. rewrite S' by lia. destruct (Nat.eqb_spec k (n - 1)); [lia|]. rewrite Nat.eqb_refl.
      destruct (Nat.eqb_spec (n - 1) 0); [lia|]. auto.
    + rewrite J by lia. destruct (Nat.eqb_spec q 0); auto. destruct (Nat.eqb_spec q (n - 1)); [lia|]. rewrite S' by lia. destruct (Nat.eqb_spec q (n - 1)); [lia|]. destruct (Nat.eqb_spec q k); [lia|]. auto.
Qed.
Lemma swap_swap (s : list nat) i j : (i < length s)%nat -> (j < length s)%nat -> swap 0%nat j i (swap 0%nat i j s) = s.
Proof.
  intros Hi Hj. apply nth_ext with (d := 0%nat) (d' := 0%nat); [rewrite !swap_length; auto|]. intros q Hq. rewrite !swap_length in Hq. rewrite swap_nth by (rewrite swap_length; auto).
  destruct (Nat.eqb_spec q j) as [->|]; [|destruct (Nat.eqb_spec q i) as [->|]]; rewrite swap_nth by auto; rewrite ?Nat.eqb_refl; auto.
  - destruct (Nat.eqb_spec j i); subst; auto.
  - destruct (Nat.eqb_spec q i); [lia|]. destruct (Nat.eqb_spec q j); [lia|]. auto.
Qed.
Lemma swap_cons (s : list nat) i j : (1 <= i)%nat -> (1 <= j)%nat -> (1 <= length s)%nat -> exists t, swap 0%nat i j s = hd 0%nat s :: t.
Proof.
  intros Hi Hj Hs. pose proof (swap_length 0%nat i j s). destruct (swap 0%nat i j s) as [|x t] eqn:E; [cbn in H; lia|]. exists t. f_equal. change x with (nth 0 (x :: t) 0%nat). rewrite <- E, swap_nth by lia.
  destruct (Nat.eqb_spec 0 i); [lia|]. destruct (Nat.eqb_spec 0 j); [lia|]. destruct s; auto.
Qed.

Lemma c59_layout slice axis k a : (2 <= length (ashape a))%nat -> axis_at (length (ashape a)) axis k -> (1 <= k)%nat ->
  exists out, along_axis (interpolate_slices slice) axis a = Ok out /\ ashape out = 1%nat :: tl (ashape a) /\
  forall ix, index_of (ashape out) ix -> aat out ix = nth (nth k ix 0%nat) (slice (map (histogram_along a k ix) (seq 0 (hd 0%nat (ashape a))))) 0.
Proof.
  intros Hn Hax Hk. set (s := ashape a) in *. set (n := length s) in *. destruct Hax as (Hkn & Hax). unfold along_axis, swapaxes. fold s. fold n.
  rewrite (axis_ok n axis k) by (split; auto). cbn [rbind]. rewrite (axis_ok n (-1) (n - 1)) by (split; [lia|right; lia]). cbn [rbind]. unfold interpolate_slices. cbn [ashape].
  destruct (swap_cons s k (n - 1) Hk ltac:(lia) ltac:(unfold n in *; lia)) as (t & Et). pose proof (swap_length 0%nat k (n - 1) s) as Ls. fold n in Ls.
  assert (Lt : length (1%nat :: tl (swap 0%nat k (n - 1) s)) = n). { rewrite Et in *. cbn [tl length] in *. auto. }
  rewrite Lt. rewrite (axis_ok n (-1) (n - 1)) by (split; [lia|right; lia]). rewrite (axis_ok n axis k) by (split; auto). cbn [rbind].
  eexists. split; [reflexivity|]. cbn [ashape aat].
  assert (Sh : swap 0%nat (n - 1) k (1%nat :: tl (swap 0%nat k (n - 1) s)) = 1%nat :: tl s).
  { destruct (swap_cons (1%nat :: tl (swap 0%nat k (n - 1) s)) (n - 1) k ltac:(lia) Hk ltac:(lia)) as (t' & Et'). cbn [hd] in Et'. rewrite Et'. f_equal.
    apply nth_ext with (d := 0%nat) (d' := 0%nat).
    - pose proof (swap_length 0%nat (n - 1) k (1%nat :: tl (swap 0%nat k (n - 1) s))) as X. rewrite Et', Lt in X. rewrite tl_len. cbn [length] in X. unfold n in *. lia.
    - intros q Hq. assert (Hq' : (S q < n)%nat). { pose proof (swap_length 0%nat (n - 1) k (1%nat :: tl (swap 0%nat k (n - 1) s))) as X. rewrite Et', Lt in X. cbn [length] in X. lia. }
      change (nth q t' 0%nat) with (nth (S q) (1%nat :: t') 0%nat). rewrite <- Et', swap_nth by lia. rewrite tl_nth. rewrite <- (swap_swap s k (n - 1)) at 2 by (unfold n in *; lia). rewrite (swap_nth 0%nat (n - 1) k (swap 0%nat k (n - 1) s)) by lia.
      rewrite Et. cbn [tl]. destruct (Nat.eqb_spec (S q) (n - 1)); [destruct k; [lia|auto]|]. destruct (Nat.eqb_spec (S q) k); [destruct (n - 1)%nat eqn:En; [lia|auto]|auto]. }
  split; [exact Sh|]. intros ix Hix. rewrite Sh in Hix. assert (Li : length ix = n). { clear -Hix Hn. apply F2_length in Hix. cbn [length] in Hix. rewrite tl_len in Hix. fold n in Hix. lia. }
  assert (Hl' : last (swap 0%nat (n - 1) k ix) 0%nat = nth k ix 0%nat). { rewrite last_nth_nat, swap_length, Li, swap_nth by lia. rewrite Nat.eqb_refl. auto. }
  rewrite Hl'. f_equal. f_equal. rewrite Et. cbn [hd]. apply map_ext. intros p. unfold last_slice, histogram_along. cbn [ashape aat]. fold s. rewrite <- Et.
  replace (last (swap 0%nat k (n - 1) s) 0%nat) with (nth k s 0%nat).
  2:{ rewrite last_nth_nat, swap_length. fold n. rewrite swap_nth by (fold n; lia). destruct (Nat.eqb_spec (n - 1) k) as [<-|]; [auto|]. rewrite Nat.eqb_refl. auto. }
  apply map_ext. intros m. 
  cbn [aat]. f_equal. apply swap_back; auto; lia.
Qed.

(** keyword arguments *)
Lemma kwget_app k v d k' : kwget k d = None -> kwget k' (d ++ [(k, v)]) = if String.eqb k' k then Some v else kwget k' d.
Proof.
  induction d as [|(q, w) d IH]; intros H; cbn in *; auto. destruct (String.eqb_spec k q) as [->|Hq]; [discriminate|].
  destruct (String.eqb_spec k' q) as [->|]; auto. destruct (String.eqb_spec q k) as [->|]; congruence.
Qed.
Lemma c59_kwargs d : used_normalization (psf_kwargs None) = CONE_SOLID_ANGLE /\
  (kwget "normalization" d = None -> used_normalization (psf_kwargs (Some d)) = CONE_SOLID_ANGLE) /\
  (forall v, kwget "normalization" d = Some v -> psf_kwargs (Some d) = d) /\
  (forall k, k <> "normalization"%string -> kwget k (psf_kwargs (Some d)) = kwget k d).
Proof.
  split; [reflexivity|]. unfold psf_kwargs, setdefault, used_normalization. split; [|split].
  - intros H. rewrite H, kwget_app by auto. rewrite String.eqb_refl. auto.
  - intros v ->. auto.
  - intros k Hk. destruct (kwget "normalization" d) eqn:E; auto. rewrite kwget_app by auto. destruct (String.eqb_spec k "normalization"); congruence.
Qed.
(** the caller's dict is changed; used again for an energy dispersion it changes the normalisation *)
Lemma c59_shared d : kwget "normalization" d = None -> psf_kwargs (Some d) <> d /\ used_normalization d = AREA /\ used_normalization (psf_kwargs (Some d)) = CONE_SOLID_ANGLE.
Proof.
  intros H. split; [|split].
  - intros E. pose proof (f_equal (kwget "normalization") E) as X. unfold psf_kwargs, setdefault in X. rewrite H, kwget_app, H in X by auto. discriminate.
  - unfold used_normalization. rewrite H. auto.
  - apply c59_kwargs. auto.
Qed.
(** the classes *)
Lemma forallb_app_one {A} (p : A -> bool) l x : forallb p (l ++ [x]) = forallb p l && p x.
Proof. induction l; cbn; [rewrite andb_true_r; auto|]. rewrite IHl, andb_assoc. auto. Qed.
Lemma c59_classes d : 
  (accepts quantile_parameters d = Ok d -> accepts quantile_parameters (psf_kwargs (Some d)) = Ok (psf_kwargs (Some d))) /\
  (accepts morph_parameters d = Ok d -> accepts morph_parameters (psf_kwargs (Some d)) = Ok (psf_kwargs (Some d))).
Proof.
  unfold psf_kwargs, setdefault, accepts. destruct (kwget "normalization" d); [auto|].
  split; rewrite forallb_app_one; destruct (forallb _ d); try discriminate; reflexivity.
Qed.
Lemma kwget_in k d v : kwget k d = Some v -> exists v', In (k, v') d.
Proof. induction d as [|(q, w) d IH]; cbn; [discriminate|]. destruct (String.eqb_spec k q) as [->|]; [eauto|]. intros H. destruct (IH H); eauto. Qed.
Lemma c59_nearest d : accepts nearest_parameters (psf_kwargs d) = Err TypeError.
Proof.
  assert (X : forall d, (exists v, In ("normalization"%string, v) d) -> accepts nearest_parameters d = Err TypeError).
  { intros d' (v & Hv). unfold accepts. replace (forallb _ d') with false; auto. symmetry. apply not_true_is_false. rewrite forallb_forall. intros H. apply H in Hv. discriminate. }
  apply X. unfold psf_kwargs, setdefault. destruct (kwget "normalization" _) eqn:E; [eapply kwget_in; eauto|]. eexists. apply in_or_app. right. left. reflexivity.
Qed.

(** *** C58: exceptions *)
Lemma c58_last_point inside g pts rm fa f interp extrap est E tri find two tgt x w raw : float_grid g 1 pts -> (2 <= length pts)%nat -> length rm = length pts -> fill_used fa rm f -> 0 < f ->
  rad_max_init g rm fa interp extrap = Ok E -> parametrized_init g (Some rm) interp extrap = Ok est -> NoDup pts -> is_nearest interp = false ->
  one_target tgt [x] -> In [x] pts -> (forall y, In y pts -> nth 0 y 0 <= x) -> estimator_call inside est tgt = Ok (w, raw) ->
  rad_max_call inside tri find two E tgt = Err IndexError.
Proof.
  intros Hg Hn Hl Hf Hp HE He Hnd Hin Hone Hx Hmax Hc.
  destruct (c58_inv g 1 pts rm fa f interp extrap est E Hg ltac:(lia) Hl Hf Hp HE He) as (_ & EE & Ea). pose proof (target_ok g 1 pts rm interp extrap est Hg ltac:(lia) Hl He tgt [x] Hone eq_refl) as Hct.
  destruct (init_inv g 1 pts rm interp extrap est Hg ltac:(lia) Hl He) as (pts' & tm' & h & A & _ & _ & E1 & E2 & _ & _). destruct (base_ok g 1 pts Hg ltac:(lia)) as (_ & Hdim).
  unfold rad_max_call. rewrite EE. cbn [rm_est fill_val interp_nearest extrap_nearest rm_params]. rewrite Hc, Hct, Ea, E1, E2. cbn [rbind fst snd hd Nat.eqb]. rewrite Hin, orb_false_r.
  destruct A as (L & P & _ & A). assert (Pp : Permutation pts pts'). { rewrite <- (combine_fst pts rm), <- (combine_fst pts' tm') by auto. apply Permutation_map. auto. }
  assert (Hdim' : of_dimension 1 pts') by (intros p Hp'; apply Hdim; eapply Permutation_in; [symmetry; exact Pp|auto]).
  rewrite dim1_concat by auto. set (xs := map (fun p => nth 0 p 0) pts'). assert (Lx : length xs = length rm). { unfold xs. rewrite map_length. rewrite Hl. symmetry. apply Permutation_length; auto. }
  assert (Np : NoDup xs).
  { unfold xs. apply Permutation_NoDup in Pp; auto. clear -Pp Hdim'. induction Pp as [|p l Hni Hnd IH]; cbn; constructor.
    - intros H. apply in_map_iff in H. destruct H as (q & E & Hq). apply Hni. pose proof (Hdim' p (or_introl eq_refl)). pose proof (Hdim' q (or_intror Hq)).
      destruct p as [|u [|]]; cbn in *; try lia. destruct q as [|v [|]]; cbn in *; try lia. subst; auto.
    - apply IH. intros q Hq. apply Hdim'. right; auto. }
  assert (Inc : increasing xs).
  { intros i a b Ha Hb. pose proof Ha as Ha'. pose proof Hb as Hb'. apply map_nth_inv in Ha, Hb. destruct Ha as (p & Hpa & ->). destruct Hb as (q & Hqb & ->).
    destruct (A eq_refl _ _ _ Hpa Hqb) as [L'|L']; [auto|]. exfalso. assert (i = S i); [|lia]. apply (proj1 (NoDup_nth_error _) Np); [eapply nth_some_lt; eauto|congruence]. }
  assert (Ix : In x xs). { change x with (nth 0 [x] 0). apply (in_map (fun p => nth 0 p 0)). eapply Permutation_in; eauto. }
  assert (Mx : forall y, In y xs -> y <= x). { intros y Hy. apply in_map_iff in Hy. destruct Hy as (p & <- & Hp'). apply Hmax. eapply Permutation_in; [symmetry; exact Pp|auto]. }
  assert (Ne : xs <> []) by (intros X; rewrite X in Ix; contradiction). destruct (list_min_spec xs Ne) as (M1 & M2). destruct (list_max_spec xs Ne) as (X1 & X2).
  pose proof (M2 _ Ix). pose proof (X2 _ Ix). replace (Rltb x (list_min xs)) with false by (symmetry; apply Rltb_false; lra). replace (Rltb (list_max xs) x) with false by (symmetry; apply Rltb_false; lra). cbn [orb andb].
  unfold rm_segment. replace (Rltb x (list_min xs)) with false by (symmetry; apply Rltb_false; lra). replace (Rltb (list_max xs) x) with false by (symmetry; apply Rltb_false; lra).
  rewrite (digitize_inc xs x (length xs) Inc Ne (le_n _)); [| |intros i y Hy Hi; apply nth_some_lt in Hy; lia].
  2:{ intros i y Hy _. apply Mx. eapply nth_error_In; eauto. }
  cbn [rbind fst snd]. destruct (nth_some_ex rm (length rm - 1) ltac:(lia)) as (r & Hr). rewrite Lx. replace (Z.of_nat (length rm) - 1)%Z with (Z.of_nat (length rm - 1)) by lia. rewrite (pyget_nat rm _ r Hr). cbn [rbind].
  rewrite pyget_out. auto.
Qed.
Lemma c58_row_target inside g pts rm fa f interp extrap est E tri find two t w raw : float_grid g 2 pts -> (3 <= length pts)%nat -> length rm = length pts -> fill_used fa rm f -> 0 < f ->
  rad_max_init g rm fa interp extrap = Ok E -> parametrized_init g (Some rm) interp extrap = Ok est -> is_nearest interp = false -> (forall e, extrap = Some e -> is_nearest e = false) ->
  length t = 2%nat -> find t = None -> estimator_call inside est (TRows [t]) = Ok (w, raw) ->
  rad_max_call inside tri find two E (TRows [t]) = Err ValueError.
Proof.
  intros Hg Hn Hl Hf Hp HE He Hin Hex Hlt Hfi Hc.
  destruct (c58_inv g 2 pts rm fa f interp extrap est E Hg ltac:(lia) Hl Hf Hp HE He) as (_ & EE & Ea). pose proof (target_ok g 2 pts rm interp extrap est Hg ltac:(lia) Hl He (TRows [t]) t (or_intror eq_refl) Hlt) as Hct.
  destruct (init_inv g 2 pts rm interp extrap est Hg ltac:(lia) Hl He) as (pts' & tm' & h & A & _ & _ & E1 & E2 & _ & _).
  unfold rad_max_call. rewrite EE. cbn [rm_est fill_val interp_nearest extrap_nearest rm_params]. rewrite Hc, Hct, Ea, E1. cbn [rbind fst snd hd Nat.eqb]. rewrite Hfi, Hin, orb_false_r.
  destruct extrap as [e|]; [rewrite (Hex e eq_refl)|]; auto.
Qed.
(** the histogram at one index of the result *)
Lemma with_valid s k ix m : index_of (1%nat :: tl s) ix -> (1 <= k < length s)%nat -> (m < nth k s 0)%nat -> index_of (1%nat :: tl s) (with_index (with_index ix 0 0) k m).
Proof.
  intros Hix Hk Hm. pose proof (F2_length _ _ _ Hix) as L. cbn [length] in L. rewrite tl_len in L. assert (L0 : length (with_index ix 0 0) = length s) by (rewrite with_length; lia).
  assert (G : forall l r : list nat, length l = length r -> (forall q, (q < length r)%nat -> (nth q l 0 < nth q r 0)%nat) -> index_of r l).
  { clear. induction l as [|x l IH]; intros [|y r] H G; cbn in H; try lia; constructor; [apply (G 0%nat); cbn; lia|]. apply IH; [lia|]. intros q Hq. apply (G (S q)). cbn. lia. }
  assert (G2 : forall l r : list nat, index_of r l -> forall q, (q < length r)%nat -> (nth q l 0 < nth q r 0)%nat).
  { clear. intros l r H. induction H as [|x y l r Hx H IH]; cbn; intros [|q] Hq; try lia. apply IH. lia. }
  apply G; [rewrite with_length by lia; cbn [length]; rewrite tl_len; lia|]. intros q Hq. cbn [length] in Hq. rewrite tl_len in Hq. rewrite with_nth by lia. rewrite with_nth by lia.
  destruct (Nat.eqb_spec q k) as [->|]; [destruct k as [|k]; [lia|]; cbn [nth]; rewrite tl_nth; auto|]. destruct (Nat.eqb_spec q 0) as [->|]; [cbn; lia|]. apply G2; auto. cbn [length]. rewrite tl_len. lia.
Qed.
Lemma with_with ix k m p : (1 <= k < length ix)%nat -> nth k (with_index (with_index ix 0 p) k m) 0%nat = m /\
  forall q v, with_index (with_index (with_index (with_index ix 0 p) k m) 0 q) k v = with_index (with_index ix 0 q) k v.
Proof.
  intros H. assert (L1 : forall p, length (with_index ix 0 p) = length ix) by (intros; apply with_length; lia). assert (L2 : forall p m, length (with_index (with_index ix 0 p) k m) = length ix) by (intros; rewrite with_length; rewrite L1; lia).
  split; [rewrite with_nth by (rewrite L1; lia); rewrite Nat.eqb_refl; auto|]. intros q v. assert (L3 : length (with_index (with_index (with_index ix 0 p) k m) 0 q) = length ix) by (rewrite with_length; rewrite L2; lia).
  apply nth_ext with (d := 0%nat) (d' := 0%nat); [rewrite with_length by lia; rewrite L2; auto|]. intros r Hr. rewrite !with_nth by (rewrite ?L1, ?L2, ?L3; lia).
  destruct (Nat.eqb_spec r k); auto. destruct (Nat.eqb_spec r 0); auto.
Qed.
Lemma c59_histogram slice axis k a : (2 <= length (ashape a))%nat -> axis_at (length (ashape a)) axis k -> (1 <= k)%nat ->
  (forall hs, length hs = hd 0%nat (ashape a) -> tables (nth k (ashape a) 0%nat) hs -> length (slice hs) = nth k (ashape a) 0%nat) ->
  exists out, along_axis (interpolate_slices slice) axis a = Ok out /\ ashape out = 1%nat :: tl (ashape a) /\
  forall ix, index_of (ashape out) ix -> histogram_along out k ix 0 = slice (map (histogram_along a k ix) (seq 0 (hd 0%nat (ashape a)))).
Proof.
  intros Hn Hax Hk Hs. destruct (c59_layout slice axis k a Hn Hax Hk) as (out & E & Sh & H). exists out. split; [auto|]. split; [auto|]. intros ix Hix. rewrite Sh in Hix.
  destruct Hax as (Hkn & _). pose proof (F2_length _ _ _ Hix) as L. cbn [length] in L. rewrite tl_len in L.
  assert (Ls : length (slice (map (histogram_along a k ix) (seq 0 (hd 0%nat (ashape a))))) = nth k (ashape a) 0%nat).
  { apply Hs; [rewrite map_length, seq_length; auto|]. intros r Hr. apply in_map_iff in Hr. destruct Hr as (p & <- & _). unfold histogram_along. rewrite map_length, seq_length. auto. }
  unfold histogram_along at 1. rewrite Sh. assert (Nk : nth k (1%nat :: tl (ashape a)) 0%nat = nth k (ashape a) 0%nat) by (destruct k as [|q]; [lia|]; cbn [nth]; apply tl_nth). rewrite Nk.
  apply nth_ext with (d := 0) (d' := 0); [rewrite map_length, seq_length; auto|]. intros m Hm. rewrite map_length, seq_length in Hm.
  set (fm := fun m0 => aat out (with_index (with_index ix 0 0) k m0)). rewrite (nth_indep _ 0 (fm 0%nat)) by (rewrite map_length, seq_length; auto). rewrite map_nth, seq_nth by auto. unfold fm. cbn [Nat.add].
  rewrite H by (rewrite Sh; apply with_valid; auto; lia). destruct (with_with ix k m 0 ltac:(lia)) as (W1 & W2). rewrite W1. f_equal. f_equal. apply map_ext. intros p. unfold histogram_along.
  apply map_ext. intros v. f_equal. apply W2.
Qed.
