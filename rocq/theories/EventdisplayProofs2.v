(** * Proofs about pyirf/io/eventdisplay.py: the number of showers *)
From Coq Require Import String Reals List Bool ZArith Arith Lia Lra Permutation Sorted.
From Verif Require Import Num Numpy Sort Table Lists Cuts PercentileProofs Simulations Benchmarks Gadf Eventdisplay SpecEventdisplay EventdisplayProofs.
Import ListNotations.
Open Scope R_scope.
Open Scope string_scope.

Definition proper (k : key) : Prop := let '(a, b, c) := k in is_nan a = false /\ is_nan b = false /\ is_nan c = false.
Lemma trichotomy a b : is_nan a = false -> is_nan b = false ->
  (nlt a b = true /\ nlt b a = false /\ neqb a b = false /\ neqb b a = false /\ nle a b = true /\ nle b a = false) \/
  (a = b /\ nlt a b = false /\ neqb a b = true /\ nle a b = true) \/
  (nlt b a = true /\ nlt a b = false /\ neqb a b = false /\ neqb b a = false /\ nle b a = true /\ nle a b = false).
Proof.
  destruct a as [x| | |], b as [y| | |]; intros H1 H2; try discriminate; cbn; try tauto.
  destruct (Rtotal_order x y) as [H|[H|H]].
  - left. repeat split; try (apply Rltb_true; lra); try (apply Rltb_false; lra); try (apply Rleb_true; lra); try (apply Rleb_false; lra);
    (destruct (Reqb _ _) eqn:E; [apply Reqb_true in E; lra|auto]).
  - right; left. subst. repeat split; try (apply Rltb_false; lra); try (apply Rleb_true; lra). apply Reqb_true; auto.
  - right; right. repeat split; try (apply Rltb_true; lra); try (apply Rltb_false; lra); try (apply Rleb_true; lra); try (apply Rleb_false; lra);
    (destruct (Reqb _ _) eqn:E; [apply Reqb_true in E; lra|auto]).
Qed.
Lemma nlt_trans_ a b c : nlt a b = true -> nlt b c = true -> nlt a c = true.
Proof.
  destruct a, b, c; cbn; try discriminate; auto. rewrite !Rltb_true. lra.
Qed.
Lemma nle_trans_ a b c : nle a b = true -> nle b c = true -> nle a c = true.
Proof.
  destruct a, b, c; cbn; try discriminate; auto. rewrite !Rleb_true. lra.
Qed.
Lemma neqb_eq a b : neqb a b = true -> a = b.
Proof. destruct a, b; cbn; try discriminate; auto. intros H. apply Reqb_true in H. congruence. Qed.
Lemma neqb_refl a : is_nan a = false -> neqb a a = true.
Proof. destruct a; cbn; try discriminate; auto. intros _. apply Reqb_true. auto. Qed.
Lemma key_eqb_eq a b : key_eqb a b = true -> a = b.
Proof.
  destruct a as [[a1 a2] a3], b as [[b1 b2] b3]. unfold key_eqb. rewrite !andb_true_iff. intros ((H1 & H2) & H3). apply neqb_eq in H1, H2, H3. congruence.
Qed.
Lemma key_eqb_refl a : proper a -> key_eqb a a = true.
Proof. destruct a as [[a1 a2] a3]. intros (H1 & H2 & H3). unfold key_eqb. rewrite !neqb_refl by auto. auto. Qed.
Lemma key_leb_iff a b : key_leb a b = true <->
  let '(a1, a2, a3) := a in let '(b1, b2, b3) := b in nlt a1 b1 = true \/ (neqb a1 b1 = true /\ (nlt a2 b2 = true \/ (neqb a2 b2 = true /\ nle a3 b3 = true))).
Proof. destruct a as [[a1 a2] a3], b as [[b1 b2] b3]. unfold key_leb. rewrite orb_true_iff, andb_true_iff, orb_true_iff, andb_true_iff. tauto. Qed.
Lemma key_total a b : proper a -> proper b -> key_leb a b = true \/ key_leb b a = true.
Proof.
  rewrite !key_leb_iff. destruct a as [[a1 a2] a3], b as [[b1 b2] b3]. intros (A1 & A2 & A3) (B1 & B2 & B3).
  destruct (trichotomy a1 b1 A1 B1) as [T|[T|T]]; [left; tauto| |right; tauto]. destruct T as (-> & _ & E1 & _).
  destruct (trichotomy a2 b2 A2 B2) as [T|[T|T]]; [left; tauto| |right; tauto]. destruct T as (-> & _ & E2 & _).
  destruct (trichotomy a3 b3 A3 B3) as [T|[T|T]]; [left; tauto| |right; tauto]. destruct T as (-> & _ & E3 & ?). left. tauto.
Qed.
Lemma key_trans a b c : key_leb a b = true -> key_leb b c = true -> key_leb a c = true.
Proof.
  rewrite !key_leb_iff. destruct a as [[a1 a2] a3], b as [[b1 b2] b3], c as [[c1 c2] c3].
  intros [H|(H & [H'|(H' & H'')])] [G|(G & [G'|(G' & G'')])];
    repeat match goal with H : neqb ?x ?y = true |- _ => is_var x; is_var y; pose proof (neqb_eq _ _ H); subst x end;
    try (left; eapply nlt_trans_; eauto; fail); try tauto; right; (split; [auto; fail|]); try (left; eapply nlt_trans_; eauto; fail); try tauto;
    right; split; auto; eapply nle_trans_; eauto.
Qed.
Lemma key_antisym a b : key_leb a b = true -> key_leb b a = true -> a = b.
Proof.
  rewrite !key_leb_iff. destruct a as [[a1 a2] a3], b as [[b1 b2] b3].
  assert (I : forall x y, nlt x y = true -> nlt y x = true -> False) by (intros [x| | |] [y| | |]; cbn; try discriminate; rewrite !Rltb_true; lra).
  assert (I2 : forall x, nlt x x = true -> False) by (intros x H; exact (I x x H H)).
  assert (L : forall x y, nle x y = true -> nle y x = true -> x = y) by (intros [x| | |] [y| | |]; cbn; try discriminate; auto; rewrite !Rleb_true; intros; f_equal; lra).
  intros [H|(H & [H'|(H' & H'')])] [G|(G & [G'|(G' & G'')])]; 
    repeat match goal with H : neqb ?x ?y = true |- _ => is_var x; is_var y; pose proof (neqb_eq _ _ H); subst x end; try solve [exfalso; first [eapply I2; eassumption|eapply I; eassumption]]; try solve [f_equal; apply L; assumption].
Qed.
(** sorting elements on which the order is total *)
Lemma insert_sorted_on {A} (leb : A -> A -> bool) (P : A -> Prop) : (forall a b, P a -> P b -> leb a b = true \/ leb b a = true) ->
  (forall a b c, leb a b = true -> leb b c = true -> leb a c = true) -> forall a l, P a -> Forall P l -> StronglySorted (fun x y => leb x y = true) l -> StronglySorted (fun x y => leb x y = true) (insert leb a l).
Proof.
  intros T Tr a l Pa Pl H. induction H as [|b l Hs IH Hf]; simpl; [repeat constructor|]. inversion Pl; subst.
  destruct (leb a b) eqn:E.
  - constructor; [constructor; auto|]. constructor; auto. rewrite Forall_forall in *. intros x Hx. eapply Tr; eauto.
  - constructor; auto. rewrite Forall_forall in *. intros x Hx.
    assert (Hx' : In x (a :: l)) by (eapply Permutation_in; [symmetry; apply insert_perm|exact Hx]).
    destruct Hx' as [<-|Hx']; [|apply Hf; auto]. destruct (T a b); auto. congruence.
Qed.
Lemma isort_sorted_on {A} (leb : A -> A -> bool) (P : A -> Prop) : (forall a b, P a -> P b -> leb a b = true \/ leb b a = true) ->
  (forall a b c, leb a b = true -> leb b c = true -> leb a c = true) -> forall l, Forall P l -> StronglySorted (fun x y => leb x y = true) (isort leb l).
Proof.
  intros T Tr l H. induction H as [|a l Ha Hl IH]; simpl; [constructor|]. eapply insert_sorted_on; eauto.
  rewrite Forall_forall in *. intros x Hx. apply Hl. eapply Permutation_in; [symmetry; apply isort_perm|exact Hx].
Qed.
Lemma n_groups_sorted l : StronglySorted (fun x y => key_leb x y = true) l -> Forall proper l -> n_distinct l (n_groups l).
Proof.
  induction 1 as [|a l Hs IH Hf]; intros Hp; [exists []; repeat split; auto; constructor|]. inversion Hp; subst.
  destruct l as [|b l]; [exists [a]; repeat split; auto; repeat constructor; auto|].
  destruct (IH ltac:(auto)) as (d & Nd & Id & Ld). change (n_groups (a :: b :: l)) with ((if key_eqb a b then 0 else 1) + n_groups (b :: l))%nat.
  destruct (key_eqb a b) eqn:E.
  - apply key_eqb_eq in E. subst b. exists d. split; auto. split; [|auto]. intros x. rewrite Id. split; [right; auto|]. intros [<-|H]; [left; auto|auto].
  - exists (a :: d). split; [constructor; auto|split; [|rewrite <- Ld; reflexivity]].
    + intros Hi. apply Id in Hi. destruct Hi as [->|Hi]; [rewrite key_eqb_refl in E by auto; discriminate|].
      inversion Hs as [|? ? Hs' Hf']; subst. rewrite Forall_forall in Hf, Hf'. assert (a = b) by (apply key_antisym; [apply Hf; left; auto|apply Hf'; auto]). subst. rewrite key_eqb_refl in E by auto. discriminate.
    + intros x. cbn [In]. rewrite Id. cbn [In]. tauto.
Qed.
Lemma n_distinct_perm {A} (l l' : list A) n : Permutation l l' -> n_distinct l n -> n_distinct l' n.
Proof.
  intros P (d & H1 & H2 & H3). exists d. split; auto. split; auto. intros x. rewrite H2. split; intros Hx; [exact (Permutation_in _ P Hx)|exact (Permutation_in _ (Permutation_sym P) Hx)].
Qed.
Lemma n_distinct_unique {A} (l : list A) n m : n_distinct l n -> n_distinct l m -> n = m.
Proof.
  intros (d & H1 & H2 & <-) (d' & H1' & H2' & <-).
  assert (I : forall d d' : list A, NoDup d -> (forall x, In x d -> In x d') -> (List.length d <= List.length d')%nat) by (intros; apply NoDup_incl_length; auto).
  apply Nat.le_antisymm; apply I; auto; intros x; rewrite H2, H2'; auto.
Qed.
Lemma n_groups_spec l : Forall proper l -> n_distinct l (n_groups (isort key_leb l)).
Proof.
  intros H. eapply n_distinct_perm; [symmetry; apply isort_perm|]. apply n_groups_sorted.
  - apply (isort_sorted_on key_leb proper); auto; [apply key_total|apply key_trans].
  - rewrite Forall_forall in *. intros x Hx. apply H. eapply Permutation_in; [symmetry; apply isort_perm|exact Hx].
Qed.
Lemma runs_spec t rows : can_rename t -> pointings t rows -> rows <> [] ->
  exists n, n_distinct rows n /\ number_of_runs (map (fun kc => (new_name COLUMN_MAP (fst kc), snd kc)) t) = Ok (Z.of_nat n).
Proof.
  intros Hc (obs & az & alt & G1 & G2 & G3 & L1 & L2 & L3 & Hr) Hne.
  assert (K : combine (combine (a_val obs) (a_val az)) (a_val alt) = rows).
  { apply nth_ext_eq; [rewrite !combine_length; lia|]. intros i x y Hx Hy.
    assert (Hi : (i < List.length rows)%nat) by (apply nth_some_lt in Hy; auto).
    destruct (nth_some_ex (a_val obs) i) as (o & Ho); [lia|]. destruct (nth_some_ex (a_val az) i) as (z & Hz); [lia|]. destruct (nth_some_ex (a_val alt) i) as (a & Ha); [lia|].
    destruct (Hr i o z a Ho Hz Ha) as (E & _).
    assert (C : forall {A B} (l : list A) (l' : list B) i a b, nth_error l i = Some a -> nth_error l' i = Some b -> nth_error (combine l l') i = Some (a, b)).
    { clear. intros A B. induction l as [|x l IH]; intros [|y l'] [|i] a b H1 H2; cbn in *; try discriminate; [congruence|auto]. }
    rewrite (C _ _ _ _ i (o, z) a) in Hx; auto. congruence. }
  exists (n_groups (isort key_leb rows)). split.
  - apply n_groups_spec. rewrite Forall_forall. intros k Hk. apply In_nth_error in Hk. destruct Hk as (i & Hi).
    assert (Hlt : (i < List.length rows)%nat) by (apply nth_some_lt in Hi; auto).
    destruct (nth_some_ex (a_val obs) i) as (o & Ho); [lia|]. destruct (nth_some_ex (a_val az) i) as (z & Hz); [lia|]. destruct (nth_some_ex (a_val alt) i) as (a & Ha); [lia|].
    destruct (Hr i o z a Ho Hz Ha) as (E & N). pose proof (eq_trans (eq_sym Hi) E) as Q. injection Q as ->. exact N.
  - unfold number_of_runs, keys_of, column.
    rewrite (renamed_get t "OBS_ID" "obs_id"), (renamed_get t "PNT_AZ" "pointing_az"), (renamed_get t "PNT_ALT" "pointing_alt");
      try (apply ed_map; constructor); try (eapply Hc; constructor). rewrite G1, G2, G3. cbn [rbind]. rewrite K. destruct rows; [congruence|]. reflexivity.
Qed.
Lemma runs_empty t : can_rename t -> pointings t [] -> number_of_runs (map (fun kc => (new_name COLUMN_MAP (fst kc), snd kc)) t) = Err IndexError.
Proof.
  intros Hc (obs & az & alt & G1 & G2 & G3 & L1 & L2 & L3 & Hr). unfold number_of_runs, keys_of, column.
  rewrite (renamed_get t "OBS_ID" "obs_id"), (renamed_get t "PNT_AZ" "pointing_az"), (renamed_get t "PNT_ALT" "pointing_alt");
      try (apply ed_map; constructor); try (eapply Hc; constructor). rewrite G1, G2, G3. cbn [rbind]. destruct (a_val obs); [|discriminate]. reflexivity.
Qed.
Lemma value_at x i u v : header_value x i u v -> quantity_at x i u = Ok v.
Proof.
  intros (r & Hr & H). unfold quantity_at. rewrite Hr. destruct (snd x) as [w|]; [|congruence]. destruct H as (Hd & ->). rewrite Hd, Nat.eqb_refl. auto.
Qed.
Lemma nsum_fin rs : nsum (map Fin rs) = Fin (rsum rs).
Proof. induction rs as [|r rs IH]; cbn; auto. unfold nsum in IH. rewrite IH. reflexivity. Qed.
Lemma truncZ_spec r : 0 <= r -> IZR (truncZ r) <= r < IZR (truncZ r) + 1.
Proof. intros H. unfold truncZ. replace (Rleb 0 r) with true by (symmetry; apply Rleb_true; auto). pose proof (Rfloor_spec r). lra. Qed.
Section Read.
  Context (events sim_events : columns) (rows : list (num * num * num)) (rs : list R) (run : run_header) (later : list run_header) (emin emax impact vmin vmax : R).
  Context (Hc : can_rename events) (Hp : pointings events rows) (Hh : histogram sim_events rs).
  Context (H1 : header_value (E_range run) 0 u_TeV emin) (H2 : header_value (E_range run) 1 u_TeV emax) (H3 : header_value (core_range run) 1 u_m impact)
    (H4 : header_value (viewcone run) 0 u_deg vmin) (H5 : header_value (viewcone run) 1 u_deg vmax).
  Lemma read_ok use_histogram : rows <> [] -> run_index run <= -1 -> exists t sim n,
    read_eventdisplay_fits events sim_events (run :: later) use_histogram = Ok (t, sim) /\ renamed events t /\ n_distinct rows n /\
    (use_histogram = false -> Simulations.n_showers sim = (Z.of_nat n * num_use run * num_showers run)%Z) /\
    (use_histogram = true -> (forall r, In r rs -> 0 <= r) -> IZR (Simulations.n_showers sim) <= rsum rs < IZR (Simulations.n_showers sim) + 1) /\
    energy_min sim = emin /\ energy_max sim = emax /\ max_impact sim = impact /\ spectral_index sim = run_index run /\
    viewcone_min sim = vmin * PI / 180 /\ viewcone_max sim = vmax * PI / 180.
  Proof.
    intros Hne Hi. destruct (proj1 (rename_spec events) Hc) as (t & Et & Rt & Dt). destruct (runs_spec events rows Hc Hp Hne) as (n & Dn & En). rewrite <- Dt in En.
    exists t. eexists. exists n. split.
    { unfold read_eventdisplay_fits. rewrite Et. cbn [rbind]. rewrite En. cbn [rbind]. destruct Hh as (u & Hu). unfold column. rewrite Hu. cbn [rbind a_val]. rewrite nsum_fin. cbn [int_of rbind].
      rewrite (value_at _ _ _ _ H1), (value_at _ _ _ _ H2), (value_at _ _ _ _ H3), (value_at _ _ _ _ H4), (value_at _ _ _ _ H5). cbn [rbind].
      unfold simulated_events_info. replace (Rltb (-1) (run_index run)) with false by (symmetry; apply Rltb_false; lra). cbn [rbind]. reflexivity. }
    split; [exact Rt|]. split; [exact Dn|]. cbn [Simulations.n_showers energy_min energy_max max_impact spectral_index viewcone_min viewcone_max]. split; [intros ->; auto|].
    split; [intros -> Hpos; apply truncZ_spec; apply rsum_nonneg; auto|]. repeat split; auto; field.
  Qed.
  Lemma read_spectrum use_histogram : rows <> [] -> -1 < run_index run -> read_eventdisplay_fits events sim_events (run :: later) use_histogram = Err ValueError.
  Proof.
    intros Hne Hi. destruct (proj1 (rename_spec events) Hc) as (t & Et & Rt & Dt). destruct (runs_spec events rows Hc Hp Hne) as (n & Dn & En). rewrite <- Dt in En.
    unfold read_eventdisplay_fits. rewrite Et. cbn [rbind]. rewrite En. cbn [rbind]. destruct Hh as (u & Hu). unfold column. rewrite Hu. cbn [rbind a_val]. rewrite nsum_fin. cbn [int_of rbind].
    rewrite (value_at _ _ _ _ H1), (value_at _ _ _ _ H2), (value_at _ _ _ _ H3), (value_at _ _ _ _ H4), (value_at _ _ _ _ H5). cbn [rbind].
    unfold simulated_events_info. replace (Rltb (-1) (run_index run)) with true by (symmetry; apply Rltb_true; lra). reflexivity.
  Qed.
  Lemma read_no_events use_histogram : rows = [] -> read_eventdisplay_fits events sim_events (run :: later) use_histogram = Err IndexError.
  Proof.
    intros ->. destruct (proj1 (rename_spec events) Hc) as (t & Et & Rt & Dt). pose proof (runs_empty events Hc Hp) as En. rewrite <- Dt in En.
    unfold read_eventdisplay_fits. rewrite Et. cbn [rbind]. rewrite En. reflexivity.
  Qed.
  (** number of showers of the histogram: the sum, if it is an integer *)
  Lemma read_integer_histogram t sim k : read_eventdisplay_fits events sim_events (run :: later) true = Ok (t, sim) -> rsum rs = IZR k -> (0 <= k)%Z -> Simulations.n_showers sim = k.
  Proof.
    intros H Hk Hpos. unfold read_eventdisplay_fits in H. destruct (rename_all events COLUMN_MAP) as [e|]; [|discriminate]. cbn [rbind] in H. destruct (number_of_runs e); [|discriminate]. cbn [rbind] in H.
    destruct Hh as (u & Hu). unfold column in H. rewrite Hu in H. cbn [rbind a_val] in H. rewrite nsum_fin in H. cbn [int_of rbind] in H.
    rewrite (value_at _ _ _ _ H1), (value_at _ _ _ _ H2), (value_at _ _ _ _ H3), (value_at _ _ _ _ H4), (value_at _ _ _ _ H5) in H. cbn [rbind] in H.
    unfold simulated_events_info in H. destruct (Rltb (-1) (run_index run)); [discriminate|]. cbn [rbind] in H. injection H as _ <-. cbn [Simulations.n_showers].
    apply IZR_le in Hpos. pose proof (truncZ_spec (rsum rs) ltac:(lra)) as T. rewrite Hk in T. assert (A : IZR k < IZR (truncZ (rsum rs) + 1)) by (rewrite plus_IZR, Hk; lra).
    assert (B : IZR (truncZ (rsum rs)) <= IZR k) by (rewrite Hk; lra). apply le_IZR in B. apply lt_IZR in A. lia.
  Qed.
End Read.
Lemma read_names events sim_events run later use_histogram : ~ can_rename events -> read_eventdisplay_fits events sim_events (run :: later) use_histogram = Err KeyError.
Proof. intros H. unfold read_eventdisplay_fits. rewrite (proj2 (rename_spec events) H). reflexivity. Qed.
Lemma read_no_header events sim_events use_histogram : read_eventdisplay_fits events sim_events [] use_histogram = Err IndexError.
Proof. reflexivity. Qed.
