(** * CutOptimizationProofs *)
From Coq Require Import String Reals List Bool ZArith Lia Lra Psatz.
From Verif Require Import Num Numpy Table Binning SpecBinning BinningProofs HistProofs BinningProofs2 Percentile Cuts SpecCuts CutsProofs CutsProofs2
  Utils UtilsProofs Sensitivity SpecSensitivity SensitivityProofs3 SensitivityProofs4 CutOptimization SpecCutOptimization.
Import ListNotations.
Open Scope R_scope.

Lemma np_max_largest l m : np_max l = Ok m -> largest_of l m.
Proof.
  destruct l as [|x l]; [discriminate|]. unfold np_max. intros H. injection H as <-. revert x.
  induction l as [|y l IH]; intros x; cbn [fold_left].
  - destruct (is_nan x) eqn:E.
    + left. destruct x; try discriminate. split; auto. left; auto.
    + right. split; [intros [H|[]]; subst; discriminate|]. split; [left; auto|]. intros z [<-|[]]. destruct x; cbn; auto; try discriminate. apply Rleb_true. lra.
  - destruct (IH (nmax x y)) as [[H ->]|(H1 & H2 & H3)].
    + left. split; auto. destruct H as [H|H]; [|right; right; auto]. destruct x, y; cbn in H; try discriminate; auto; try (left; reflexivity); try (right; left; reflexivity); destruct (Rleb _ _) in H; discriminate.
    + assert (N : x <> NaN /\ y <> NaN) by (split; intros ->; apply H1; left; [reflexivity|destruct x; reflexivity]).
      right. split; [intros [H|[H|H]]; [apply (proj1 N H)|apply (proj2 N H)|apply H1; right; auto]|].
      assert (C : (nmax x y = x /\ nle y x = true) \/ (nmax x y = y /\ nle x y = true)).
      { destruct N. destruct x, y; cbn; try tauto. unfold nmax. cbn. destruct (Rleb_spec r0 r) as [Hle|Hle]; [left; split; auto|right; split; auto; apply Rleb_true; lra]. }
      split. { destruct H2 as [<-|H2]; [destruct C as [[-> _]|[-> _]]; [left; auto|right; left; auto]|right; right; auto]. }
      pose proof (H3 _ (or_introl eq_refl)) as Q. intros z [<-|[<-|Hz]]; [| |apply H3; right; auto];
        destruct C as [[Ec Hc]|[Ec Hc]]; rewrite Ec in *; auto; eapply nle_trans; eauto.
Qed.
Lemma np_min_smallest l m : np_min l = Ok m -> smallest_of l m.
Proof.
  destruct l as [|x l]; [discriminate|]. unfold np_min. intros H. injection H as <-. revert x.
  induction l as [|y l IH]; intros x; cbn [fold_left].
  - destruct (is_nan x) eqn:E.
    + left. destruct x; try discriminate. split; auto. left; auto.
    + right. split; [intros [H|[]]; subst x; discriminate E|]. split; [left; auto|]. intros z [<-|[]]. destruct x; cbn; auto; try discriminate. apply Rleb_true. lra.
  - destruct (IH (nmin x y)) as [[H ->]|(H1 & H2 & H3)].
    + left. split; auto. destruct H as [H|H]; [|right; right; auto]. destruct x, y; cbn in H; try discriminate; auto; try (left; reflexivity); try (right; left; reflexivity); destruct (Rleb _ _) in H; discriminate.
    + assert (N : x <> NaN /\ y <> NaN) by (split; intros ->; apply H1; left; [reflexivity|destruct x; reflexivity]).
      right. split; [intros [H|[H|H]]; [apply (proj1 N H)|apply (proj2 N H)|apply H1; right; auto]|].
      assert (C : (nmin x y = x /\ nle x y = true) \/ (nmin x y = y /\ nle y x = true)).
      { destruct N. destruct x, y; cbn; try tauto. unfold nmin. cbn. destruct (Rleb_spec r r0) as [Hle|Hle]; [left; split; auto|right; split; auto; apply Rleb_true; lra]. }
      split. { destruct H2 as [<-|H2]; [destruct C as [[-> _]|[-> _]]; [left; auto|right; left; auto]|right; right; auto]. }
      pose proof (H3 _ (or_introl eq_refl)) as Q. intros z [<-|[<-|Hz]]; [| |apply H3; right; auto];
        destruct C as [[Ec Hc]|[Ec Hc]]; rewrite Ec in *; auto; eapply nle_trans; eauto.
Qed.
Lemma fill_extreme (b : bool) l m : (if b then np_min l else np_max l) = Ok m -> if b then smallest_of l m else largest_of l m.
Proof. destruct b; [apply np_min_smallest|apply np_max_largest]. Qed.


(** ** nanargmin *)
Lemma nle_refl x : is_nan x = false -> nle x x = true.
Proof. destruct x; simpl; intros; try discriminate; auto; rsolve; auto. Qed.
Lemma nlt_nle x y : nlt x y = true -> nle x y = true.
Proof. destruct x, y; simpl; intros; try discriminate; auto; rcmp; rsolve; auto; lra. Qed.
Lemma not_nlt_nle x y : is_nan x = false -> is_nan y = false -> nlt x y = false -> nle y x = true.
Proof. destruct x, y; simpl; intros; try discriminate; auto; rcmp; rsolve; auto; lra. Qed.
Lemma argmin_from_spec l : forall i best v full,
  (forall x, In x full -> is_nan x = false) ->
  (i = length full - length l)%nat -> (length l <= length full)%nat ->
  (forall j x, nth_error l j = Some x -> nth_error full (i + j) = Some x) ->
  nth_error full best = Some v -> (best < i)%nat ->
  (forall j x, (j < i)%nat -> nth_error full j = Some x -> nle v x = true) ->
  (forall j x, (j < best)%nat -> nth_error full j = Some x -> nlt v x = true) ->
  let r := argmin_from i best v l in
  exists w, nth_error full r = Some w /\
    (forall j x, nth_error full j = Some x -> nle w x = true) /\
    (forall j x, (j < r)%nat -> nth_error full j = Some x -> nlt w x = true).
Proof.
  induction l as [|x l IH]; intros i best v full Hn Hi Hlen Hl Hb Hbi H1 H2.
  - simpl. exists v. split; auto. split; auto. intros j x Hj. apply (H1 j); auto.
    assert (j < length full)%nat by (apply nth_error_Some; rewrite Hj; discriminate). simpl in Hi. lia.
  - cbn [argmin_from]. assert (Hx : nth_error full i = Some x) by (rewrite <- (Nat.add_0_r i); apply Hl; auto).
    simpl in Hlen, Hi.
    assert (Hnx : is_nan x = false) by (apply Hn; eapply nth_error_In; eauto).
    assert (Hnv : is_nan v = false) by (apply Hn; eapply nth_error_In; eauto).
    destruct (nlt x v) eqn:E.
    + apply (IH (S i) i x full); auto; try lia.
      * intros j y Hj. replace (S i + j)%nat with (i + S j)%nat by lia. apply Hl; auto.
      * intros j y Hj Hy. destruct (Nat.eq_dec j i) as [->|Hne]; [rewrite Hx in Hy; injection Hy as <-; apply nle_refl; auto|].
        assert (Hvy : nle v y = true) by (apply (H1 j); auto; lia).
        apply nlt_nle in E. eapply nle_trans; eauto.
      * intros j y Hj Hy. assert (Hvy : nle v y = true) by (apply (H1 j); auto; lia). eapply nlt_le_trans; eauto.
    + apply (IH (S i) best v full); auto; try lia.
      * intros j y Hj. replace (S i + j)%nat with (i + S j)%nat by lia. apply Hl; auto.
      * intros j y Hj Hy. destruct (Nat.eq_dec j i) as [->|Hne]; [|apply (H1 j); auto; lia].
        rewrite Hx in Hy. injection Hy as <-. apply not_nlt_nle; auto.
Qed.

Lemma nan_as_inf_nan x : is_nan (nan_as_inf x) = false.
Proof. unfold nan_as_inf. destruct x; auto. Qed.
Lemma nanargmin_spec l : l <> [] -> exists w, nth_error (map nan_as_inf l) (nanargmin l) = Some w /\
  (forall j x, nth_error (map nan_as_inf l) j = Some x -> nle w x = true) /\
  (forall j x, (j < nanargmin l)%nat -> nth_error (map nan_as_inf l) j = Some x -> nlt w x = true).
Proof.
  intros Hne. unfold nanargmin. set (m := map nan_as_inf l).
  assert (Hm : forall x, In x m -> is_nan x = false).
  { intros x Hx. apply in_map_iff in Hx as (y & <- & _). apply nan_as_inf_nan. }
  assert (Hml : m <> []) by (unfold m; destruct l; [congruence|discriminate]).
  destruct m as [|x m'] eqn:Em; [congruence|].
  apply (argmin_from_spec m' 1 0 x (x :: m')); auto; try (cbn [length]; lia).
  - intros j y Hj. replace j with 0%nat by lia. simpl. intros E; injection E as <-. apply nle_refl. apply Hm; left; auto.
Qed.
Lemma nan_as_inf_id x : x <> NaN -> nan_as_inf x = x.
Proof. destruct x; auto; congruence. Qed.
(** the value chosen by the model *)
Definition chosen (l : list num) : nat := if forallb is_nan l then 0%nat else nanargmin l.
Lemma chosen_best l : (exists r, In (Fin r) l) \/ In NInf l \/ (forall x, In x l -> x = NaN) ->
  best_choice l (chosen l).
Proof.
  intros H. unfold chosen. destruct (forallb is_nan l) eqn:E.
  - apply best_all_nan. intros x Hx. rewrite forallb_forall in E. specialize (E x Hx). destruct x; try discriminate; auto.
  - assert (Hex : exists x, In x l /\ x <> NaN /\ x <> PInf).
    { destruct H as [[r Hr]|[H|H]].
      - exists (Fin r). split; auto. split; discriminate.
      - exists NInf. split; auto. split; discriminate.
      - exfalso. assert (forallb is_nan l = true); [|congruence]. apply forallb_forall. intros x Hx. rewrite (H x Hx). auto. }
    destruct Hex as (x0 & Hx0 & Hn0 & Hp0).
    destruct (nanargmin_spec l) as (w & Hw & Hmin & Hfirst). { intros ->; destruct Hx0. }
    rewrite nth_error_map in Hw. destruct (nth_error l (nanargmin l)) as [v|] eqn:Ev; [|discriminate]. simpl in Hw. injection Hw as <-.
    assert (Hv : v <> NaN).
    { intros ->. apply In_nth_error in Hx0 as [j Hj].
      specialize (Hmin j x0). rewrite nth_error_map, Hj in Hmin. simpl in Hmin. rewrite nan_as_inf_id in Hmin by auto.
      specialize (Hmin eq_refl). unfold nan_as_inf in Hmin. simpl in Hmin. destruct x0; simpl in Hmin; try discriminate; congruence. }
    rewrite nan_as_inf_id in * by auto.
    apply (best_value l _ v); auto.
    + intros i x Hx Hxn. apply (Hmin i). rewrite nth_error_map, Hx. simpl. rewrite nan_as_inf_id; auto.
    + intros i x Hi Hx Hxn. apply (Hfirst i); auto. rewrite nth_error_map, Hx. simpl. rewrite nan_as_inf_id; auto.
Qed.
Lemma chosen_lt l : l <> [] -> (chosen l < length l)%nat.
Proof.
  intros H. unfold chosen. destruct (forallb is_nan l). { destruct l; [congruence|simpl; lia]. }
  destruct (nanargmin_spec l H) as (w & Hw & _). apply nth_lt in Hw. rewrite map_length in Hw. auto.
Qed.
Lemma nanargmin_quirk : chosen [NaN; PInf] = 0%nat.
Proof. reflexivity. Qed.

(** ** rows *)
Lemma entry_nums c k v : entry c k v -> nth_error (col_nums c) k = Some v.
Proof. destruct c; simpl; auto; try tauto. intros (z & Hz & ->). rewrite nth_error_map, Hz. auto. Qed.
Lemma nums_entry c k v : nth_error (col_nums c) k = Some v -> match c with CN _ | CZ _ => True | _ => False end -> entry c k v.
Proof.
  destruct c; simpl; auto; try tauto. intros H _. rewrite nth_error_map in H. destruct (nth_error l k); simpl in H; [|discriminate].
  injection H as <-. eauto.
Qed.
Lemma np_index_inv {A} (l : list A) k a : np_index l (Z.of_nat k) = Ok a -> nth_error l k = Some a.
Proof.
  unfold np_index. destruct (Z.ltb_spec (Z.of_nat k) 0); [lia|].
  destruct (_ || _); [discriminate|]. rewrite Nat2Z.id. destruct (nth_error l k); congruence.
Qed.
Lemma row_at_spec t k row : row_at t k = Ok row -> length row = length t /\
  forall i n c, nth_error t i = Some (n, c) -> exists v, nth_error row i = Some v /\ nth_error (col_nums c) k = Some v.
Proof.
  intros H. destruct (rmap_nth _ _ _ H) as [Hl Hn]. split; auto.
  intros i n c Hi. destruct (Hn i _ Hi) as (v & Hv & Ev). exists v. split; auto. apply np_index_inv; auto.
Qed.
Lemma set_row_spec t k row t' : set_row t k row = Ok t' ->
  length t' = length t /\ colnames t' = colnames t /\ length row = length t /\
  forall i n c, nth_error t i = Some (n, c) -> exists v, nth_error row i = Some v /\
    nth_error t' i = Some (n, CN (list_set (col_nums c) k v)) /\ (k < length (col_nums c))%nat.
Proof.
  unfold set_row. destruct (Nat.eqb_spec (length t) (length row)) as [Hl|]; cbn [negb]; [|discriminate].
  destruct (forallb _ t) eqn:Ef; [|discriminate]. intros H; injection H as <-.
  split; [rewrite zipwith_length; lia|]. split.
  { clear Ef. revert row Hl. induction t as [|[n c] t IH]; intros [|v row] Hl; try discriminate; simpl; auto. f_equal. apply IH. simpl in Hl; lia. }
  split; auto. intros i n c Hi. destruct (nth_error_ex row i) as [v Hv]. { apply nth_lt in Hi; lia. }
  exists v. split; auto. split.
  - apply (zipwith_nth (fun p v => (fst p, CN (list_set (col_nums (snd p)) k v))) _ _ _ (n, c) v); auto.
  - rewrite forallb_forall in Ef. specialize (Ef (n, c) (nth_error_In _ _ Hi)). apply Nat.ltb_lt in Ef. exact Ef.
Qed.
Lemma assemble_spec sens best : forall i t t', assemble sens best i t = Ok t' ->
  length t' = length t /\ colnames t' = colnames t /\
  (forall c n k, (k < i)%nat -> forall col col', nth_error t c = Some (n, col) -> nth_error t' c = Some (n, col') ->
     nth_error (col_nums col') k = nth_error (col_nums col) k) /\
  (forall k b, nth_error best k = Some b -> exists s, nth_error sens b = Some s /\ length s = length t /\
     forall c n cl n' cl', nth_error t' c = Some (n, cl) -> nth_error s c = Some (n', cl') ->
       exists v, nth_error (col_nums cl) (i + k) = Some v /\ nth_error (col_nums cl') (i + k) = Some v) /\
  (best <> [] -> forall c n cl, nth_error t' c = Some (n, cl) -> exists l, cl = CN l).
Proof.
  induction best as [|b best IH]; intros i t t' H; cbn [assemble] in H.
  - injection H as <-. repeat split; auto.
    + intros c n k _ col col' H1 H2. rewrite H1 in H2. injection H2 as <-. auto.
    + intros [|k] b Hb; discriminate.
    + congruence.
  - destruct (np_index sens (Z.of_nat b)) as [s|] eqn:Es; cbn [rbind] in H; [|discriminate].
    destruct (row_at s i) as [row|] eqn:Er; cbn [rbind] in H; [|discriminate].
    destruct (set_row t i row) as [t1|] eqn:Et; cbn [rbind] in H; [|discriminate].
    apply np_index_inv in Es. destruct (row_at_spec _ _ _ Er) as [Lr Hr]. destruct (set_row_spec _ _ _ _ Et) as (L1 & N1 & Lrow & H1).
    destruct (IH _ _ _ H) as (L2 & N2 & Hold & Hnew & Hcn).
    assert (Hpair : forall c n cl, nth_error t' c = Some (n, cl) -> exists cl0 v, nth_error t c = Some (n, cl0) /\
       nth_error row c = Some v /\ nth_error t1 c = Some (n, CN (list_set (col_nums cl0) i v)) /\ (i < length (col_nums cl0))%nat).
    { intros c n cl Hc. destruct (nth_error_ex t c) as [[n0 cl0] Hc0]. { rewrite <- L1, <- L2. apply nth_lt in Hc; auto. }
      destruct (H1 _ _ _ Hc0) as (v & Hv & Hv1 & Hv2).
      assert (n0 = n). { assert (nth_error (colnames t') c = Some n) by (unfold colnames; rewrite nth_error_map, Hc; auto).
        assert (nth_error (colnames t) c = Some n0) by (unfold colnames; rewrite nth_error_map, Hc0; auto). rewrite N2, N1 in H0. congruence. }
      subst n0. exists cl0, v. auto. }
    split; [lia|]. split; [congruence|]. split; [|split].
    + intros c n k Hk col col' Hc Hc'. destruct (Hpair _ _ _ Hc') as (cl0 & v & Hc0 & Hv & Hc1 & Hi).
      rewrite Hc in Hc0; injection Hc0 as <-. rewrite (Hold c n k ltac:(lia) _ _ Hc1 Hc'). cbn [col_nums].
      apply list_set_neq. lia.
    + intros [|k] b' Hb'.
      * injection Hb' as <-. exists s. split; auto. split; [lia|].
        intros c n cl n' cl' Hc Hc'. destruct (Hpair _ _ _ Hc) as (cl0 & v & Hc0 & Hv & Hc1 & Hi).
        destruct (Hr _ _ _ Hc') as (v' & Hv' & Hc''). rewrite Hv in Hv'. injection Hv' as <-. exists v.
        rewrite Nat.add_0_r. split; auto. rewrite (Hold c n i ltac:(lia) _ _ Hc1 Hc). cbn [col_nums]. apply list_set_eq; auto.
      * cbn [nth_error] in Hb'. destruct (Hnew k b' Hb') as (s' & Hs' & Ls' & Hs2). exists s'. split; auto. split; [lia|].
        intros. replace (i + S k)%nat with (S i + k)%nat by lia. eapply Hs2; eauto.
    + intros _ c n cl Hc. destruct (Hpair _ _ _ Hc) as (cl0 & v & Hc0 & Hv & Hc1 & Hi).
      destruct best as [|b2 best2]; [|apply (Hcn ltac:(discriminate) c n cl Hc)].
      cbn [assemble] in H. injection H as <-. rewrite Hc1 in Hc. injection Hc as <-. eauto.
Qed.

(** ** C27 *)
Lemma chosen_total l : l <> [] -> best_choice l (chosen l) \/ nothing_finite l (chosen l).
Proof.
  intros Hne. destruct (existsb (fun x => match x with Fin _ | NInf => true | _ => false end) l) eqn:E.
  - left. apply chosen_best. apply existsb_exists in E as (x & Hx & Ex). destruct x; try discriminate; eauto.
  - assert (Hall : forall x, In x l -> x = NaN \/ x = PInf).
    { intros x Hx. destruct x; auto; exfalso; assert (existsb (fun x => match x with Fin _ | NInf => true | _ => false end) l = true);
        try congruence; apply existsb_exists; eexists; split; eauto. }
    destruct (forallb is_nan l) eqn:Ef.
    { left. apply chosen_best. right; right. intros x Hx. rewrite forallb_forall in Ef. specialize (Ef x Hx). destruct x; try discriminate; auto. }
    assert (Hp : In PInf l).
    { assert (Hx : exists x, In x l /\ is_nan x = false).
      { clear -Ef. induction l as [|a l IH]; [discriminate|]. simpl in Ef. destruct (is_nan a) eqn:Ea.
        - destruct (IH Ef) as (x & Hx & Hn). exists x. split; auto. right; auto.
        - exists a. split; auto. left; auto. }
      destruct Hx as (x & Hx & Hn). destruct (Hall x Hx) as [->| ->]; auto. discriminate. }
    destruct (nanargmin_spec l Hne) as (w & Hw & Hmin & Hfirst).
    assert (Hmap : forall j x, nth_error (map nan_as_inf l) j = Some x -> x = PInf).
    { intros j x Hj. rewrite nth_error_map in Hj. destruct (nth_error l j) as [y|] eqn:Ey; [|discriminate]. simpl in Hj. injection Hj as <-.
      destruct (Hall y (nth_error_In _ _ Ey)) as [->| ->]; auto. }
    assert (E0 : nanargmin l = 0%nat).
    { destruct (nanargmin l) as [|j] eqn:Ej; auto. exfalso. destruct l as [|a l]; [congruence|].
      specialize (Hfirst 0%nat (nan_as_inf a) ltac:(lia) eq_refl). rewrite (Hmap _ _ Hw) in Hfirst. 
      destruct (nan_as_inf a); discriminate. }
    unfold chosen. rewrite Ef, E0. destruct l as [|a l]; [congruence|].
    destruct (Hall a (or_introl eq_refl)) as [->| ->].
    + right. repeat split; auto.
    + left. apply (best_value _ 0 PInf); auto; [discriminate| |].
      * intros i x Hi Hx. destruct (Hall x (nth_error_In _ _ Hi)) as [->| ->]; [congruence|reflexivity].
      * intros; lia.
Qed.
Lemma best_of_bin_spec sens k b : best_of_bin sens k = Ok b -> exists vals, length vals = length sens /\ b = chosen vals /\
  forall i s, nth_error sens i = Some s -> exists v c, nth_error vals i = Some v /\ getitem s "relative_sensitivity" = Some c /\
    nth_error (col_nums c) k = Some v.
Proof.
  unfold best_of_bin. intros H. apply rbind_ok in H as (vals & Hv & H). injection H as <-. exists vals.
  destruct (rmap_nth _ _ _ Hv) as [Hl Hn]. split; auto. split; auto. intros i s Hs. destruct (Hn i s Hs) as (v & Hvi & Ev).
  apply rbind_ok in Ev as (c & Hc & Ev). unfold get_col in Hc. destruct (getitem s "relative_sensitivity") as [c'|]; [|discriminate].
  injection Hc as ->. exists v, c. split; auto. split; auto. apply np_index_inv; auto.
Qed.
Lemma select_kept {A} mask (l : list A) : length mask = length l -> kept mask l (select mask l).
Proof.
  revert mask; induction l as [|a l IH]; intros [|b mask] H; try discriminate; [constructor|].
  unfold select. simpl. destruct b; simpl; constructor; apply IH; simpl in H; lia.
Qed.
Lemma kept_fun {A} mask (l s1 s2 : list A) : kept mask l s1 -> kept mask l s2 -> s1 = s2.
Proof. intros H; revert s2. induction H; intros s2 H2; inversion H2; subst; auto. f_equal; auto. Qed.
Lemma kept_select {A} mask (l s : list A) : kept mask l s -> s = select mask l.
Proof. intros H. induction H; auto. unfold select in *. simpl. f_equal; auto. Qed.
Lemma eval_rows_length op cuts values : forall idx valid out, length idx = length values -> length valid = length values ->
  eval_rows op cuts values idx valid = Ok out -> length out = length values.
Proof.
  induction values as [|x values IH]; intros [|z idx] [|v valid] out H1 H2 H; simpl in *; try discriminate; [injection H as <-; auto|].
  apply rbind_ok in H as (b & _ & H). apply rbind_ok in H as (bs & Hbs & H). injection H as <-. simpl. f_equal. eapply IH; eauto.
Qed.
Lemma by_index_length q values idx valid cuts op out : evaluate_binned_cut_by_index q values idx valid cuts op = Ok out ->
  length out = length values.
Proof.
  unfold evaluate_binned_cut_by_index. destruct q; cbn [negb]; [|discriminate].
  destruct (Nat.eqb_spec (length values) (length idx)); cbn [negb]; [|discriminate].
  destruct (Nat.eqb_spec (length valid) (length idx)); cbn [negb]; [|discriminate].
  apply eval_rows_length; lia.
Qed.
Lemma binned_length q values xs low high u cuts op out : evaluate_binned_cut q values xs low high u cuts op = Ok out -> length out = length values.
Proof.
  unfold evaluate_binned_cut. destruct q; cbn [negb]; [|discriminate]. destruct (rev high); [discriminate|].
  intros H. apply rbind_ok in H as (iv & _ & H). apply by_index_length in H. auto.
Qed.
Lemma percentile_cut_edges values xs bins fill pc lo hi sm me t :
  calculate_percentile_cut false values xs (raw bins) fill pc lo hi sm me = Ok t ->
  ct_low t = but_last bins /\ ct_high t = tl bins /\ ct_center t = bin_center bins.
Proof.
  unfold calculate_percentile_cut. intros H. apply rbind_ok in H as (f & _ & H). apply rbind_ok in H as (lo' & _ & H).
  apply rbind_ok in H as (hi' & _ & H). apply rbind_ok in H as (iv & _ & H).
  destruct (negb _); [discriminate|]. destruct (negb _); [discriminate|].
  apply rbind_ok in H as (f' & _ & H). apply rbind_ok in H as (nc & _ & H). apply rbind_ok in H as (c & _ & H).
  injection H as <-. auto.
Qed.
Lemma Forall2_nth {A B} (P : A -> B -> Prop) l m : length l = length m ->
  (forall i a b, nth_error l i = Some a -> nth_error m i = Some b -> P a b) -> Forall2 P l m.
Proof.
  revert m; induction l as [|a l IH]; intros [|b m] Hl H; try discriminate; constructor.
  - apply (H 0%nat); auto.
  - apply IH; [simpl in Hl; lia|]. intros i; apply (H (S i)).
Qed.
(** columns of a sensitivity table are numeric if those of the background table are *)
Lemma numeric_get t k c : numeric t -> getitem t k = Some c -> match c with CN _ | CZ _ => True | _ => False end.
Proof.
  intros H. induction t as [|[k' c'] t IH]; simpl; intros Hg; [discriminate|].
  destruct (String.eqb k k'); [injection Hg as <-; apply (H (k', c')); left; auto|]. apply IH; auto. intros p Hp; apply H; right; auto.
Qed.
Lemma numeric_set t k c : numeric t -> match c with CN _ | CZ _ => True | _ => False end -> numeric (setitem t k c).
Proof.
  intros H Hc. induction t as [|[k' c'] t IH]; simpl; [intros p [<-|[]]; auto|].
  destruct (String.eqb k k').
  - intros p [<-|Hp]; auto. apply H; right; auto.
  - intros p [<-|Hp]; [apply (H (k', c')); left; auto|]. apply IH; auto. intros q Hq; apply H; right; auto.
Qed.
Lemma copy_columns_numeric bkg names s t : numeric bkg -> numeric s -> copy_columns bkg names s = Ok t -> numeric t.
Proof.
  revert s; induction names as [|n names IH]; intros s Hb Hs H; cbn [copy_columns] in H; [injection H as <-; auto|].
  apply rbind_ok in H as (c & Hc & H). eapply IH; [exact Hb| |exact H]. apply numeric_set; [exact Hs|].
  unfold get_col in Hc. destruct (getitem bkg n) eqn:E; [|discriminate]. injection Hc as <-. eapply numeric_get; [exact Hb|exact E].
Qed.
Lemma copy_edges_numeric sig ks s t : numeric sig -> numeric s -> copy_edges sig ks s = Ok t -> numeric t.
Proof.
  revert s; induction ks as [|n names IH]; intros s Hb Hs H; cbn [copy_edges] in H; [injection H as <-; auto|].
  apply rbind_ok in H as (c & Hc & H). eapply IH; [exact Hb| |exact H]. apply numeric_set; [exact Hs|].
  unfold get_col in Hc. destruct (getitem sig _) eqn:E; [|discriminate]. injection Hc as <-. eapply numeric_get; [exact Hb|exact E].
Qed.
Lemma calc_numeric br sf sa sig bkg a s m e t : numeric sig -> numeric bkg -> calculate_sensitivity br sf sa sig bkg a s m e = Ok t -> numeric t.
Proof.
  intros Hs Hb H. unfold calculate_sensitivity in H. unbind H. injection H as <-.
  repeat apply numeric_set; simpl; auto. eapply copy_columns_numeric; [exact Hb| |exact E9].
  unfold get_col in E8, E1. destruct (getitem bkg "n") eqn:G1; [|discriminate]. destruct (getitem bkg "n_weighted") eqn:G2; [|discriminate].
  injection E8 as <-. injection E1 as <-.
  repeat apply numeric_set; simpl; auto.
  - eapply copy_edges_numeric; [exact Hs| |exact E4]. intros p [].
  - eapply numeric_get; [exact Hb|exact G1].
  - eapply numeric_get; [exact Hb|exact G2].
Qed.
Lemma hist_columns_numeric evs hw bins n c : hist_columns evs hw bins = Ok (n, c) -> match c with CN _ | CZ _ => True | _ => False end.
Proof.
  unfold hist_columns. intros H. apply rbind_ok in H as (z & _ & H). destruct hw.
  - apply rbind_ok in H as (w & _ & H). injection H as _ <-. exact I.
  - injection H as _ <-. exact I.
Qed.
Lemma hist_numeric ev bins key t : create_histogram_table ev bins key = Ok t -> numeric t.
Proof.
  unfold create_histogram_table. intros H. apply rbind_ok in H as ([n c] & Hc & H). apply hist_columns_numeric in Hc.
  cbn [fst snd] in H.
  set (t0 := setitem (setitem _ "n" _) "n_weighted" _) in H.
  assert (H0 : numeric t0). { unfold t0. repeat apply numeric_set; simpl; auto. intros p []. }
  destruct (_ && _); [|injection H as <-; auto]. clearbody t0. revert t0 H0 H.
  induction (group_keys _) as [|p ks IH]; intros t0 H0 H; cbn [add_groups] in H; [injection H as <-; auto|].
  apply rbind_ok in H as ([n' c'] & Hc' & H). apply hist_columns_numeric in Hc'. eapply IH; [|exact H].
  cbn [fst snd]. repeat apply numeric_set; simpl; auto.
Qed.
Lemma scale_numeric names ratio a t t' : numeric t -> scale_columns names ratio a t = Ok t' -> numeric t'.
Proof.
  revert t; induction names as [|n names IH]; intros t Ht H; cbn [scale_columns] in H; [injection H as <-; auto|].
  apply rbind_ok in H as (c & _ & H). apply rbind_ok in H as (m & _ & H). eapply IH; [|exact H]. apply numeric_set; simpl; auto.
Qed.
Lemma background_numeric ev hw hp bins c1 c2 a mn mx t : estimate_background ev hw hp bins c1 c2 a mn mx = Ok t -> numeric t.
Proof.
  unfold estimate_background. intros H. apply rbind_ok in H as (bg & Hb & H). apply rbind_ok in H as (th & _ & H).
  eapply scale_numeric; [|exact H]. eapply hist_numeric; eauto.
Qed.
Lemma selected_numeric br sf sa sw sp bw bp bins a mn mx ms mse mex s1 s2 c1 c2 t :
  selected_sensitivity br sf sa sw sp bw bp bins a mn mx ms mse mex s1 s2 c1 c2 = Ok t -> numeric t.
Proof.
  unfold selected_sensitivity. intros H. apply rbind_ok in H as (sh & Hs & H). apply rbind_ok in H as (bh & Hb & H).
  eapply calc_numeric; [| |exact H]; [eapply hist_numeric|eapply background_numeric]; eauto.
Qed.

Lemma in_list_set {A} (l : list A) i x y : In y (list_set l i x) -> y = x \/ In y l.
Proof.
  revert i; induction l as [|a l IH]; intros [|i] H; simpl in *; auto.
  - destruct H as [->|H]; auto.
  - destruct H as [->|H]; auto. destruct (IH _ H); auto.
Qed.
Lemma cut_loop_rows fill lo hi me ps values idx valid keys : forall acc r,
  cut_loop false fill lo hi me ps values idx valid keys acc = Ok r ->
  (forall row, In row (snd acc) -> length row = length ps) ->
  length (snd r) = length (snd acc) /\ forall row, In row (snd r) -> length row = length ps.
Proof.
  induction keys as [|k keys IH]; intros acc r H Hacc; cbn [cut_loop] in H; [injection H as <-; auto|].
  apply rbind_ok in H as (c & Hc & H). apply IH in H.
  - cbn [fst snd] in H. rewrite list_set_length in H. exact H.
  - cbn [fst snd]. intros row Hr. apply in_list_set in Hr as [->|Hr]; auto.
    unfold group_cut in Hc. destruct (Z.ltb _ _); apply rmap_nth in Hc; tauto.
Qed.
Lemma percentile_cut_rows values xs bins fill ps lo hi me t :
  calculate_percentile_cut false values xs (raw bins) fill (PList ps) lo hi None me = Ok t ->
  exists rows, ct_cut t = Cut2 rows /\ length rows = (length bins - 1)%nat /\ forall r, In r rows -> length r = length ps.
Proof.
  unfold calculate_percentile_cut. intros H. apply rbind_ok in H as (f & _ & H). apply rbind_ok in H as (lo' & _ & H).
  apply rbind_ok in H as (hi' & _ & H). apply rbind_ok in H as (iv & _ & H).
  destruct (negb _); [discriminate|]. destruct (negb _); [discriminate|].
  apply rbind_ok in H as (f' & _ & H). apply rbind_ok in H as (nc & Hnc & H). apply rbind_ok in H as (c & Hc & H).
  cbn [smooth] in Hc. injection Hc as <-. injection H as <-. exists (snd nc). split; auto.
  apply cut_loop_rows in Hnc.
  - cbn [snd] in Hnc. rewrite repeat_length in Hnc. exact Hnc.
  - cbn [snd]. intros row Hr. apply repeat_spec in Hr. subst row. apply repeat_length.
Qed.
Lemma cut_col_spec rows j n : (forall r, In r rows -> length r = n) -> (j < n)%nat -> column_of rows j (cut_col rows j).
Proof.
  intros H Hj. unfold column_of, cut_col. induction rows as [|r rows IH]; simpl; constructor.
  - apply nth_error_nth'. rewrite H; auto. left; auto.
  - apply IH. intros; apply H; right; auto.
Qed.
Lemma row_of_cut_col rows j k r n : (forall r, In r rows -> length r = n) -> (j < n)%nat -> nth_error rows k = Some r ->
  nth_error r j = Some (nth j r NaN) /\ nth_error (cut_col rows j) k = Some (nth j r NaN).
Proof.
  intros H Hj Hr. split.
  - apply nth_error_nth'. rewrite (H r); auto. eapply nth_error_In; eauto.
  - unfold cut_col. rewrite nth_error_map, Hr. auto.
Qed.
Lemma seq_nth_error n k : (k < n)%nat -> nth_error (seq 0 n) k = Some k.
Proof. intros H. rewrite nth_error_nth' with (d := 0%nat) by (rewrite seq_length; auto). rewrite seq_nth; auto. Qed.

(** the bins part shared by both optimisers *)
Lemma assembled sens s0 rest best bst : sens = s0 :: rest ->
  (forall s, In s sens -> numeric s) ->
  assemble sens best 0 s0 = Ok bst ->
  colnames bst = colnames s0 /\
  forall k b, nth_error best k = Some b -> exists s, nth_error sens b = Some s /\ same_row k bst s.
Proof.
  intros Es Hnum H. destruct (assemble_spec _ _ _ _ _ H) as (L & N & _ & Hnew & Hcn). split; auto.
  intros k b Hb. destruct (Hnew k b Hb) as (s & Hs & Ls & Hs2). exists s. split; auto.
  apply Forall2_nth; [lia|]. intros i [n cl] [n' cl'] Hc Hc'. destruct (Hs2 _ _ _ _ _ Hc Hc') as (v & Hv & Hv').
  exists v. cbn [snd]. split; apply nums_entry; auto.
  - destruct (Hcn) with (c := i) (n := n) (cl := cl) as [l ->]; auto. intros ->. destruct k; discriminate.
  - apply (Hnum s (nth_error_In _ _ Hs) (n', cl')). eapply nth_error_In; eauto.
Qed.

Section C27.
Variables (br : (R -> num) -> R -> R -> res R) (sf : num -> num -> num -> num)
  (sa : list num -> list num -> num -> res (list num)) (sw sp bw bp : bool)
  (signal background : list opt_event) (bins : list num) (alpha mn mx ms mse mex : num).

Lemma gh_scan_spec op sel_theta thl thh thc thcut t j s (ps : list R) rows :
  evaluate_binned_cut true (map o_theta signal) (raw (map o_energy signal)) thl thh None thcut nle = Ok sel_theta ->
  ct_low t = but_last bins -> ct_high t = tl bins -> ct_cut t = Cut2 rows ->
  (forall r, In r rows -> length r = length ps) -> (j < length ps)%nat ->
  gh_scan br sf sa sw sp bw bp signal background bins alpha mn mx ms mse mex op sel_theta thc thcut t j = Ok s ->
  column_of rows j (cut_col rows j) /\
  sensitivity_of_cuts br sf sa sw sp bw bp signal background bins alpha mn mx ms mse mex op (cut_col rows j) thl thh thc thcut s.
Proof.
  intros Hth Hlo Hhi Hcut Hlen Hj H. split; [eapply cut_col_spec; eauto|].
  unfold gh_scan in H. unfold cut_rows in H. rewrite Hcut, Hlo, Hhi in H.
  apply rbind_ok in H as (m & Hm & H). apply rbind_ok in H as (b & Hb & H).
  unfold selected_sensitivity in H. apply rbind_ok in H as (sh & Hsh & H). apply rbind_ok in H as (bh & Hbh & H).
  pose proof (binned_length _ _ _ _ _ _ _ _ _ Hm) as L1. pose proof (binned_length _ _ _ _ _ _ _ _ _ Hth) as L2.
  pose proof (binned_length _ _ _ _ _ _ _ _ _ Hb) as L3. rewrite map_length in L1, L2, L3.
  exists m, sel_theta, b. split; [exact Hm|]. split; [exact Hth|]. split; [exact Hb|].
  exists (select (mask_and m sel_theta) signal), (select b background), sh, bh.
  repeat split; auto.
  - apply select_kept. unfold mask_and. rewrite zipwith_length. lia.
  - apply select_kept. lia.
Qed.

Lemma c27 op effs thl thh thc thcut best c :
  optimize_gh_cut br sf sa sw sp bw bp signal background bins alpha mn mx ms mse mex op effs thl thh thc thcut = Ok (best, c) ->
  exists fill t rows sens,
    (if op (Fin (-1)) (Fin 1) then smallest_of (map o_gh signal) fill else largest_of (map o_gh signal) fill) /\
    calculate_percentile_cut false (raw (map o_gh signal)) (raw (map o_energy signal)) (raw bins) (plain fill)
      (PList (map (fun e => if op (Fin (-1)) (Fin 1) then 100 * e else 100 * (1 - e)) effs)) None None None 10 = Ok t /\
    ct_cut t = Cut2 rows /\
    oc_low c = but_last bins /\ oc_high c = tl bins /\ oc_center c = bin_center bins /\
    length (oc_cut c) = (length bins - 1)%nat /\ length (oc_efficiency c) = (length bins - 1)%nat /\
    length sens = length effs /\
    (exists s0, nth_error sens 0 = Some s0 /\ colnames best = colnames s0) /\
    (forall j s, nth_error sens j = Some s -> exists cut, column_of rows j cut /\
       sensitivity_of_cuts br sf sa sw sp bw bp signal background bins alpha mn mx ms mse mex op cut thl thh thc thcut s) /\
    forall k, (k < length bins - 1)%nat ->
      exists j vals s eff row x, nth_error sens j = Some s /\
        length vals = length sens /\
        (forall i s' v, nth_error sens i = Some s' -> nth_error vals i = Some v -> cell s' "relative_sensitivity" k v) /\
        (best_choice vals j \/ nothing_finite vals j) /\
        same_row k best s /\
        nth_error effs j = Some eff /\ nth_error (oc_efficiency c) k = Some eff /\
        nth_error rows k = Some row /\ nth_error row j = Some x /\ nth_error (oc_cut c) k = Some x.
Proof.
  unfold optimize_gh_cut. intros H. apply rbind_ok in H as (sel_theta & Hth & H). apply rbind_ok in H as (fill & Hfill & H).
  apply rbind_ok in H as (t & Ht & H). apply rbind_ok in H as (sens & Hsens & H).
  destruct sens as [|s0 rest] eqn:Es; [discriminate|]. rewrite <- Es in *.
  apply rbind_ok in H as (bst & Hbst & H). apply rbind_ok in H as (bs & Hbs & H). injection H as <- <-.
  destruct (percentile_cut_edges _ _ _ _ _ _ _ _ _ _ Ht) as (Elo & Ehi & Ece).
  destruct (percentile_cut_rows _ _ _ _ _ _ _ _ _ Ht) as (rows & Erows & Lrows & Hrows). rewrite map_length in Hrows.
  destruct (rmap_nth _ _ _ Hsens) as [Lsens Nsens]. rewrite seq_length in Lsens.
  destruct (rmap_nth _ _ _ Hbst) as [Lbst Nbst]. rewrite seq_length in Lbst.
  assert (Hscan : forall j s, nth_error sens j = Some s ->
    gh_scan br sf sa sw sp bw bp signal background bins alpha mn mx ms mse mex op sel_theta thc thcut t j = Ok s).
  { intros j s Hj. destruct (Nsens j j) as (s' & Hs' & E'). { apply seq_nth_error. rewrite <- Lsens. apply nth_lt in Hj; auto. }
    rewrite Hj in Hs'. injection Hs' as <-. exact E'. }
  assert (Hnum : forall s, In s sens -> numeric s).
  { intros s Hs. apply In_nth_error in Hs as [j Hj]. specialize (Hscan j s Hj). unfold gh_scan in Hscan.
    apply rbind_ok in Hscan as (m & _ & Hscan). apply rbind_ok in Hscan as (b & _ & Hscan). eapply selected_numeric; eauto. }
  destruct (assembled sens s0 rest bst bs Es Hnum Hbs) as [Hcn Hrow].
  assert (Ecr : cut_rows t = rows) by (unfold cut_rows; rewrite Erows; auto).
  exists fill, t, rows, sens. split; [exact (fill_extreme _ _ _ Hfill)|]. split; [exact Ht|]. split; auto. cbn [oc_low oc_high oc_center oc_cut oc_efficiency].
  split; auto. split; auto. split; auto. split; [rewrite zipwith_length, Ecr; lia|]. split; [rewrite map_length; auto|]. split; auto.
  split. { exists s0. split; auto. rewrite Es; auto. } split.
  { intros j s Hj. exists (cut_col rows j).
    apply (gh_scan_spec op sel_theta thl thh thc thcut t j s effs rows); auto. rewrite <- Lsens. apply nth_lt in Hj; auto. }
  intros k Hk. destruct (Nbst k k) as (j & Hj & Ej). { apply seq_nth_error; auto. }
  destruct (best_of_bin_spec _ _ _ Ej) as (vals & Lvals & Ec & Hvals).
  assert (Hvne : vals <> []). { intros ->. rewrite Es in Lvals. discriminate. }
  destruct (Hrow k j Hj) as (s & Hs & Hsame).
  assert (Hjl : (j < length effs)%nat) by (rewrite <- Lsens; apply nth_lt in Hs; auto).
  destruct (nth_error_ex effs j Hjl) as [eff Heff].
  destruct (nth_error_ex rows k) as [row Hrw]; [lia|].
  destruct (row_of_cut_col rows j k row (length effs) Hrows Hjl Hrw) as [Hx _].
  exists j, vals, s, eff, row, (nth j row NaN). split; auto. split; auto. split.
  { intros i s' v Hs' Hv. destruct (Hvals i s' Hs') as (v' & c' & Hv' & Gc & Hc'). rewrite Hv in Hv'. injection Hv' as <-.
    exists c'. split; auto. apply nums_entry; auto. eapply numeric_get; [apply (Hnum s'); eapply nth_error_In; eauto|eauto]. }
  split. { subst j. apply chosen_total; auto. }
  split; auto. split; auto. split. { rewrite nth_error_map, Hj. simpl. f_equal. apply nth_error_nth; auto. }
  split; auto. split; auto. rewrite Ecr. apply (zipwith_nth (fun b r => nth b r NaN)); auto.
Qed.
End C27.
