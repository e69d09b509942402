(** * HistProofs: histograms (C04-C07) *)
From Coq Require Import String Reals List Bool ZArith Lia Lra Permutation.
From Verif Require Import Num Numpy Sort Table Binning SpecBinning BinningProofs.
Import ListNotations.
Open Scope R_scope.

Lemma number_of_count {A} (P : A -> Prop) (p : A -> bool) l :
  (forall a, In a l -> (p a = true <-> P a)) -> number_of P l (count p l).
Proof.
  induction l as [|a l IH]; intros H; [constructor|]. rewrite count_cons.
  destruct (p a) eqn:E.
  - apply no_yes; [apply H; auto; left; auto|]. apply IH; intros; apply H; right; auto.
  - apply no_no; [intro HP; apply H in HP; [congruence|left; auto]|].
    apply IH; intros; apply H; right; auto.
Qed.
Lemma number_of_unique {A} (P : A -> Prop) l n m : number_of P l n -> number_of P l m -> n = m.
Proof.
  intros H; revert m. induction H; intros m Hm; inversion Hm; subst; auto; try contradiction.
Qed.
Lemma weight_of_wsum {A} (w : A -> R) (P : A -> Prop) (p : A -> bool) l :
  (forall a, In a l -> (p a = true <-> P a)) -> weight_of w P l (wsum w p l).
Proof.
  induction l as [|a l IH]; intros H; [unfold wsum; simpl; constructor|]. rewrite wsum_cons.
  destruct (p a) eqn:E.
  - apply wo_yes; [apply H; auto; left; auto|]. apply IH; intros; apply H; right; auto.
  - rewrite Rplus_0_l. apply wo_no; [intro HP; apply H in HP; [congruence|left; auto]|].
    apply IH; intros; apply H; right; auto.
Qed.

(** ** cumulative predicates *)
Definition cum_preds (edges : list num) : list (num -> bool) :=
  map (fun e x => np_lt x e) (but_last edges) ++ [fun x => negb (np_lt (last edges NaN) x)].

Lemma cum_counts_preds {A} (x : A -> num) evs edges :
  cum_counts x evs edges = map (fun p => Z.of_nat (count (fun v => p (x v)) evs)) (cum_preds edges).
Proof. unfold cum_counts, cum_preds. rewrite map_app, map_map. reflexivity. Qed.
Lemma cum_weights_preds {A} (x : A -> num) w evs edges :
  cum_weights x w evs edges = map (fun p => wsum w (fun v => p (x v)) evs) (cum_preds edges).
Proof. unfold cum_weights, cum_preds. rewrite map_app, map_map. reflexivity. Qed.
Lemma cum_preds_length edges : edges <> [] -> length (cum_preds edges) = length edges.
Proof.
  intros H. unfold cum_preds. rewrite app_length, map_length, but_last_length. simpl.
  destruct edges; simpl; [congruence|lia].
Qed.
Lemma last_nth_error {A} (l : list A) d : l <> [] -> nth_error l (length l - 1) = Some (last l d).
Proof.
  intros H. rewrite (app_removelast_last d H) at 1 2.
  rewrite app_length. simpl. rewrite nth_error_app2 by lia.
  replace (_ - _)%nat with 0%nat by lia. reflexivity.
Qed.

Lemma cum_preds_nth edges k e : nondecreasing edges -> nth_error edges k = Some e ->
  exists p, nth_error (cum_preds edges) k = Some p /\
   forall x, p x = if Nat.eqb (S k) (length edges) then nle x e else nlt x e.
Proof.
  intros H Hk. assert (Hlt : (k < length edges)%nat) by (apply nth_error_Some; congruence).
  assert (Hne : edges <> []) by (intros ->; simpl in *; lia).
  assert (He : is_nan e = false) by (apply H; eapply nth_error_In; eauto).
  unfold cum_preds. destruct (Nat.eqb_spec (S k) (length edges)) as [E|E].
  - rewrite nth_error_app2 by (rewrite map_length, but_last_length; lia).
    rewrite map_length, but_last_length. replace (_ - _)%nat with 0%nat by lia.
    eexists; split; [reflexivity|]. intros x. simpl.
    assert (last edges NaN = e).
    { pose proof (last_nth_error edges NaN Hne) as Hl. replace (length edges - 1)%nat with k in Hl by lia.
      congruence. }
    rewrite H0. unfold np_lt. rewrite He. simpl.
    destruct (is_nan x) eqn:Ex; [rewrite orb_true_r; destruct x; try discriminate; destruct e; reflexivity|].
    rewrite orb_false_r. destruct (nlt e x) eqn:El; simpl.
    + symmetry. apply nlt_not_le; auto.
    + symmetry. apply not_nlt_le; auto.
  - rewrite nth_error_app1 by (rewrite map_length, but_last_length; lia).
    rewrite nth_error_map, nth_error_but_last by lia. rewrite Hk. simpl.
    eexists; split; [reflexivity|]. intros x. simpl. apply np_lt_nonan; auto.
Qed.

(** boolean version of the histogram bin *)
Definition hist_binb (lo hi : num) (is_last : bool) (x : num) : bool :=
  nle lo x && (if is_last then nle x hi else nlt x hi).

Lemma hist_binb_spec edges k lo hi x : nondecreasing edges ->
  nth_error edges k = Some lo -> nth_error edges (S k) = Some hi ->
  (hist_binb lo hi (Nat.eqb (S (S k)) (length edges)) x = true <-> in_hist_bin edges k x).
Proof.
  intros H Hlo Hhi. unfold hist_binb, in_hist_bin.
  destruct (Nat.eqb_spec (S (S k)) (length edges)) as [E|E].
  - assert (Hl : last_edge edges hi) by (unfold last_edge; replace (length edges - 1)%nat with (S k) by lia; auto).
    rewrite andb_true_iff. split.
    + intros [H1 H2]. destruct (nlt x hi) eqn:El.
      * left. exists lo, hi; auto.
      * right. split; auto. replace x with hi; auto.
        apply nle_antisym; auto. apply not_nlt_le; auto; [eapply nle_nan_l|eapply nle_nan_r]; eauto.
    + intros [(lo' & hi' & H1 & H2 & H3 & H4)|[_ Hx]].
      * rewrite Hlo in H1; rewrite Hhi in H2. inversion H1; inversion H2; subst. auto using nlt_nle.
      * unfold last_edge in *. rewrite Hl in Hx. inversion Hx; subst.
        assert (nle lo x = true) by (eapply H; eauto). split; auto. apply nle_refl. eapply nle_nan_r; eauto.
  - rewrite andb_true_iff. split.
    + intros [H1 H2]. left. exists lo, hi; auto.
    + intros [(lo' & hi' & H1 & H2 & H3 & H4)|[Hx _]]; [|contradiction].
      rewrite Hlo in H1; rewrite Hhi in H2. inversion H1; inversion H2; subst. auto.
Qed.

Lemma cum_step edges k lo hi p q : nondecreasing edges ->
  nth_error edges k = Some lo -> nth_error edges (S k) = Some hi ->
  (forall x, p x = if Nat.eqb (S k) (length edges) then nle x lo else nlt x lo) ->
  (forall x, q x = if Nat.eqb (S (S k)) (length edges) then nle x hi else nlt x hi) ->
  forall x, ((if q x then 1 else 0) = (if p x then 1 else 0) +
             (if hist_binb lo hi (Nat.eqb (S (S k)) (length edges)) x then 1 else 0))%nat.
Proof.
  intros H Hlo Hhi Hp Hq x. rewrite Hp, Hq.
  assert (Hlt : (S k < length edges)%nat) by (apply nth_error_Some; congruence).
  destruct (Nat.eqb_spec (S k) (length edges)) as [E|E]; [lia|].
  assert (Hle : nle lo hi = true) by (eapply H; eauto).
  unfold hist_binb. set (b := Nat.eqb _ _). clearbody b.
  destruct (is_nan x) eqn:Ex.
  { destruct x; try discriminate. simpl. destruct lo, hi, b; reflexivity. }
  destruct (nlt x lo) eqn:E1.
  - rewrite (nlt_not_le _ _ E1). simpl.
    assert (nlt x hi = true) by (eapply nlt_le_trans; eauto).
    destruct b; [rewrite nlt_nle by auto|rewrite H0]; auto.
  - rewrite (not_nlt_le x lo) by (auto; eapply nle_nan_l; eauto). destruct b; auto.
Qed.

Lemma decreases_nondec edges : nondecreasing edges -> decreases edges = false.
Proof.
  induction edges as [|a l IH]; intros H; auto. destruct l as [|b l']; auto.
  change (decreases (a :: b :: l')) with (ngt a b || decreases (b :: l')).
  rewrite IH by (eapply nondecreasing_tail; eauto).
  unfold ngt. rewrite nle_not_lt; auto. apply (proj2 H 0%nat); auto.
Qed.

Lemma nth_error_map_inv {A B} (f : A -> B) l i b : nth_error (map f l) i = Some b ->
  exists a, nth_error l i = Some a /\ b = f a.
Proof. rewrite nth_error_map. destruct (nth_error l i); simpl; intros; inversion H; eauto. Qed.

(** entries of the histogram *)
Lemma np_histogram_ok {A} (x : A -> num) evs edges : nondecreasing edges -> edges <> [] ->
  np_histogram x evs edges = Ok (diffZ (cum_counts x evs edges)).
Proof. intros H Hn. unfold np_histogram. rewrite decreases_nondec by auto. reflexivity. Qed.
Lemma np_histogram_w_ok {A} (x : A -> num) w evs edges : nondecreasing edges -> edges <> [] ->
  np_histogram_w x w evs edges = Ok (diffR (cum_weights x w evs edges)).
Proof. intros H Hn. unfold np_histogram_w. rewrite decreases_nondec by auto. reflexivity. Qed.

Lemma hist_entry {A} (x : A -> num) evs edges k lo hi : nondecreasing edges ->
  nth_error edges k = Some lo -> nth_error edges (S k) = Some hi ->
  nth_error (diffZ (cum_counts x evs edges)) k =
    Some (Z.of_nat (count (fun v => hist_binb lo hi (Nat.eqb (S (S k)) (length edges)) (x v)) evs)).
Proof.
  intros H Hlo Hhi. rewrite cum_counts_preds.
  destruct (cum_preds_nth edges k lo H Hlo) as (p & Hp & Hps).
  destruct (cum_preds_nth edges (S k) hi H Hhi) as (q & Hq & Hqs).
  erewrite diffZ_nth; [|rewrite nth_error_map, Hp; reflexivity|rewrite nth_error_map, Hq; reflexivity].
  f_equal. rewrite (count_split (fun v => p (x v))
    (fun v => hist_binb lo hi (Nat.eqb (S (S k)) (length edges)) (x v)) (fun v => q (x v)) evs); [lia|].
  intros v _. eapply cum_step; eauto.
Qed.
Lemma hist_entry_w {A} (x : A -> num) w evs edges k lo hi : nondecreasing edges ->
  nth_error edges k = Some lo -> nth_error edges (S k) = Some hi ->
  nth_error (diffR (cum_weights x w evs edges)) k =
    Some (wsum w (fun v => hist_binb lo hi (Nat.eqb (S (S k)) (length edges)) (x v)) evs).
Proof.
  intros H Hlo Hhi. rewrite cum_weights_preds.
  destruct (cum_preds_nth edges k lo H Hlo) as (p & Hp & Hps).
  destruct (cum_preds_nth edges (S k) hi H Hhi) as (q & Hq & Hqs).
  erewrite diffR_nth; [|rewrite nth_error_map, Hp; reflexivity|rewrite nth_error_map, Hq; reflexivity].
  f_equal. rewrite (wsum_split w (fun v => p (x v))
    (fun v => hist_binb lo hi (Nat.eqb (S (S k)) (length edges)) (x v)) (fun v => q (x v)) evs); [lra|].
  intros v _. eapply cum_step; eauto.
Qed.
Lemma hist_length {A} (x : A -> num) evs edges : edges <> [] ->
  length (diffZ (cum_counts x evs edges)) = (length edges - 1)%nat.
Proof. intros H. rewrite diffZ_length, cum_counts_preds, map_length, cum_preds_length; auto. Qed.
Lemma hist_length_w {A} (x : A -> num) w evs edges : edges <> [] ->
  length (diffR (cum_weights x w evs edges)) = (length edges - 1)%nat.
Proof. intros H. rewrite diffR_length, cum_weights_preds, map_length, cum_preds_length; auto. Qed.

(** total content *)
Definition in_rangeb (edges : list num) (x : num) : bool :=
  nle (hd NaN edges) x && nle x (last edges NaN).
Lemma in_rangeb_spec edges x : edges <> [] -> (in_rangeb edges x = true <-> in_range edges x).
Proof.
  intros Hne. unfold in_rangeb, in_range, first_edge, last_edge. rewrite andb_true_iff.
  rewrite (last_nth_error edges NaN Hne). destruct edges as [|e l]; [congruence|]. split.
  - intros [H1 H2]. exists e, (last (e :: l) NaN). auto.
  - intros (a & b & Ha & Hb & H1 & H2). inversion Ha; inversion Hb; subst. auto.
Qed.
Lemma hd_nth {A} (l : list A) d : l <> [] -> nth_error l 0 = Some (hd d l).
Proof. destruct l; simpl; congruence. Qed.

Lemma range_split edges p q : nondecreasing edges -> (2 <= length edges)%nat ->
  (forall x, p x = nlt x (hd NaN edges)) -> (forall x, q x = nle x (last edges NaN)) ->
  forall x, ((if q x then 1 else 0) = (if p x then 1 else 0) + (if in_rangeb edges x then 1 else 0))%nat.
Proof.
  intros H Hl Hp Hq x. rewrite Hp, Hq. unfold in_rangeb.
  assert (Hne : edges <> []) by (intros ->; simpl in *; lia).
  assert (Hle : nle (hd NaN edges) (last edges NaN) = true).
  { eapply (nondecreasing_le edges 0 (length edges - 1)); eauto; [lia|apply hd_nth; auto|apply last_nth_error; auto]. }
  destruct (is_nan x) eqn:Ex; [destruct x; try discriminate; simpl; rewrite andb_false_r; destruct (last edges NaN); reflexivity|].
  destruct (nlt x (hd NaN edges)) eqn:E.
  - rewrite (nlt_not_le _ _ E). simpl. rewrite nlt_nle; auto. eapply nlt_le_trans; eauto.
  - rewrite (not_nlt_le x (hd NaN edges)); auto. eapply nle_nan_l; eauto.
Qed.
Lemma cum_preds_first edges : nondecreasing edges -> (2 <= length edges)%nat ->
  exists p, nth_error (cum_preds edges) 0 = Some p /\ forall x, p x = nlt x (hd NaN edges).
Proof.
  intros H Hl. assert (Hne : edges <> []) by (intros ->; simpl in *; lia).
  destruct (cum_preds_nth edges 0 (hd NaN edges) H (hd_nth _ _ Hne)) as (p & Hp & Hs).
  exists p; split; auto. intros x; rewrite Hs. destruct (Nat.eqb_spec 1 (length edges)); [lia|auto].
Qed.
Lemma cum_preds_last edges : nondecreasing edges -> edges <> [] ->
  exists p, nth_error (cum_preds edges) (length edges - 1) = Some p /\ forall x, p x = nle x (last edges NaN).
Proof.
  intros H Hne.
  destruct (cum_preds_nth edges (length edges - 1) (last edges NaN) H (last_nth_error _ _ Hne)) as (p & Hp & Hs).
  exists p; split; auto. intros x; rewrite Hs. destruct (Nat.eqb_spec (S (length edges - 1)) (length edges)); auto.
  destruct edges; simpl in *; [congruence|lia].
Qed.
Lemma hd_of_nth {A} (l : list A) d a : nth_error l 0 = Some a -> hd d l = a.
Proof. destruct l; simpl; congruence. Qed.
Lemma last_of_nth {A} (l : list A) d a : nth_error l (length l - 1) = Some a -> last l d = a.
Proof.
  intros H. destruct l as [|x l]; [destruct (0-1)%nat; discriminate|].
  rewrite (last_nth_error (x :: l) d) in H by congruence. congruence.
Qed.

Lemma hist_total {A} (x : A -> num) evs edges : nondecreasing edges -> (2 <= length edges)%nat ->
  zsum (diffZ (cum_counts x evs edges)) = Z.of_nat (count (fun v => in_rangeb edges (x v)) evs).
Proof.
  intros H Hl. assert (Hne : edges <> []) by (intros ->; simpl in *; lia).
  assert (Hcl : length (cum_counts x evs edges) = length edges)
    by (rewrite cum_counts_preds, map_length, cum_preds_length; auto).
  rewrite (diffZ_sum _ 0%Z) by (intros E; rewrite E in Hcl; simpl in Hcl; lia).
  destruct (cum_preds_first edges H Hl) as (p & Hp & Hps).
  destruct (cum_preds_last edges H Hne) as (q & Hq & Hqs).
  rewrite (hd_of_nth _ _ (Z.of_nat (count (fun v => p (x v)) evs)))
    by (rewrite cum_counts_preds, nth_error_map, Hp; reflexivity).
  rewrite (last_of_nth _ _ (Z.of_nat (count (fun v => q (x v)) evs)))
    by (rewrite Hcl, cum_counts_preds, nth_error_map, Hq; reflexivity).
  rewrite (count_split (fun v => p (x v)) (fun v => in_rangeb edges (x v)) (fun v => q (x v)) evs); [lia|].
  intros; eapply range_split; eauto.
Qed.
Lemma hist_total_w {A} (x : A -> num) w evs edges : nondecreasing edges -> (2 <= length edges)%nat ->
  rsum (diffR (cum_weights x w evs edges)) = wsum w (fun v => in_rangeb edges (x v)) evs.
Proof.
  intros H Hl. assert (Hne : edges <> []) by (intros ->; simpl in *; lia).
  assert (Hcl : length (cum_weights x w evs edges) = length edges)
    by (rewrite cum_weights_preds, map_length, cum_preds_length; auto).
  rewrite (diffR_sum _ 0) by (intros E; rewrite E in Hcl; simpl in Hcl; lia).
  destruct (cum_preds_first edges H Hl) as (p & Hp & Hps).
  destruct (cum_preds_last edges H Hne) as (q & Hq & Hqs).
  rewrite (hd_of_nth _ _ (wsum w (fun v => p (x v)) evs))
    by (rewrite cum_weights_preds, nth_error_map, Hp; reflexivity).
  rewrite (last_of_nth _ _ (wsum w (fun v => q (x v)) evs))
    by (rewrite Hcl, cum_weights_preds, nth_error_map, Hq; reflexivity).
  rewrite (wsum_split w (fun v => p (x v)) (fun v => in_rangeb edges (x v)) (fun v => q (x v)) evs); [lra|].
  intros; eapply range_split; eauto.
Qed.

Lemma hist_is_histogram {A} (x : A -> num) evs edges : nondecreasing edges -> edges <> [] ->
  is_histogram x evs edges (diffZ (cum_counts x evs edges)).
Proof.
  intros H Hne. split; [apply hist_length; auto|]. intros k c Hc.
  assert (Hk : (k < length edges - 1)%nat) by (rewrite <- (hist_length x evs edges Hne); apply nth_error_Some; congruence).
  destruct (nth_error_ex edges k) as [lo Hlo]; [lia|]. destruct (nth_error_ex edges (S k)) as [hi Hhi]; [lia|].
  rewrite (hist_entry x evs edges k lo hi) in Hc by auto. inversion Hc; subst.
  eexists; split; [reflexivity|]. apply number_of_count. intros a _. apply hist_binb_spec; auto.
Qed.
Lemma hist_is_histogram_w {A} (x : A -> num) w evs edges : nondecreasing edges -> edges <> [] ->
  is_histogram_w x w evs edges (diffR (cum_weights x w evs edges)).
Proof.
  intros H Hne. split; [apply hist_length_w; auto|]. intros k c Hc.
  assert (Hk : (k < length edges - 1)%nat) by (rewrite <- (hist_length_w x w evs edges Hne); apply nth_error_Some; congruence).
  destruct (nth_error_ex edges k) as [lo Hlo]; [lia|]. destruct (nth_error_ex edges (S k)) as [hi Hhi]; [lia|].
  rewrite (hist_entry_w x w evs edges k lo hi) in Hc by auto. inversion Hc; subst.
  apply weight_of_wsum. intros a _. apply hist_binb_spec; auto.
Qed.

(** ** the table *)
Definition weighted_col (evs : list event) (has_weight : bool) (edges : list num) : col :=
  if has_weight then CN (map Fin (diffR (cum_weights ev_x ev_w evs edges)))
  else CZ (diffZ (cum_counts ev_x evs edges)).

Lemma hist_columns_ok evs hw edges : nondecreasing edges -> edges <> [] ->
  hist_columns evs hw edges = Ok (diffZ (cum_counts ev_x evs edges), weighted_col evs hw edges).
Proof.
  intros H Hne. unfold hist_columns, weighted_col. rewrite np_histogram_ok by auto. simpl.
  destruct hw; auto. rewrite np_histogram_w_ok by auto. reflexivity.
Qed.

Fixpoint add_groups_pure (evs : list event) hw edges keys (hist : table) : table :=
  match keys with
  | [] => hist
  | p :: keys' =>
      add_groups_pure evs hw edges keys'
        (setitem (setitem hist ("n_" ++ p) (CZ (diffZ (cum_counts ev_x (group evs p) edges))))
           (("n_" ++ p) ++ "_weighted") (weighted_col (group evs p) hw edges))
  end%string.
Lemma add_groups_ok evs hw edges keys hist : nondecreasing edges -> edges <> [] ->
  add_groups evs hw edges keys hist = Ok (add_groups_pure evs hw edges keys hist).
Proof.
  intros H Hne. revert hist; induction keys as [|p keys IH]; intros; auto.
  simpl add_groups. rewrite hist_columns_ok by auto. simpl. apply IH.
Qed.

Definition base_table (evs : list event) hw edges key : table :=
  (setitem (setitem (setitem (setitem (setitem []
     (key ++ "_low") (CN (but_last edges)))
     (key ++ "_high") (CN (tl edges)))
     (key ++ "_center") (CN (zipwith (fun a b => nmul (Fin (1/2)) (nadd a b)) (but_last edges) (tl edges))))
     "n" (CZ (diffZ (cum_counts ev_x evs edges))))
     "n_weighted" (weighted_col evs hw edges))%string.
Definition hist_table (ev : etable) edges key : table :=
  if et_has_ptype ev && negb (Nat.eqb (length (et_rows ev)) 0) then
    add_groups_pure (et_rows ev) (et_has_weight ev) edges (group_keys (map ev_p (et_rows ev)))
      (base_table (et_rows ev) (et_has_weight ev) edges key)
  else base_table (et_rows ev) (et_has_weight ev) edges key.

Lemma create_histogram_table_ok ev edges key : nondecreasing edges -> edges <> [] ->
  create_histogram_table ev edges key = Ok (hist_table ev edges key).
Proof.
  intros H Hne. unfold create_histogram_table, hist_table. rewrite hist_columns_ok by auto. simpl rbind.
  destruct (et_has_ptype ev && _); auto. rewrite add_groups_ok by auto. reflexivity.
Qed.

(** lookups *)
Lemma string_app_inj_l p a b : (p ++ a)%string = (p ++ b)%string -> a = b.
Proof. induction p; simpl; intros H; auto. inversion H; auto. Qed.
Lemma string_app_assoc a b c : ((a ++ b) ++ c)%string = (a ++ (b ++ c))%string.
Proof. induction a; simpl; f_equal; auto. Qed.
Lemma string_length_app a b : String.length (a ++ b) = (String.length a + String.length b)%nat.
Proof. induction a; simpl; auto. Qed.

Definition names_of (p : string) : list string := [("n_" ++ p); (("n_" ++ p) ++ "_weighted")]%string.

Lemma add_groups_other evs hw edges keys hist name :
  (forall p, In p keys -> ~ In name (names_of p)) ->
  getitem (add_groups_pure evs hw edges keys hist) name = getitem hist name.
Proof.
  revert hist; induction keys as [|p keys IH]; intros hist H; auto. simpl.
  assert (Hp := H p (or_introl eq_refl)). simpl in Hp.
  rewrite IH by (intros; apply H; right; auto).
  rewrite !getitem_setitem_neq; auto.
Qed.

(** the two fixed count columns *)
Lemma n_not_group p : ~ In "n"%string (names_of p).
Proof. simpl. intros [H|[H|[]]]; inversion H. Qed.
Lemma n_weighted_not_group p : p <> "weighted"%string -> ~ In "n_weighted"%string (names_of p).
Proof.
  intros Hp. unfold names_of. intros [H|[H|[]]].
  - change "n_weighted"%string with ("n_" ++ "weighted")%string in H. apply string_app_inj_l in H. auto.
  - rewrite string_app_assoc in H. change "n_weighted"%string with ("n_" ++ "weighted")%string in H.
    apply string_app_inj_l in H. apply (f_equal String.length) in H. rewrite string_length_app in H.
    simpl in H. lia.
Qed.
Lemma in_group_keys l p : In p (group_keys l) <-> In p l.
Proof.
  unfold group_keys, sort_strings. rewrite <- (nodup_In string_dec l). split; apply Permutation_in.
  - symmetry; apply isort_perm.
  - apply isort_perm.
Qed.
Lemma nodup_group_keys l : NoDup (group_keys l).
Proof.
  unfold group_keys, sort_strings. eapply Permutation_NoDup; [apply isort_perm|]. apply NoDup_nodup.
Qed.

Lemma base_n evs hw edges key :
  getitem (base_table evs hw edges key) "n" = Some (CZ (diffZ (cum_counts ev_x evs edges))).
Proof.
  unfold base_table. rewrite getitem_setitem_neq by discriminate. apply getitem_setitem_eq.
Qed.
Lemma base_nw evs hw edges key :
  getitem (base_table evs hw edges key) "n_weighted" = Some (weighted_col evs hw edges).
Proof. apply getitem_setitem_eq. Qed.

Lemma hist_n ev edges key :
  getitem (hist_table ev edges key) "n" = Some (CZ (diffZ (cum_counts ev_x (et_rows ev) edges))).
Proof.
  unfold hist_table. destruct (_ && _); [|apply base_n].
  rewrite add_groups_other; [apply base_n|]. intros; apply n_not_group.
Qed.
Lemma hist_nw ev edges key :
  (et_has_ptype ev = true -> forall e, In e (et_rows ev) -> ev_p e <> "weighted"%string) ->
  getitem (hist_table ev edges key) "n_weighted" = Some (weighted_col (et_rows ev) (et_has_weight ev) edges).
Proof.
  intros H. unfold hist_table. destruct (et_has_ptype ev) eqn:Ep; simpl; [|apply base_nw].
  destruct (negb _); [|apply base_nw].
  rewrite add_groups_other; [apply base_nw|]. intros p Hp. apply n_weighted_not_group.
  apply (proj1 (in_group_keys _ _)) in Hp. apply in_map_iff in Hp as (e & <- & He). auto.
Qed.

(** per-particle columns: labels that do not collide *)
Lemma names_disjoint labels p q name : no_collision labels -> In p labels -> In q labels -> p <> q ->
  In name (names_of p) -> ~ In name (names_of q).
Proof.
  intros Hc Hp Hq Hn. unfold names_of. intros [<-|[<-|[]]] [H|[H|[]]].
  - apply string_app_inj_l in H. congruence.
  - rewrite string_app_assoc in H. apply string_app_inj_l in H. apply (Hc p q); auto.
  - rewrite string_app_assoc in H. apply string_app_inj_l in H. apply (Hc q p); auto.
  - rewrite !string_app_assoc in H. apply string_app_inj_l in H.
    apply Hn. clear -H. revert q H. induction p as [|a p IH]; intros [|b q] H; auto.
    + apply (f_equal String.length) in H. simpl in H. rewrite string_length_app in H. simpl in H. lia.
    + apply (f_equal String.length) in H. simpl in H. rewrite string_length_app in H. simpl in H. lia.
    + simpl in H. inversion H; subst. f_equal; auto.
Qed.

Lemma add_groups_get evs hw edges keys hist p : NoDup keys -> no_collision keys -> In p keys ->
  getitem (add_groups_pure evs hw edges keys hist) ("n_" ++ p)
    = Some (CZ (diffZ (cum_counts ev_x (group evs p) edges))) /\
  getitem (add_groups_pure evs hw edges keys hist) (("n_" ++ p) ++ "_weighted")
    = Some (weighted_col (group evs p) hw edges).
Proof.
  revert hist; induction keys as [|q keys IH]; intros hist Hnd Hc Hp; [destruct Hp|].
  inversion Hnd; subst. simpl in Hp. destruct (string_dec q p) as [->|Hqp].
  - simpl. rewrite !add_groups_other.
    + split; [|apply getitem_setitem_eq]. rewrite getitem_setitem_neq; [apply getitem_setitem_eq|].
      intros H. apply (f_equal String.length) in H. simpl in H; rewrite ?string_length_app in H; simpl in H; lia.
    + intros r Hr. eapply (names_disjoint (p :: keys)); [exact Hc|left; auto|right; auto| |right; left; auto].
      intros ->; contradiction.
    + intros r Hr. eapply (names_disjoint (p :: keys)); [exact Hc|left; auto|right; auto| |left; auto].
      intros ->; contradiction.
  - destruct Hp as [|Hp]; [congruence|]. simpl. apply IH; auto.
    intros a b Ha Hb. apply Hc; right; auto.
Qed.

(** sums over labels *)
Lemma count_by_label (labels : list string) (p : event -> bool) evs : NoDup labels ->
  (forall e, In e evs -> In (ev_p e) labels) ->
  zsum (map (fun s => Z.of_nat (count p (group evs s))) labels) = Z.of_nat (count p evs).
Proof.
  intros Hnd. revert evs. induction Hnd as [|s labels Hs Hnd IH]; intros evs H.
  - destruct evs as [|e evs]; auto. destruct (H e (or_introl eq_refl)).
  - simpl. rewrite zsum_cons.
    rewrite (map_ext_in _ (fun t => Z.of_nat (count p (group (filter (fun e => negb (String.eqb (ev_p e) s)) evs) t)))).
    + rewrite IH.
      * rewrite (count_split (fun e => p e && String.eqb (ev_p e) s)
                  (fun e => p e && negb (String.eqb (ev_p e) s)) p evs).
        -- unfold group. rewrite !count_filter. lia.
        -- intros e _. destruct (p e), (String.eqb (ev_p e) s); auto.
      * intros e He. apply filter_In in He as [He1 He2]. specialize (H e He1). destruct H as [H|H]; auto.
        simpl in He2. rewrite <- H, String.eqb_refl in He2; discriminate.
    + intros t Ht. unfold group. f_equal. rewrite !count_filter. apply count_ext. intros e _.
      destruct (String.eqb_spec (ev_p e) t) as [->|]; simpl; [|rewrite andb_false_r; auto].
      destruct (String.eqb_spec t s); subst; [contradiction|]. simpl. rewrite ?andb_true_r; reflexivity.
Qed.
Lemma wsum_by_label (labels : list string) (p : event -> bool) evs : NoDup labels ->
  (forall e, In e evs -> In (ev_p e) labels) ->
  rsum (map (fun s => wsum ev_w p (group evs s)) labels) = wsum ev_w p evs.
Proof.
  intros Hnd. revert evs. induction Hnd as [|s labels Hs Hnd IH]; intros evs H.
  - destruct evs as [|e evs]; auto. destruct (H e (or_introl eq_refl)).
  - simpl. rewrite rsum_cons.
    rewrite (map_ext_in _ (fun t => wsum ev_w p (group (filter (fun e => negb (String.eqb (ev_p e) s)) evs) t))).
    + rewrite IH.
      * rewrite (wsum_split ev_w (fun e => p e && String.eqb (ev_p e) s)
                  (fun e => p e && negb (String.eqb (ev_p e) s)) p evs).
        -- unfold group. rewrite !wsum_filter. lra.
        -- intros e _. destruct (p e), (String.eqb (ev_p e) s); auto.
      * intros e He. apply filter_In in He as [He1 He2]. specialize (H e He1). destruct H as [H|H]; auto.
        simpl in He2. rewrite <- H, String.eqb_refl in He2; discriminate.
    + intros t Ht. unfold group. rewrite !wsum_filter. apply wsum_ext. intros e _.
      destruct (String.eqb_spec (ev_p e) t) as [->|]; simpl; [|rewrite andb_false_r; auto].
      destruct (String.eqb_spec t s); subst; [contradiction|]. simpl. rewrite ?andb_true_r; reflexivity.
Qed.

(** ** property-level lemmas *)
Lemma c04 ev edges key : nondecreasing edges -> (2 <= length edges)%nat ->
  exists t n, create_histogram_table ev edges key = Ok t /\
    getitem t "n" = Some (CZ n) /\
    is_histogram ev_x (et_rows ev) edges n /\
    exists m, zsum n = Z.of_nat m /\ number_of (fun e => in_range edges (ev_x e)) (et_rows ev) m.
Proof.
  intros H Hl. assert (Hne : edges <> []) by (intros ->; simpl in *; lia).
  do 2 eexists. split; [apply create_histogram_table_ok; auto|]. split; [apply hist_n|].
  split; [apply hist_is_histogram; auto|]. eexists. split; [apply hist_total; auto|].
  apply number_of_count. intros; apply in_rangeb_spec; auto.
Qed.
Lemma c04_weighted ev edges key : nondecreasing edges -> (2 <= length edges)%nat ->
  et_has_weight ev = true ->
  (et_has_ptype ev = true -> forall e, In e (et_rows ev) -> ev_p e <> "weighted"%string) ->
  exists t n, create_histogram_table ev edges key = Ok t /\
    getitem t "n_weighted" = Some (CN (map Fin n)) /\
    is_histogram_w ev_x ev_w (et_rows ev) edges n /\
    weight_of ev_w (fun e => in_range edges (ev_x e)) (et_rows ev) (rsum n).
Proof.
  intros H Hl Hw Hp. assert (Hne : edges <> []) by (intros ->; simpl in *; lia).
  do 2 eexists. split; [apply create_histogram_table_ok; auto|].
  split; [rewrite hist_nw by auto; rewrite Hw; reflexivity|].
  split; [apply hist_is_histogram_w; auto|]. rewrite hist_total_w by auto.
  apply weight_of_wsum. intros; apply in_rangeb_spec; auto.
Qed.
Lemma c04_unweighted ev edges key : nondecreasing edges -> (2 <= length edges)%nat ->
  et_has_weight ev = false ->
  (et_has_ptype ev = true -> forall e, In e (et_rows ev) -> ev_p e <> "weighted"%string) ->
  exists t c, create_histogram_table ev edges key = Ok t /\
    getitem t "n" = Some c /\ getitem t "n_weighted" = Some c.
Proof.
  intros H Hl Hw Hp. assert (Hne : edges <> []) by (intros ->; simpl in *; lia).
  do 2 eexists. split; [apply create_histogram_table_ok; auto|].
  split; [apply hist_n|]. rewrite hist_nw by auto. rewrite Hw. reflexivity.
Qed.

(** C05 *)
Lemma group_is_histogram evs p edges : nondecreasing edges -> edges <> [] ->
  is_histogram ev_x (group evs p) edges (diffZ (cum_counts ev_x (group evs p) edges)).
Proof. intros; apply hist_is_histogram; auto. Qed.

Lemma number_of_filter {A} (P : A -> Prop) (q : A -> bool) l m :
  number_of P (filter q l) m -> number_of (fun a => P a /\ q a = true) l m.
Proof.
  revert m; induction l as [|a l IH]; intros m H; simpl in H.
  - inversion H; constructor.
  - destruct (q a) eqn:E.
    + inversion H; subst; [apply no_yes|apply no_no]; auto. tauto.
    + apply no_no; [intros [_ ?]; congruence|auto].
Qed.

Lemma c05 ev edges key : nondecreasing edges -> (2 <= length edges)%nat ->
  et_has_ptype ev = true ->
  no_collision (map ev_p (et_rows ev)) ->
  exists t, create_histogram_table ev edges key = Ok t /\
    (forall p, In p (map ev_p (et_rows ev)) -> exists n, getitem t ("n_" ++ p) = Some (CZ n) /\
       length n = (length edges - 1)%nat /\
       forall k c, nth_error n k = Some c -> exists m, c = Z.of_nat m /\
         number_of (fun e => in_hist_bin edges k (ev_x e) /\ ev_p e = p) (et_rows ev) m) /\
    (forall labels, NoDup labels -> (forall p, In p labels <-> In p (map ev_p (et_rows ev))) ->
       exists n ns, getitem t "n" = Some (CZ n) /\
         Forall2 (fun p np => getitem t ("n_" ++ p)%string = Some (CZ np)) labels ns /\
         forall k c, nth_error n k = Some c -> c = zsum (map (fun np => nth k np 0%Z) ns)).
Proof.
  intros H Hl Hpt Hc. assert (Hne : edges <> []) by (intros ->; simpl in *; lia).
  eexists. split; [apply create_histogram_table_ok; auto|].
  set (keys := group_keys (map ev_p (et_rows ev))).
  assert (Hck : no_collision keys) by (intros p q Hp Hq; apply Hc; apply in_group_keys; auto).
  assert (Hget : forall p, In p (map ev_p (et_rows ev)) ->
     getitem (hist_table ev edges key) ("n_" ++ p) = Some (CZ (diffZ (cum_counts ev_x (group (et_rows ev) p) edges)))).
  { intros p Hp. unfold hist_table. rewrite Hpt.
    assert (Hz : (length (et_rows ev) =? 0)%nat = false) by (destruct (et_rows ev); [destruct Hp|auto]).
    rewrite Hz. simpl negb. simpl andb. cbv iota.
    apply add_groups_get; [apply nodup_group_keys|auto|apply in_group_keys; auto]. }
  split.
  - intros p Hp. eexists. split; [apply Hget; auto|].
    destruct (group_is_histogram (et_rows ev) p edges H Hne) as [H1 H2]. split; auto.
    intros k c Hkc. destruct (H2 k c Hkc) as (m & -> & Hm). exists m; split; auto.
    apply number_of_filter in Hm. eapply (fun HH => HH Hm). clear.
    intros Hm. assert (Hext : forall l m, number_of (fun a => in_hist_bin edges k (ev_x a) /\ (ev_p a =? p)%string = true) l m ->
       number_of (fun e => in_hist_bin edges k (ev_x e) /\ ev_p e = p) l m).
    { clear. induction 1; [constructor|apply no_yes|apply no_no]; auto.
      - destruct H as [? Hs]. apply String.eqb_eq in Hs. auto.
      - intros [? Hs]. apply H. apply String.eqb_eq in Hs. auto. }
    auto.
  - intros labels Hnd Hlab.
    exists (diffZ (cum_counts ev_x (et_rows ev) edges)),
      (map (fun p => diffZ (cum_counts ev_x (group (et_rows ev) p) edges)) labels).
    split; [apply hist_n|]. split.
    + assert (Hsub : forall p, In p labels -> In p (map ev_p (et_rows ev))) by (intros; apply Hlab; auto).
      clear Hlab Hnd. induction labels as [|p labels IH]; constructor.
      * apply Hget. apply Hsub; left; auto.
      * apply IH. intros; apply Hsub; right; auto.
    + intros k c Hkc.
      assert (Hk : (k < length edges - 1)%nat)
        by (rewrite <- (hist_length ev_x (et_rows ev) edges Hne); apply nth_error_Some; congruence).
      destruct (nth_error_ex edges k) as [lo Hlo]; [lia|]. destruct (nth_error_ex edges (S k)) as [hi Hhi]; [lia|].
      rewrite (hist_entry _ _ _ k lo hi) in Hkc by auto. inversion Hkc; subst.
      rewrite map_map.
      rewrite (map_ext _ (fun s => Z.of_nat (count (fun v => hist_binb lo hi (S (S k) =? length edges)%nat (ev_x v)) (group (et_rows ev) s)))).
      * symmetry. apply count_by_label; auto. intros e He. apply Hlab. apply in_map; auto.
      * intros s. erewrite nth_error_nth; [reflexivity|]. apply hist_entry; auto.
Qed.

Lemma c05_weighted ev edges key : nondecreasing edges -> (2 <= length edges)%nat ->
  et_has_ptype ev = true -> et_has_weight ev = true ->
  no_collision (map ev_p (et_rows ev)) ->
  ~ In "weighted"%string (map ev_p (et_rows ev)) ->
  exists t, create_histogram_table ev edges key = Ok t /\
    (forall labels, NoDup labels -> (forall p, In p labels <-> In p (map ev_p (et_rows ev))) ->
       exists n ns, getitem t "n_weighted" = Some (CN (map Fin n)) /\
         Forall2 (fun p np => getitem t (("n_" ++ p) ++ "_weighted")%string = Some (CN (map Fin np)) /\
                   is_histogram_w ev_x ev_w (group (et_rows ev) p) edges np) labels ns /\
         forall k c, nth_error n k = Some c -> c = rsum (map (fun np => nth k np 0) ns)).
Proof.
  intros H Hl Hpt Hw Hc Hnw. assert (Hne : edges <> []) by (intros ->; simpl in *; lia).
  eexists. split; [apply create_histogram_table_ok; auto|].
  set (keys := group_keys (map ev_p (et_rows ev))).
  assert (Hck : no_collision keys) by (intros p q Hp Hq; apply Hc; apply in_group_keys; auto).
  assert (Hget : forall p, In p (map ev_p (et_rows ev)) ->
     getitem (hist_table ev edges key) (("n_" ++ p) ++ "_weighted") =
       Some (CN (map Fin (diffR (cum_weights ev_x ev_w (group (et_rows ev) p) edges))))).
  { intros p Hp. unfold hist_table. rewrite Hpt.
    assert (Hz : (length (et_rows ev) =? 0)%nat = false) by (destruct (et_rows ev); [destruct Hp|auto]).
    rewrite Hz. simpl negb. simpl andb. cbv iota.
    destruct (add_groups_get (et_rows ev) (et_has_weight ev) edges keys
       (base_table (et_rows ev) (et_has_weight ev) edges key) p) as [_ Hg];
      [apply nodup_group_keys|auto|apply in_group_keys; auto|].
    unfold keys in Hg. rewrite Hg. rewrite Hw. reflexivity. }
  intros labels Hnd Hlab.
  exists (diffR (cum_weights ev_x ev_w (et_rows ev) edges)),
      (map (fun p => diffR (cum_weights ev_x ev_w (group (et_rows ev) p) edges)) labels).
  split.
  { rewrite hist_nw; [rewrite Hw; reflexivity|]. intros _ e He E. apply Hnw. rewrite <- E. apply in_map; auto. }
  split.
  + assert (Hsub : forall p, In p labels -> In p (map ev_p (et_rows ev))) by (intros; apply Hlab; auto).
    clear Hlab Hnd. induction labels as [|p labels IH]; constructor.
    * split; [apply Hget; apply Hsub; left; auto|]. apply hist_is_histogram_w; auto.
    * apply IH. intros; apply Hsub; right; auto.
  + intros k c Hkc.
    assert (Hk : (k < length edges - 1)%nat)
      by (rewrite <- (hist_length_w ev_x ev_w (et_rows ev) edges Hne); apply nth_error_Some; congruence).
    destruct (nth_error_ex edges k) as [lo Hlo]; [lia|]. destruct (nth_error_ex edges (S k)) as [hi Hhi]; [lia|].
    rewrite (hist_entry_w _ _ _ _ k lo hi) in Hkc by auto. inversion Hkc; subst.
    rewrite map_map.
    rewrite (map_ext _ (fun s => wsum ev_w (fun v => hist_binb lo hi (S (S k) =? length edges)%nat (ev_x v)) (group (et_rows ev) s))).
    * symmetry. apply wsum_by_label; auto. intros e He. apply Hlab. apply in_map; auto.
    * intros s. erewrite nth_error_nth; [reflexivity|]. apply hist_entry_w; auto.
Qed.

(** no events or no particle_type column: exactly the five base columns *)
Lemma setitem_new_names {A} (t : list (string * A)) k c : ~ In k (colnames t) ->
  colnames (setitem t k c) = colnames t ++ [k].
Proof.
  induction t as [|[k' c'] t IH]; intros H; auto. simpl in *.
  destruct (String.eqb_spec k k') as [->|]; [exfalso; apply H; auto|]. simpl. f_equal. apply IH. tauto.
Qed.
Lemma append_neq_suffix key a b : String.length a = String.length b -> a <> b -> (key ++ a)%string <> (key ++ b)%string.
Proof. intros _ H E. apply string_app_inj_l in E. auto. Qed.

(** C06 *)
Lemma zipwith_nth_error_none {A B C} (f : A -> B -> C) l m i :
  nth_error l i = None -> nth_error (zipwith f l m) i = None.
Proof. revert m i; induction l as [|a l IH]; intros [|b m] [|i]; simpl; intros; auto; discriminate. Qed.
Lemma list_eq_nth {A} (l m : list A) : length l = length m ->
  (forall i a b, nth_error l i = Some a -> nth_error m i = Some b -> a = b) -> l = m.
Proof.
  revert m; induction l as [|a l IH]; intros [|b m] Hl H; simpl in Hl; try discriminate; auto.
  f_equal; [apply (H 0%nat); auto|]. apply IH; [lia|]. intros i; apply (H (S i)).
Qed.

Lemma hist_app_counts {A} (x : A -> num) e1 e2 edges : nondecreasing edges -> edges <> [] ->
  diffZ (cum_counts x (e1 ++ e2) edges) =
  zipwith Z.add (diffZ (cum_counts x e1 edges)) (diffZ (cum_counts x e2 edges)).
Proof.
  intros H Hne. apply list_eq_nth.
  - rewrite zipwith_length, !hist_length; auto. lia.
  - intros k a b Ha Hb.
    assert (Hk : (k < length edges - 1)%nat) by (rewrite <- (hist_length x (e1 ++ e2) edges Hne); apply nth_error_Some; congruence).
    destruct (nth_error_ex edges k) as [lo Hlo]; [lia|]. destruct (nth_error_ex edges (S k)) as [hi Hhi]; [lia|].
    erewrite hist_entry in Ha by eauto.
    erewrite zipwith_nth in Hb by (apply hist_entry; eauto).
    inversion Ha; inversion Hb; subst. rewrite count_app. lia.
Qed.
Lemma hist_app_weights {A} (x : A -> num) w e1 e2 edges : nondecreasing edges -> edges <> [] ->
  diffR (cum_weights x w (e1 ++ e2) edges) =
  zipwith Rplus (diffR (cum_weights x w e1 edges)) (diffR (cum_weights x w e2 edges)).
Proof.
  intros H Hne. apply list_eq_nth.
  - rewrite zipwith_length, !hist_length_w; auto. lia.
  - intros k a b Ha Hb.
    assert (Hk : (k < length edges - 1)%nat) by (rewrite <- (hist_length_w x w (e1 ++ e2) edges Hne); apply nth_error_Some; congruence).
    destruct (nth_error_ex edges k) as [lo Hlo]; [lia|]. destruct (nth_error_ex edges (S k)) as [hi Hhi]; [lia|].
    erewrite hist_entry_w in Ha by eauto.
    erewrite zipwith_nth in Hb by (apply hist_entry_w; eauto).
    inversion Ha; inversion Hb; subst. apply wsum_app.
Qed.

Lemma cum_counts_perm {A} (x : A -> num) e1 e2 edges : Permutation e1 e2 ->
  cum_counts x e1 edges = cum_counts x e2 edges.
Proof.
  intros Hp. unfold cum_counts. f_equal; [apply map_ext; intros|]; rewrite (count_perm _ _ _ Hp); auto.
Qed.
Lemma cum_weights_perm {A} (x : A -> num) w e1 e2 edges : Permutation e1 e2 ->
  cum_weights x w e1 edges = cum_weights x w e2 edges.
Proof.
  intros Hp. unfold cum_weights. f_equal; [apply map_ext; intros|f_equal]; apply wsum_perm; auto.
Qed.
Lemma perm_filter {A} (p : A -> bool) l1 l2 : Permutation l1 l2 -> Permutation (filter p l1) (filter p l2).
Proof.
  induction 1; simpl; auto.
  - destruct (p x); auto.
  - destruct (p x), (p y); auto. constructor.
  - eapply Permutation_trans; eauto.
Qed.

Lemma hist_columns_perm e1 e2 hw edges : Permutation e1 e2 ->
  hist_columns e1 hw edges = hist_columns e2 hw edges.
Proof.
  intros Hp. unfold hist_columns, np_histogram, np_histogram_w.
  rewrite (cum_counts_perm _ _ _ _ Hp), (cum_weights_perm _ _ _ _ _ Hp). auto.
Qed.
Lemma add_groups_perm e1 e2 hw edges keys t : Permutation e1 e2 ->
  add_groups e1 hw edges keys t = add_groups e2 hw edges keys t.
Proof.
  intros Hp. revert t; induction keys as [|p keys IH]; intros t; auto. simpl add_groups.
  rewrite (hist_columns_perm (group e1 p) (group e2 p)) by (apply perm_filter; auto).
  destruct (hist_columns (group e2 p) hw edges); simpl; auto.
Qed.
Lemma hist_perm e1 e2 hw hp edges key : Permutation e1 e2 ->
  create_histogram_table (mkEvents e1 hw hp) edges key = create_histogram_table (mkEvents e2 hw hp) edges key.
Proof.
  intros Hp. unfold create_histogram_table. simpl.
  rewrite (hist_columns_perm _ _ _ _ Hp), (Permutation_length Hp).
  destruct (hist_columns e2 hw edges); simpl; auto.
  destruct (hp && _); auto.
  assert (E : group_keys (map ev_p e1) = group_keys (map ev_p e2)).
  { apply sort_strings_perm_eq, nodup_perm, Permutation_map; auto. }
  rewrite E. apply add_groups_perm; auto.
Qed.

Lemma c06_additive e1 e2 hw hp edges key : nondecreasing edges -> edges <> [] ->
  exists t t1 t2 n n1 n2,
    create_histogram_table (mkEvents (e1 ++ e2) hw hp) edges key = Ok t /\
    create_histogram_table (mkEvents e1 hw hp) edges key = Ok t1 /\
    create_histogram_table (mkEvents e2 hw hp) edges key = Ok t2 /\
    getitem t "n" = Some (CZ n) /\ getitem t1 "n" = Some (CZ n1) /\ getitem t2 "n" = Some (CZ n2) /\
    length n = length n1 /\ length n = length n2 /\
    forall k a b c, nth_error n k = Some a -> nth_error n1 k = Some b -> nth_error n2 k = Some c -> a = (b + c)%Z.
Proof.
  intros H Hne. do 6 eexists. repeat (split; [apply create_histogram_table_ok; auto|]).
  repeat (split; [apply hist_n|]). simpl et_rows.
  split; [rewrite !hist_length; auto|]. split; [rewrite !hist_length; auto|].
  intros k a b c Ha Hb Hcc. rewrite hist_app_counts in Ha by auto.
  rewrite (zipwith_nth _ _ _ k b c) in Ha by auto. congruence.
Qed.
Lemma c06_additive_weighted e1 e2 edges key : nondecreasing edges -> edges <> [] ->
  exists t t1 t2 n n1 n2,
    create_histogram_table (mkEvents (e1 ++ e2) true false) edges key = Ok t /\
    create_histogram_table (mkEvents e1 true false) edges key = Ok t1 /\
    create_histogram_table (mkEvents e2 true false) edges key = Ok t2 /\
    getitem t "n_weighted" = Some (CN (map Fin n)) /\ getitem t1 "n_weighted" = Some (CN (map Fin n1)) /\
    getitem t2 "n_weighted" = Some (CN (map Fin n2)) /\
    length n = length n1 /\ length n = length n2 /\
    forall k a b c, nth_error n k = Some a -> nth_error n1 k = Some b -> nth_error n2 k = Some c -> a = b + c.
Proof.
  intros H Hne. do 6 eexists. repeat (split; [apply create_histogram_table_ok; auto|]).
  do 3 (split; [rewrite hist_nw by discriminate; reflexivity|]). simpl et_rows.
  split; [rewrite !hist_length_w; auto|]. split; [rewrite !hist_length_w; auto|].
  intros k a b c Ha Hb Hcc. rewrite hist_app_weights in Ha by auto.
  rewrite (zipwith_nth _ _ _ k b c) in Ha by auto. congruence.
Qed.

(** C07 *)
Lemma c07 ev edges key : nondecreasing edges -> (2 <= length edges)%nat ->
  exists t n idx valid, create_histogram_table ev edges key = Ok t /\
    getitem t "n" = Some (CZ n) /\
    calculate_bin_indices (mkArr (map ev_x (et_rows ev)) None) (mkArr edges None) = Ok (idx, valid) /\
    forall k c, nth_error n k = Some c ->
      c = (Z.of_nat (count (fun p : Z * bool => snd p && Z.eqb (fst p) (Z.of_nat k)) (combine idx valid))
          + if Nat.eqb (S (S k)) (length edges)
            then Z.of_nat (count (fun e => neqb (ev_x e) (last edges NaN)) (et_rows ev)) else 0)%Z.
Proof.
  intros H Hl. assert (Hne : edges <> []) by (intros ->; simpl in *; lia).
  destruct (bin_indices_inc (map ev_x (et_rows ev)) edges H Hne) as (idx & valid & Heq & L1 & L2 & Hi).
  do 4 eexists. split; [apply create_histogram_table_ok; auto|]. split; [apply hist_n|].
  split; [exact Heq|]. intros k c Hkc.
  assert (Hk : (k < length edges - 1)%nat)
    by (rewrite <- (hist_length ev_x (et_rows ev) edges Hne); apply nth_error_Some; congruence).
  destruct (nth_error_ex edges k) as [lo Hlo]; [lia|]. destruct (nth_error_ex edges (S k)) as [hi Hhi]; [lia|].
  rewrite (hist_entry _ _ _ k lo hi) in Hkc by auto. apply (f_equal (fun o => match o with Some z => z | None => 0%Z end)) in Hkc.
  cbv beta iota in Hkc. subst c.
  rewrite (count_split (fun e => nle lo (ev_x e) && nlt (ev_x e) hi)
     (fun e => (S (S k) =? length edges)%nat && neqb (ev_x e) (last edges NaN))).
  - rewrite Nat2Z.inj_add. f_equal.
    + f_equal. rewrite map_length in *. clear Heq.
      revert idx valid L1 L2 Hi. induction (et_rows ev) as [|e rows IH]; intros idx valid L1 L2 Hi.
      * destruct idx; simpl in *; [reflexivity|discriminate].
      * destruct idx as [|z idx], valid as [|v valid]; simpl in L1, L2; try discriminate.
        simpl combine. rewrite !count_cons. f_equal.
        -- destruct (Hi 0%nat (ev_x e) eq_refl) as (z' & v' & Hz & Hv & Ho). simpl in Hz, Hv.
           inversion Hz; inversion Hv; subst. simpl.
           destruct (nle lo (ev_x e) && nlt (ev_x e) hi) eqn:E.
           ++ apply andb_true_iff in E as [E1 E2].
              assert (Hb : bin_outcome edges (ev_x e) (Z.of_nat k) true)
                by (apply inside; exists lo, hi; auto).
              destruct (bin_outcome_functional _ _ _ _ _ _ H Ho Hb); subst. rewrite Z.eqb_refl; auto.
           ++ destruct v'; [|auto]. simpl.
              destruct (Z.eqb_spec z' (Z.of_nat k)); auto. subst.
              inversion Ho as [k0 Hin Ek| |]; subst. assert (k0 = k) by lia. subst.
              destruct Hin as (lo' & hi' & I1 & I2 & I3 & I4).
              rewrite Hlo in I1; rewrite Hhi in I2. inversion I1; inversion I2; subst.
              rewrite I3, I4 in E. discriminate.
        -- apply IH; auto. intros i x Hx. apply (Hi (S i)); auto.
    + destruct (S (S k) =? length edges)%nat; auto.
      rewrite (count_ext _ (fun _ => false)) by auto.
      clear. induction (et_rows ev); auto.
  - intros e _. cbv beta. unfold hist_binb. remember (Nat.eqb (S (S k)) (length edges)) as bl eqn:Ebl.
    destruct bl; [|destruct (_ && _); auto]. symmetry in Ebl. apply Nat.eqb_eq in Ebl as E.
    assert (Hlast : last edges NaN = hi).
    { apply last_of_nth. replace (length edges - 1)%nat with (S k) by lia. auto. }
    rewrite Hlast. assert (Hle : nle lo hi = true) by (eapply H; eauto). simpl.
    destruct (neqb (ev_x e) hi) eqn:En.
    + apply neqb_eq in En as [Ex Hn]. rewrite Ex in *. rewrite Hle, nle_refl, nlt_irrefl by auto. reflexivity.
    + destruct (nle lo (ev_x e)) eqn:E1; auto. simpl.
      destruct (nlt (ev_x e) hi) eqn:E2; [rewrite nlt_nle; auto|].
      destruct (nle (ev_x e) hi) eqn:E3; auto. exfalso.
      assert (ev_x e = hi).
      { apply nle_antisym; auto. apply not_nlt_le; auto; [eapply nle_nan_r|eapply nle_nan_r]; eauto. }
      assert (neqb (ev_x e) hi = true) by (apply neqb_eq; split; auto; eapply nle_nan_r; eauto). congruence.
Qed.
