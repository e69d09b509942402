(** * CutsProofs *)
From Coq Require Import String Reals List Bool ZArith Lia Lra Permutation Sorted.
From Verif Require Import Num Numpy Sort Table Binning SpecBinning BinningProofs HistProofs Percentile Cuts SpecCuts PercentileProofs.
Import ListNotations.
Open Scope R_scope.

Lemma list_set_length {A} (l : list A) i x : length (list_set l i x) = length l.
Proof. revert i; induction l as [|a l IH]; intros [|i]; simpl; auto. Qed.
Lemma list_set_eq {A} (l : list A) i x : (i < length l)%nat -> nth_error (list_set l i x) i = Some x.
Proof. revert i; induction l as [|a l IH]; intros [|i]; simpl; intros; try lia; auto. apply IH; lia. Qed.
Lemma list_set_neq {A} (l : list A) i j x : i <> j -> nth_error (list_set l i x) j = nth_error l j.
Proof. revert i j; induction l as [|a l IH]; intros [|i] [|j] H; simpl; auto; try congruence. Qed.

Lemma cut_loop_ok is_int fill lo hi me ps values idx valid : forall keys ns cs,
  NoDup keys -> (forall k, In k keys -> (0 <= k < Z.of_nat (length ns))%Z) -> length cs = length ns ->
  (forall k, In k keys -> exists c, group_cut is_int fill lo hi me ps (bin_group values idx valid k) = Ok c) ->
  exists ns' cs', cut_loop is_int fill lo hi me ps values idx valid keys (ns, cs) = Ok (ns', cs') /\
    length ns' = length ns /\ length cs' = length ns /\
    (forall k, In (Z.of_nat k) keys ->
       nth_error ns' k = Some (Z.of_nat (length (bin_group values idx valid (Z.of_nat k)))) /\
       exists c, group_cut is_int fill lo hi me ps (bin_group values idx valid (Z.of_nat k)) = Ok c /\
         nth_error cs' k = Some c) /\
    (forall k, ~ In (Z.of_nat k) keys -> nth_error ns' k = nth_error ns k /\ nth_error cs' k = nth_error cs k).
Proof.
  induction keys as [|z keys IH]; intros ns cs Hnd Hr Hl Hg.
  - exists ns, cs. simpl. repeat split; auto; intros; contradiction.
  - inversion Hnd as [|? ? Hnin Hnd']; subst.
    destruct (Hg z (or_introl eq_refl)) as [c Hc].
    destruct (IH (list_set ns (Z.to_nat z) (Z.of_nat (length (bin_group values idx valid z))))
                 (list_set cs (Z.to_nat z) c)) as (ns' & cs' & E & L1 & L2 & Hin & Hout); auto.
    + intros k Hk. rewrite list_set_length. apply Hr. right; auto.
    + rewrite !list_set_length; auto.
    + intros k Hk. apply Hg. right; auto.
    + rewrite list_set_length in *. exists ns', cs'. cbn [cut_loop]. rewrite Hc. cbn [rbind fst snd]. split; [exact E|].
      split; [exact L1|]. split; [exact L2|]. pose proof (Hr z (or_introl eq_refl)) as Hz. split.
      * intros k [Hk|Hk]; [|apply Hin; auto]. subst z.
        destruct (Hout k Hnin) as [E1 E2]. rewrite Nat2Z.id in E1, E2.
        rewrite E1, E2, !list_set_eq by lia. split; auto. exists c; auto.
      * intros k Hk. assert (Hne : Z.to_nat z <> k) by (intros <-; apply Hk; left; rewrite Z2Nat.id; lia).
        destruct (Hout k) as [E1 E2]; [intros ?; apply Hk; right; auto|].
        rewrite E1, E2, !list_set_neq by auto. auto.
Qed.

Lemma bin_keys_nodup idx valid : NoDup (bin_keys idx valid).
Proof. unfold bin_keys. eapply Permutation_NoDup; [apply isort_perm|]. apply NoDup_nodup. Qed.
Lemma bin_keys_in idx valid k : In k (bin_keys idx valid) <-> In (k, true) (combine idx valid).
Proof.
  unfold bin_keys.
  split; intros H.
  - assert (H' : In k (nodup Z.eq_dec (map fst (filter (fun p : Z * bool => snd p) (combine idx valid)))))
      by (eapply Permutation_in; [symmetry; apply isort_perm|exact H]).
    rewrite nodup_In, in_map_iff in H'. destruct H' as ([z v] & <- & Hz). apply filter_In in Hz. simpl in Hz.
    destruct Hz as [Hz ->]. auto.
  - eapply Permutation_in; [apply isort_perm|]. rewrite nodup_In, in_map_iff. exists (k, true). split; auto.
    apply filter_In; auto.
Qed.

(** relation between outcome of calculate_bin_indices and picks *)
Lemma bin_group_picks {A} edges (values : list A) xs idx valid k sel : nondecreasing edges ->
  length idx = length xs -> length valid = length xs ->
  (forall i x, nth_error xs i = Some x -> exists z v, nth_error idx i = Some z /\ nth_error valid i = Some v /\ bin_outcome edges x z v) ->
  picks (in_bin edges k) xs values sel -> bin_group values idx valid (Z.of_nat k) = sel.
Proof.
  intros Hnd H1 H2 Ho Hp. revert idx valid H1 H2 Ho. induction Hp as [|x v xs vs sel Hx Hp IH|x v xs vs sel Hx Hp IH];
    intros idx valid H1 H2 Ho.
  - reflexivity.
  - destruct idx as [|z idx]; [discriminate|]. destruct valid as [|b valid]; [discriminate|].
    unfold bin_group. simpl. destruct (Ho 0%nat x eq_refl) as (z' & v' & Ez & Ev & Hout). simpl in Ez, Ev.
    injection Ez as <-; injection Ev as <-.
    destruct (bin_outcome_functional edges x z b (Z.of_nat k) true Hnd Hout (inside edges x k Hx)) as [-> ->].
    rewrite Z.eqb_refl. simpl. f_equal. apply (IH idx valid); simpl in *; auto.
    intros i y Hy. apply (Ho (S i)); auto.
  - destruct idx as [|z idx]; [discriminate|]. destruct valid as [|b valid]; [discriminate|].
    unfold bin_group. simpl. destruct (Ho 0%nat x eq_refl) as (z' & v' & Ez & Ev & Hout). simpl in Ez, Ev.
    injection Ez as <-; injection Ev as <-.
    assert (E : b && Z.eqb z (Z.of_nat k) = false).
    { inversion Hout as [k' Hk' Hz Hb|e He1 He2 Hz Hb|e He1 He2 Hz Hb]; subst; auto. simpl.
      destruct (Z.eqb_spec (Z.of_nat k') (Z.of_nat k)); auto. assert (k' = k) by lia. subst. contradiction. }
    rewrite E. apply (IH idx valid); simpl in *; auto.
    intros i y Hy. apply (Ho (S i)); auto.
Qed.
Lemma in_bin_dec_prop edges k x : {in_bin edges k x} + {~ in_bin edges k x}.
Proof.
  unfold in_bin. destruct (nth_error edges k) as [lo|] eqn:E1; [|right; intros (?&?&?&_); congruence].
  destruct (nth_error edges (S k)) as [hi|] eqn:E2; [|right; intros (?&?&_&?&_); congruence].
  destruct (nle lo x && nlt x hi) eqn:E.
  - left. apply andb_prop in E. exists lo, hi. tauto.
  - right. intros (lo' & hi' & H1 & H2 & H3 & H4). assert (lo' = lo) by congruence. assert (hi' = hi) by congruence.
    subst. rewrite H3, H4 in E. discriminate.
Qed.
Lemma picks_ex {A} edges k xs : forall (values : list A), length values = length xs ->
  exists sel, picks (in_bin edges k) xs values sel.
Proof.
  induction xs as [|x xs IH]; intros [|v values] H; try discriminate; [exists []; constructor|].
  destruct (IH values ltac:(simpl in H; lia)) as [sel Hs].
  destruct (in_bin_dec_prop edges k x); [exists (v :: sel)|exists sel]; constructor; auto.
Qed.
Lemma picks_fun {A} P xs (vs s1 s2 : list A) : picks P xs vs s1 -> picks P xs vs s2 -> s1 = s2.
Proof.
  intros H; revert s2. induction H; intros s2 H2; inversion H2; subst; auto; try contradiction.
  f_equal; auto.
Qed.

Lemma clip_spec lo hi x : ordered_bounds lo hi -> (x = NaN \/ exists r, x = Fin r) ->
  is_clipped lo hi x (clip (optn lo) (optn hi) x).
Proof.
  intros Hb [->|[r ->]]; unfold clip, is_clipped.
  - destruct lo, hi; reflexivity.
  - destruct lo as [l|]; destruct hi as [h|]; simpl; unfold nmax, nmin; simpl.
    + pose proof (Hb l h eq_refl eq_refl) as Hlh.
      destruct (Rleb_spec l r); simpl; [destruct (Rleb_spec r h)|destruct (Rleb_spec l h)]; eexists; (split; [reflexivity|]);
        repeat split; intros;
        repeat match goal with H : Some _ = Some _ |- _ => injection H as <- end; try lra;
        repeat match goal with H : forall l, Some _ = Some l -> _ |- _ => specialize (H _ eq_refl) end; lra.
    + destruct (Rleb_spec l r); eexists; (split; [reflexivity|]); repeat split; intros; try discriminate;
        repeat match goal with H : Some _ = Some _ |- _ => injection H as <- end; try lra;
        repeat match goal with H : forall l, Some _ = Some l -> _ |- _ => specialize (H _ eq_refl) end; lra.
    + destruct (Rleb_spec r h); eexists; (split; [reflexivity|]); repeat split; intros; try discriminate;
        repeat match goal with H : Some _ = Some _ |- _ => injection H as <- end; try lra;
        repeat match goal with H : forall l, Some _ = Some l -> _ |- _ => specialize (H _ eq_refl) end; lra.
    + eexists; split; [reflexivity|]. repeat split; intros; try discriminate; auto.
Qed.

Lemma nanpercentile_ok l p : 0 <= p <= 100 -> exists v, nanpercentile l p = Ok v.
Proof.
  intros Hp. unfold nanpercentile. destruct (Rltb_spec p 0); [lra|]. destruct (Rltb_spec 100 p); [lra|]. simpl.
  destruct (drop_nan l); eauto.
Qed.
Lemma rmap_all_ok {A B} (f : A -> res B) l : (forall a, In a l -> exists b, f a = Ok b) -> exists bs, rmap f l = Ok bs.
Proof.
  induction l as [|a l IH]; intros H; simpl; eauto. destruct (H a (or_introl eq_refl)) as [b ->].
  destruct IH as [bs ->]; [intros; apply H; right; auto|]. simpl; eauto.
Qed.
Lemma group_cut_ok fill lo hi me ps g : (forall p, In p ps -> 0 <= p <= 100) ->
  exists c, group_cut false fill lo hi me ps g = Ok c.
Proof.
  intros Hp. unfold group_cut. destruct (Z.ltb _ _); apply rmap_all_ok; intros p Hip; simpl; eauto.
  destruct (nanpercentile_ok g p (Hp p Hip)) as [v ->]. simpl; eauto.
Qed.

(** the core: row [k] of the un-smoothed table is a function of the group only *)
Definition row_value (fill : num) (lo hi : option num) (me : Z) (ps : list R) (g : list num) : res (list num) :=
  match g with [] => Ok (repeat fill (length ps)) | _ => group_cut false fill lo hi me ps g end.

Definition column_of (pc : percentile_arg) (rows : list (list num)) :=
  match pc with PScalar _ => Cut1 (map (fun r => hd NaN r) rows) | PList _ => Cut2 rows end.


Lemma in_combine_nth {A B} (l : list A) (m : list B) a b : In (a, b) (combine l m) ->
  exists i, nth_error l i = Some a /\ nth_error m i = Some b.
Proof.
  revert m; induction l as [|x l IH]; intros [|y m] H; simpl in H; try contradiction.
  destruct H as [E|H]; [injection E as -> ->; exists 0%nat; auto|].
  destruct (IH m H) as [i Hi]. exists (S i); auto.
Qed.
Lemma nth_combine_in {A B} (l : list A) (m : list B) a b i :
  nth_error l i = Some a -> nth_error m i = Some b -> In (a, b) (combine l m).
Proof.
  revert m i; induction l as [|x l IH]; intros [|y m] [|i] H1 H2; simpl in *; try discriminate.
  - left. congruence.
  - right. eapply IH; eauto.
Qed.
Lemma bin_group_in {A} (values : list A) idx valid k : length idx = length values -> length valid = length values ->
  bin_group values idx valid k <> [] <-> In (k, true) (combine idx valid).
Proof.
  revert idx valid. induction values as [|v values IH]; intros [|z idx] [|b valid] H1 H2; try discriminate.
  - simpl. split; [intros H; exfalso; apply H; reflexivity|intros []].
  - simpl in H1, H2. specialize (IH idx valid ltac:(lia) ltac:(lia)). unfold bin_group. simpl.
    destruct (b && Z.eqb z k) eqn:E.
    + apply andb_prop in E. destruct E as [-> E]. apply Z.eqb_eq in E. subst. simpl. split; [auto|discriminate].
    + fold (bin_group values idx valid k). rewrite IH. split; [auto|]. intros [Heq|H]; auto.
      injection Heq as -> ->. simpl in E. rewrite Z.eqb_refl in E. discriminate.
Qed.
Lemma outcome_range edges x z : bin_outcome edges x z true -> exists k, z = Z.of_nat k /\ in_bin edges k x /\ (S k < length edges)%nat.
Proof.
  intros H. inversion H as [k Hk| |]; subst. exists k. split; auto. split; auto.
  destruct Hk as (lo & hi & _ & Hh & _). apply nth_error_Some. congruence.
Qed.

Lemma unsmoothed values xs edges fill pc lo hi me : nondecreasing edges -> (2 <= length edges)%nat ->
  length values = length xs -> (forall p, In p (pargs pc) -> 0 <= p <= 100) ->
  (exists x k, In x xs /\ in_bin edges k x) ->
  exists ns rows,
   (forall sm, calculate_percentile_cut false (raw values) (raw xs) (raw edges) (plain fill) pc (plaino lo) (plaino hi) sm me =
    do c <- smooth false sm (column_of pc rows);
    Ok (mkCutTable (but_last edges) (tl edges) (bin_center edges) None ns c None)) /\
   length ns = (length edges - 1)%nat /\ length rows = (length edges - 1)%nat /\
   forall k sel, (k < length edges - 1)%nat -> picks (in_bin edges k) xs values sel ->
     nth_error ns k = Some (Z.of_nat (length sel)) /\
     exists r, nth_error rows k = Some r /\ row_value fill lo hi me (pargs pc) sel = Ok r.
Proof.
  intros Hnd Hlen Hl Hp (x0 & k0 & Hx0 & Hk0).
  destruct (bin_indices_inc xs edges Hnd ltac:(destruct edges; simpl in *; [lia|discriminate]))
    as (idx & valid & E & L1 & L2 & Ho).
  assert (Hblo : bound_to None (plaino lo) = Ok lo) by (destruct lo; reflexivity).
  assert (Hbhi : bound_to None (plaino hi) = Ok hi) by (destruct hi; reflexivity).
  set (f := repeat (repeat fill (length (pargs pc))) (length edges - 1)).
  destruct (cut_loop_ok false fill lo hi me (pargs pc) values idx valid (bin_keys idx valid)
              (repeat 0%Z (length edges - 1)) f) as (ns & rows & Ec & Ln & Lr & Hin & Hout).
  - apply bin_keys_nodup.
  - intros k Hk. rewrite repeat_length. apply bin_keys_in in Hk. apply in_combine_nth in Hk.
    destruct Hk as (i & Hi1 & Hi2).
    destruct (nth_error_ex xs i) as [x Hx]; [rewrite <- L1; apply nth_error_Some; congruence|].
    destruct (Ho i x Hx) as (z & v & Hz & Hv & Hout). assert (z = k) by congruence. assert (v = true) by congruence. subst.
    destruct (outcome_range _ _ _ Hout) as (j & -> & _ & Hj). lia.
  - unfold f. rewrite !repeat_length; auto.
  - intros k _. apply group_cut_ok; auto.
  - rewrite repeat_length in *. exists ns, rows.
    assert (Hex : existsb (fun b : bool => b) valid = true).
    { apply existsb_exists. exists true. split; auto. apply In_nth_error in Hx0. destruct Hx0 as [i Hi].
      destruct (Ho i x0 Hi) as (z & v & _ & Hv & Hout').
      destruct (bin_outcome_functional edges x0 z v (Z.of_nat k0) true Hnd Hout' (inside edges x0 k0 Hk0)) as [_ ->].
      eapply nth_error_In; eauto. }
    split; [|split; [auto|split; [auto|]]].
    { intros sm. unfold calculate_percentile_cut, raw, plain. cbn [a_unit a_val s_val s_unit fst snd rbind].
      rewrite Hblo, Hbhi. cbn [rbind]. rewrite E. cbn [rbind fst snd]. rewrite Hl, Nat.eqb_refl. cbn [negb]. rewrite Hex. cbn [negb].
      cbn [cast rbind]. unfold f in Ec. destruct pc as [p|ps]; cbn [pargs] in *;
        rewrite Ec; cbn [rbind fst snd column_of]; reflexivity. }
    intros k sel Hk Hs.
    assert (Hg : bin_group values idx valid (Z.of_nat k) = sel) by (apply (bin_group_picks edges values xs); auto).
    destruct sel as [|s sel].
    + assert (Hn : ~ In (Z.of_nat k) (bin_keys idx valid)).
      { rewrite bin_keys_in, <- (bin_group_in values); [|lia|lia]. rewrite Hg. congruence. }
      destruct (Hout k Hn) as [E1 E2]. rewrite E1, E2. unfold f. rewrite !nth_error_repeat by auto. split; auto.
      eexists; split; eauto.
    + assert (Hn : In (Z.of_nat k) (bin_keys idx valid)).
      { rewrite bin_keys_in, <- (bin_group_in values); [|lia|lia]. rewrite Hg. discriminate. }
      destruct (Hin k Hn) as [E1 (c & Hc & E2)]. rewrite Hg in *. split; auto. exists c. split; auto.
Qed.
Lemma row_value_scalar fill p lo hi me sel r : 0 <= p <= 100 -> ordered_bounds lo hi ->
  row_value fill (optn lo) (optn hi) me [p] sel = Ok r -> exists c, r = [c] /\ documented_cut fill p lo hi me sel c.
Proof.
  intros Hp Hb. unfold row_value, documented_cut, group_cut. destruct sel as [|s sel].
  - simpl. intros H; injection H as <-. exists fill. split; auto. destruct (_ <? _)%Z; auto.
  - destruct (Z.ltb _ _); cbn [rmap rbind cast].
    + intros H; injection H as <-. exists fill; auto.
    + destruct (nanpercentile_ok (s :: sel) p Hp) as [v Hv]. rewrite Hv. cbn [rbind].
      intros H; injection H as <-. eexists; split; [reflexivity|]. intros rs Hrs.
      destruct (nanpercentile_spec (s :: sel) rs p Hrs Hp) as (v' & Hv' & Hspec).
      assert (v' = v) by congruence. subst v'. exists v. split; [|exact Hspec].
      apply clip_spec; auto. destruct rs; [left; auto|right]. destruct Hspec as (r0 & -> & _). eauto.
Qed.

Lemma c12 values xs edges fill p lo hi me : nondecreasing edges -> (2 <= length edges)%nat ->
  length values = length xs -> 0 <= p <= 100 -> ordered_bounds lo hi ->
  (exists x k, In x xs /\ in_bin edges k x) ->
  exists t cuts,
    calculate_percentile_cut false (raw values) (raw xs) (raw edges) (plain fill) (PScalar p)
      (plaino (optn lo)) (plaino (optn hi)) None me = Ok t /\
    ct_cut t = Cut1 cuts /\
    length (ct_low t) = (length edges - 1)%nat /\ length (ct_high t) = (length edges - 1)%nat /\
    length (ct_n_events t) = (length edges - 1)%nat /\ length cuts = (length edges - 1)%nat /\
    forall k sel, (k < length edges - 1)%nat -> picks (in_bin edges k) xs values sel ->
      nth_error (ct_low t) k = nth_error edges k /\ nth_error (ct_high t) k = nth_error edges (S k) /\
      nth_error (ct_n_events t) k = Some (Z.of_nat (length sel)) /\
      exists c, nth_error cuts k = Some c /\ documented_cut fill p lo hi me sel c.
Proof.
  intros Hnd Hlen Hl Hp Hb Hex.
  destruct (unsmoothed values xs edges fill (PScalar p) (optn lo) (optn hi) me Hnd Hlen Hl) as (ns & rows & E & L1 & L2 & H); auto.
  { intros q [<-|[]]; auto. }
  eexists. exists (map (fun r => hd NaN r) rows). rewrite E. split; [reflexivity|]. simpl. split; [reflexivity|].
  rewrite but_last_length, map_length. repeat split; auto.
  - destruct edges; simpl; lia.
  - apply nth_error_but_last; lia.
  - apply nth_error_tl.
  - apply H; auto.
  - destruct (H k sel) as (_ & r & Hr & Hrv); auto.
    destruct (row_value_scalar _ _ _ _ _ _ _ Hp Hb Hrv) as (c & -> & Hd). exists c. split; auto.
    rewrite nth_error_map, Hr. reflexivity.
Qed.

Lemma picks_map {A B} (f : A -> B) P xs vs sel : picks P xs vs sel -> picks P xs (map f vs) (map f sel).
Proof. induction 1; simpl; constructor; auto. Qed.

Lemma documented_unclipped fill p me rs c : rs <> [] -> (me <= Z.of_nat (length rs))%Z ->
  documented_cut fill p None None me (map Fin rs) c -> exists r, c = Fin r /\ linear_percentile rs p r.
Proof.
  intros Hne Hme. unfold documented_cut. rewrite map_length.
  destruct (Z.ltb_spec (Z.of_nat (length rs)) me); [lia|].
  destruct rs as [|r0 rs]; [congruence|]. intros H0. specialize (H0 (r0 :: rs) (finite_part_map _)).
  destruct H0 as (raw0 & Hc & r & -> & Hlp). simpl in Hc. destruct Hc as (r' & -> & _ & _ & Hr').
  rewrite Hr' by (intros; discriminate). eauto.
Qed.

Lemma c13 (vs : list R) xs edges fill p me : nondecreasing edges -> (2 <= length edges)%nat ->
  length vs = length xs -> 0 <= p <= 100 -> (exists x k, In x xs /\ in_bin edges k x) ->
  exists t cuts,
    calculate_percentile_cut false (raw (map Fin vs)) (raw xs) (raw edges) (plain fill) (PScalar p) None None None me = Ok t /\
    ct_cut t = Cut1 cuts /\
    forall k rs, (k < length edges - 1)%nat -> picks (in_bin edges k) xs vs rs -> rs <> [] ->
      (me <= Z.of_nat (length rs))%Z ->
      exists c n_le n_ge lo hi, nth_error cuts k = Some (Fin c) /\
        number_of (fun v => v <= c) rs n_le /\ p / 100 * (INR (length rs) - 1) < INR n_le /\
        number_of (fun v => c <= v) rs n_ge /\ (1 - p / 100) * (INR (length rs) - 1) < INR n_ge /\
        In lo rs /\ In hi rs /\ lo <= c <= hi.
Proof.
  intros Hnd Hlen Hl Hp Hex.
  destruct (c12 (map Fin vs) xs edges fill p None None me Hnd Hlen ltac:(rewrite map_length; auto) Hp
              ltac:(intros ? ? ?; discriminate) Hex) as (t & cuts & E & Ec & _ & _ & _ & _ & H).
  exists t, cuts. split; [exact E|]. split; auto. intros k rs Hk Hpk Hne Hme.
  destruct (H k (map Fin rs) Hk (picks_map Fin _ _ _ _ Hpk)) as (_ & _ & _ & c & Hc & Hd).
  destruct (documented_unclipped fill p me rs c Hne Hme Hd) as (r & -> & Hlp).
  destruct (lp_bounds rs p r Hlp) as (lo & hi & Hlo & Hhi & Hlh).
  exists r, (count (fun v => Rleb v r) rs), (count (fun v => Rleb r v) rs), lo, hi.
  repeat split; auto; try lra.
  - apply number_of_count. intros v _. apply Rleb_true.
  - apply lp_count_le; auto.
  - apply number_of_count. intros v _. apply Rleb_true.
  - apply lp_count_ge; auto.
Qed.

Lemma c13_mono (vs : list R) xs edges fill p q me : nondecreasing edges -> (2 <= length edges)%nat ->
  length vs = length xs -> 0 <= p <= q -> q <= 100 -> (exists x k, In x xs /\ in_bin edges k x) ->
  exists t1 t2 c1 c2,
    calculate_percentile_cut false (raw (map Fin vs)) (raw xs) (raw edges) (plain fill) (PScalar p) None None None me = Ok t1 /\
    calculate_percentile_cut false (raw (map Fin vs)) (raw xs) (raw edges) (plain fill) (PScalar q) None None None me = Ok t2 /\
    ct_cut t1 = Cut1 c1 /\ ct_cut t2 = Cut1 c2 /\
    forall k rs, (k < length edges - 1)%nat -> picks (in_bin edges k) xs vs rs -> rs <> [] ->
      (me <= Z.of_nat (length rs))%Z ->
      exists a b, nth_error c1 k = Some (Fin a) /\ nth_error c2 k = Some (Fin b) /\ a <= b.
Proof.
  intros Hnd Hlen Hl Hp Hq Hex.
  destruct (c12 (map Fin vs) xs edges fill p None None me Hnd Hlen ltac:(rewrite map_length; auto) ltac:(lra)
              ltac:(intros ? ? ?; discriminate) Hex) as (t1 & c1 & E1 & Ec1 & _ & _ & _ & _ & H1).
  destruct (c12 (map Fin vs) xs edges fill q None None me Hnd Hlen ltac:(rewrite map_length; auto) ltac:(lra)
              ltac:(intros ? ? ?; discriminate) Hex) as (t2 & c2 & E2 & Ec2 & _ & _ & _ & _ & H2).
  exists t1, t2, c1, c2. repeat split; auto. intros k rs Hk Hpk Hne Hme.
  destruct (H1 k (map Fin rs) Hk (picks_map Fin _ _ _ _ Hpk)) as (_ & _ & _ & a & Ha & Hd1).
  destruct (H2 k (map Fin rs) Hk (picks_map Fin _ _ _ _ Hpk)) as (_ & _ & _ & b & Hb & Hd2).
  destruct (documented_unclipped fill p me rs a Hne Hme Hd1) as (ra & -> & Hla).
  destruct (documented_unclipped fill q me rs b Hne Hme Hd2) as (rb & -> & Hlb).
  exists ra, rb. repeat split; auto. apply (lp_mono rs p q); auto; lra.
Qed.

(** ** several percentiles *)
Lemma rmap_nth {A B} (f : A -> res B) l bs : rmap f l = Ok bs ->
  length bs = length l /\ forall i a, nth_error l i = Some a -> exists b, nth_error bs i = Some b /\ f a = Ok b.
Proof.
  revert bs; induction l as [|a l IH]; intros bs H; simpl in H.
  - injection H as <-. split; auto. intros [|i] ? ?; discriminate.
  - destruct (f a) as [b|] eqn:E; simpl in H; [|discriminate]. destruct (rmap f l) as [bs'|]; simpl in H; [|discriminate].
    injection H as <-. destruct (IH bs' eq_refl) as [L Hn]. split; [simpl; auto|].
    intros [|i] x Hx; simpl in *; [injection Hx as <-; eauto|auto].
Qed.
Lemma row_value_nth fill lo hi me ps sel r j p : row_value fill lo hi me ps sel = Ok r -> nth_error ps j = Some p ->
  exists c, nth_error r j = Some c /\ row_value fill lo hi me [p] sel = Ok [c].
Proof.
  unfold row_value. destruct sel as [|s sel].
  - intros H Hp; injection H as <-. exists fill. simpl. split; auto. apply nth_error_repeat. apply nth_error_Some; congruence.
  - unfold group_cut. destruct (Z.ltb _ _).
    + intros H Hp. destruct (rmap_nth _ _ _ H) as [_ Hn]. destruct (Hn j p Hp) as (c & Hc & Ec).
      exists c. split; auto. simpl in *. congruence.
    + intros H Hp. destruct (rmap_nth _ _ _ H) as [_ Hn]. destruct (Hn j p Hp) as (c & Hc & Ec).
      exists c. split; auto. cbn [rmap]. cbn beta in Ec. rewrite Ec. reflexivity.
Qed.
Lemma row_value_length fill lo hi me ps sel r : row_value fill lo hi me ps sel = Ok r -> length r = length ps.
Proof.
  unfold row_value, group_cut. destruct sel as [|s sel]; [intros H; injection H as <-; apply repeat_length|].
  destruct (Z.ltb _ _); intros H; apply rmap_nth in H; tauto.
Qed.

Lemma c12_list values xs edges fill ps lo hi me : nondecreasing edges -> (2 <= length edges)%nat ->
  length values = length xs -> (forall p, In p ps -> 0 <= p <= 100) ->
  (exists x k, In x xs /\ in_bin edges k x) ->
  exists t rows,
    calculate_percentile_cut false (raw values) (raw xs) (raw edges) (plain fill) (PList ps)
      (plaino lo) (plaino hi) None me = Ok t /\
    ct_cut t = Cut2 rows /\ length rows = (length edges - 1)%nat /\
    (forall r, In r rows -> length r = length ps) /\
    forall j p, nth_error ps j = Some p -> exists t1 cuts,
      calculate_percentile_cut false (raw values) (raw xs) (raw edges) (plain fill) (PScalar p)
        (plaino lo) (plaino hi) None me = Ok t1 /\
      ct_n_events t1 = ct_n_events t /\
      ct_cut t1 = Cut1 cuts /\ length cuts = length rows /\
      forall k row, nth_error rows k = Some row -> nth_error row j = nth_error cuts k.
Proof.
  intros Hnd Hlen Hl Hp Hex.
  destruct (unsmoothed values xs edges fill (PList ps) lo hi me Hnd Hlen Hl Hp Hex) as (ns & rows & E & L1 & L2 & H).
  eexists. exists rows. rewrite E. split; [reflexivity|]. simpl. split; [reflexivity|]. split; auto.
  assert (Hrow : forall k row, nth_error rows k = Some row -> exists sel, picks (in_bin edges k) xs values sel /\
     nth_error ns k = Some (Z.of_nat (length sel)) /\ row_value fill lo hi me ps sel = Ok row).
  { intros k row Hr. destruct (picks_ex edges k xs values Hl) as [sel Hs]. exists sel. split; auto.
    assert (Hk : (k < length edges - 1)%nat) by (rewrite <- L2; apply nth_error_Some; congruence).
    destruct (H k sel Hk Hs) as (En & r & Hr' & Hv). simpl in Hv. split; auto. congruence. }
  split.
  { intros r Hr. apply In_nth_error in Hr. destruct Hr as [k Hr]. destruct (Hrow k r Hr) as (sel & _ & _ & Hv).
    eapply row_value_length; eauto. }
  intros j p Hj.
  destruct (unsmoothed values xs edges fill (PScalar p) lo hi me Hnd Hlen Hl) as (ns' & rows' & E' & L1' & L2' & H'); auto.
  { intros q [<-|[]]. apply Hp. eapply nth_error_In; eauto. }
  eexists. exists (map (fun r => hd NaN r) rows'). rewrite E'. split; [reflexivity|]. simpl.
  split.
  { apply list_eq_nth; [lia|]. intros k a b Ha Hb.
    assert (Hk : (k < length edges - 1)%nat) by (rewrite <- L1'; apply nth_error_Some; congruence).
    destruct (picks_ex edges k xs values Hl) as [sel Hs].
    destruct (H k sel Hk Hs) as (En & _). destruct (H' k sel Hk Hs) as (En' & _). congruence. }
  split; [reflexivity|]. rewrite map_length. split; [lia|]. intros k row Hr.
  destruct (Hrow k row Hr) as (sel & Hs & _ & Hv).
  assert (Hk : (k < length edges - 1)%nat) by (rewrite <- L2; apply nth_error_Some; congruence).
  destruct (H' k sel Hk Hs) as (_ & r & Hr' & Hv'). simpl in Hv'.
  destruct (row_value_nth _ _ _ _ _ _ _ _ _ Hv Hj) as (c & Hc & Hvc).
  rewrite Hc, nth_error_map, Hr'. simpl. rewrite Hvc in Hv'. injection Hv' as <-. reflexivity.
Qed.

(** ** locality and permutations *)
Lemma c15_local values1 xs1 values2 xs2 edges fill p lo hi me k sel : nondecreasing edges -> (2 <= length edges)%nat ->
  length values1 = length xs1 -> length values2 = length xs2 -> 0 <= p <= 100 ->
  (exists x j, In x xs1 /\ in_bin edges j x) -> (exists x j, In x xs2 /\ in_bin edges j x) ->
  (k < length edges - 1)%nat ->
  picks (in_bin edges k) xs1 values1 sel -> picks (in_bin edges k) xs2 values2 sel ->
  exists t1 t2 c1 c2,
    calculate_percentile_cut false (raw values1) (raw xs1) (raw edges) (plain fill) (PScalar p) (plaino lo) (plaino hi) None me = Ok t1 /\
    calculate_percentile_cut false (raw values2) (raw xs2) (raw edges) (plain fill) (PScalar p) (plaino lo) (plaino hi) None me = Ok t2 /\
    ct_cut t1 = Cut1 c1 /\ ct_cut t2 = Cut1 c2 /\
    nth_error c1 k = nth_error c2 k /\ nth_error c1 k <> None /\
    nth_error (ct_n_events t1) k = nth_error (ct_n_events t2) k.
Proof.
  intros Hnd Hlen Hl1 Hl2 Hp Hex1 Hex2 Hk Hs1 Hs2.
  destruct (unsmoothed values1 xs1 edges fill (PScalar p) lo hi me Hnd Hlen Hl1) as (ns1 & rows1 & E1 & L1 & L1' & H1); auto.
  { intros q [<-|[]]; auto. }
  destruct (unsmoothed values2 xs2 edges fill (PScalar p) lo hi me Hnd Hlen Hl2) as (ns2 & rows2 & E2 & L2 & L2' & H2); auto.
  { intros q [<-|[]]; auto. }
  do 2 eexists. exists (map (fun r => hd NaN r) rows1), (map (fun r => hd NaN r) rows2).
  rewrite E1, E2. split; [reflexivity|]. split; [reflexivity|]. simpl. split; [reflexivity|]. split; [reflexivity|].
  destruct (H1 k sel Hk Hs1) as (En1 & r1 & Hr1 & Hv1). destruct (H2 k sel Hk Hs2) as (En2 & r2 & Hr2 & Hv2).
  assert (r1 = r2) by congruence. subst. rewrite !nth_error_map, Hr1, Hr2, En1, En2. repeat split; auto. discriminate.
Qed.

Definition in_binb edges k x : bool := if in_bin_dec_prop edges k x then true else false.
Lemma picks_filter {A} edges k xs (vs sel : list A) : picks (in_bin edges k) xs vs sel ->
  sel = map fst (filter (fun p => in_binb edges k (snd p)) (combine vs xs)).
Proof.
  induction 1 as [|x v xs vs sel Hx Hp IH|x v xs vs sel Hx Hp IH]; simpl; auto;
    unfold in_binb at 1; destruct (in_bin_dec_prop edges k x); try contradiction; simpl; congruence.
Qed.
Lemma group_cut_perm is_int fill lo hi me ps g1 g2 : Permutation g1 g2 ->
  group_cut is_int fill lo hi me ps g1 = group_cut is_int fill lo hi me ps g2.
Proof.
  intros H. unfold group_cut. rewrite (Permutation_length H). destruct (Z.ltb _ _); auto.
  induction ps as [|p ps IH]; simpl; auto. rewrite (nanpercentile_perm _ _ p H), IH. reflexivity.
Qed.
Lemma row_value_perm fill lo hi me ps g1 g2 : Permutation g1 g2 ->
  row_value fill lo hi me ps g1 = row_value fill lo hi me ps g2.
Proof.
  intros H. unfold row_value. destruct g1 as [|a g1]; destruct g2 as [|b g2]; auto.
  - apply Permutation_nil in H; discriminate.
  - symmetry in H; apply Permutation_nil in H; discriminate.
  - apply group_cut_perm; auto.
Qed.
Lemma combine_in_r {A B} (l : list A) (m : list B) b : length l = length m -> In b m -> exists a, In (a, b) (combine l m).
Proof.
  intros Hl Hb. apply In_nth_error in Hb. destruct Hb as [i Hi].
  destruct (nth_error_ex l i) as [a Ha]; [rewrite Hl; apply nth_error_Some; congruence|].
  exists a. eapply nth_combine_in; eauto.
Qed.
Lemma c15_perm values1 xs1 values2 xs2 edges fill pc lo hi sm me : nondecreasing edges -> (2 <= length edges)%nat ->
  length values1 = length xs1 -> length values2 = length xs2 ->
  (forall p, In p (pargs pc) -> 0 <= p <= 100) ->
  (exists x j, In x xs1 /\ in_bin edges j x) ->
  Permutation (combine values1 xs1) (combine values2 xs2) ->
  calculate_percentile_cut false (raw values1) (raw xs1) (raw edges) (plain fill) pc (plaino lo) (plaino hi) sm me =
  calculate_percentile_cut false (raw values2) (raw xs2) (raw edges) (plain fill) pc (plaino lo) (plaino hi) sm me.
Proof.
  intros Hnd Hlen Hl1 Hl2 Hp Hex1 HP.
  assert (Hex2 : exists x j, In x xs2 /\ in_bin edges j x).
  { destruct Hex1 as (x & j & Hx & Hj). exists x, j. split; auto.
    destruct (combine_in_r values1 xs1 x Hl1 Hx) as [a Ha].
    eapply in_combine_r. eapply Permutation_in; eauto. }
  destruct (unsmoothed values1 xs1 edges fill pc lo hi me Hnd Hlen Hl1 Hp Hex1) as (ns1 & rows1 & E1 & L1 & L1' & H1).
  destruct (unsmoothed values2 xs2 edges fill pc lo hi me Hnd Hlen Hl2 Hp Hex2) as (ns2 & rows2 & E2 & L2 & L2' & H2).
  assert (Hsel : forall k, exists s1 s2, picks (in_bin edges k) xs1 values1 s1 /\ picks (in_bin edges k) xs2 values2 s2 /\ Permutation s1 s2).
  { intros k. destruct (picks_ex edges k xs1 values1 Hl1) as [s1 Hs1]. destruct (picks_ex edges k xs2 values2 Hl2) as [s2 Hs2].
    exists s1, s2. repeat split; auto. rewrite (picks_filter _ _ _ _ _ Hs1), (picks_filter _ _ _ _ _ Hs2).
    apply Permutation_map, perm_filter; auto. }
  rewrite E1, E2. assert (ns1 = ns2).
  { apply list_eq_nth; [lia|]. intros k a b Ha Hb. destruct (Hsel k) as (s1 & s2 & Hs1 & Hs2 & Hps).
    assert (Hk : (k < length edges - 1)%nat) by (rewrite <- L1; apply nth_error_Some; congruence).
    destruct (H1 k s1 Hk Hs1) as (En1 & _). destruct (H2 k s2 Hk Hs2) as (En2 & _).
    rewrite (Permutation_length Hps) in En1. congruence. }
  assert (rows1 = rows2).
  { apply list_eq_nth; [lia|]. intros k a b Ha Hb. destruct (Hsel k) as (s1 & s2 & Hs1 & Hs2 & Hps).
    assert (Hk : (k < length edges - 1)%nat) by (rewrite <- L1'; apply nth_error_Some; congruence).
    destruct (H1 k s1 Hk Hs1) as (_ & r1 & Hr1 & Hv1). destruct (H2 k s2 Hk Hs2) as (_ & r2 & Hr2 & Hv2).
    rewrite (row_value_perm _ _ _ _ _ _ _ Hps) in Hv1. congruence. }
  subst. reflexivity.
Qed.
