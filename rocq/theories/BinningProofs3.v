(** * BinningProofs3: exact outcome with infinite outer edges (C02), columns of the histogram table (C05) *)
From Coq Require Import String Reals List Bool ZArith Lia Lra.
From Verif Require Import Num Numpy Sort Table Binning SpecBinning BinningProofs BinningProofs2 HistProofs.
Import ListNotations.
Open Scope R_scope.

Lemma bin_indices_infinite_exact data edges : nondecreasing edges -> first_edge edges NInf -> last_edge edges PInf ->
  exists idx valid, calculate_bin_indices (mkArr data None) (mkArr edges None) = Ok (idx, valid) /\
    length idx = length data /\ length valid = length data /\
    forall i x, nth_error data i = Some x -> exists z v, nth_error idx i = Some z /\ nth_error valid i = Some v /\
      ((x <> PInf /\ x <> NaN /\ v = true /\ (0 <= z < Z.of_nat (length edges) - 1)%Z) \/
       ((x = PInf \/ x = NaN) /\ v = false /\ z = INT64_MAX)).
Proof.
  intros H H0 H1. assert (Hne : edges <> []) by (intros ->; discriminate).
  destruct (bin_indices_inc data edges H Hne) as (idx & valid & Heq & L1 & L2 & Hi).
  exists idx, valid. repeat split; auto. intros i x Hx. destruct (Hi i x Hx) as (z & v & Hz & Hv & Ho).
  exists z, v. repeat split; auto.
  inversion Ho as [k Hk|e He Hlt|e He Hle]; subst.
  - left. destruct Hk as (lo & hi & N1 & N2 & Hl & Hh).
    assert (S k < length edges)%nat by (apply nth_error_Some; rewrite N2; discriminate).
    repeat split; try lia.
    + intros ->. destruct hi; discriminate.
    + intros ->. destruct hi; discriminate.
  - unfold first_edge in *. rewrite H0 in He. injection He as <-. destruct x; discriminate.
  - right. unfold last_edge in *. rewrite H1 in He. injection He as <-. repeat split; auto.
    destruct Hle as [Hle|]; auto. destruct x; try discriminate; auto.
Qed.
Lemma overflow_exact data bins : bins <> [] -> nondecreasing bins ->
  exists out idx valid, add_overflow_bins bins false = Ok out /\
    calculate_bin_indices (mkArr data None) (mkArr out None) = Ok (idx, valid) /\
    length idx = length data /\ length valid = length data /\
    forall i x, nth_error data i = Some x -> exists z v, nth_error idx i = Some z /\ nth_error valid i = Some v /\
      ((x <> PInf /\ x <> NaN /\ v = true /\ (0 <= z < Z.of_nat (length out) - 1)%Z) \/
       ((x = PInf \/ x = NaN) /\ v = false /\ z = INT64_MAX)).
Proof.
  intros Hne Hb. destruct (add_overflow_spec bins false Hne (proj1 Hb)) as (out & pre & post & E & _ & _ & _ & (e & He & Hle) & Hl & Hn & _).
  exists out. destruct (bin_indices_infinite_exact data out) as (idx & valid & Q); auto.
  - destruct e; try discriminate. exact He.
  - exists idx, valid. split; [exact E|exact Q].
Qed.

Lemma colnames_setitem {A} (t : list (string * A)) k c x : In x (colnames (setitem t k c)) <-> x = k \/ In x (colnames t).
Proof.
  induction t as [|[k' c'] t IH]; simpl; [intuition congruence|].
  destruct (String.eqb_spec k k') as [->|]; simpl; [intuition congruence|]. rewrite IH. tauto.
Qed.
Lemma add_groups_names evs hw edges keys t x :
  In x (colnames (add_groups_pure evs hw edges keys t)) <-> In x (colnames t) \/ exists p, In p keys /\ In x (names_of p).
Proof.
  revert t; induction keys as [|p keys IH]; intros t; cbn [add_groups_pure].
  - split; [auto|intros [|(p & [] & _)]; auto].
  - rewrite IH, !colnames_setitem. unfold names_of; simpl. split.
    + intros [[->|[->|?]]|(q & Hq & ?)]; [right; exists p|right; exists p|left|right; exists q]; auto.
    + intros [?|(q & [<-|Hq] & Hx)]; auto. { destruct Hx as [<-|[<-|[]]]; auto. } right; exists q; auto.
Qed.
Lemma c05_columns ev edges key : nondecreasing edges -> edges <> [] ->
  exists t, create_histogram_table ev edges key = Ok t /\
    forall name, In name (colnames t) <->
      In name [key ++ "_low"; key ++ "_high"; key ++ "_center"; "n"; "n_weighted"]%string \/
      (et_has_ptype ev = true /\ exists p, In p (map ev_p (et_rows ev)) /\ (name = "n_" ++ p \/ name = ("n_" ++ p) ++ "_weighted")%string).
Proof.
  intros H Hne. eexists. split; [apply create_histogram_table_ok; auto|]. intros name.
  assert (B : forall e hw, In name (colnames (base_table e hw edges key)) <-> In name [key ++ "_low"; key ++ "_high"; key ++ "_center"; "n"; "n_weighted"]%string).
  { intros e hw. unfold base_table. rewrite !colnames_setitem. cbn [colnames map In]. intuition congruence. }
  unfold hist_table. destruct (et_has_ptype ev); cbn [andb].
  - destruct (Nat.eqb_spec (length (et_rows ev)) 0) as [Hz|Hz]; cbn [negb].
    + rewrite B. split; [auto|]. intros [?|(_ & p & Hp & _)]; auto. destruct (et_rows ev); [destruct Hp|discriminate].
    + rewrite add_groups_names, B. split; (intros [?|Q]; [auto|right]).
      * destruct Q as (p & Hp & Hx). split; auto. exists p. split; [apply in_group_keys; auto|]. destruct Hx as [<-|[<-|[]]]; auto.
      * destruct Q as (_ & p & Hp & Hx). exists p. split; [apply in_group_keys; auto|]. unfold names_of; simpl. destruct Hx; auto.
  - rewrite B. split; [auto|]. intros [?|(E & _)]; [auto|discriminate].
Qed.
Lemma c05_unweighted ev edges key : nondecreasing edges -> edges <> [] -> et_has_weight ev = false ->
  no_collision (map ev_p (et_rows ev)) -> ~ In "weighted"%string (map ev_p (et_rows ev)) ->
  exists t, create_histogram_table ev edges key = Ok t /\
    (exists n, getitem t "n" = Some (CZ n) /\ getitem t "n_weighted" = Some (CZ n)) /\
    (et_has_ptype ev = true -> forall p, In p (map ev_p (et_rows ev)) ->
       exists n, getitem t ("n_" ++ p)%string = Some (CZ n) /\ getitem t (("n_" ++ p) ++ "_weighted")%string = Some (CZ n)).
Proof.
  intros H Hne Hw Hc Hnw. eexists. split; [apply create_histogram_table_ok; auto|]. split.
  - exists (diffZ (cum_counts ev_x (et_rows ev) edges)). split; [apply hist_n|]. rewrite hist_nw.
    + rewrite Hw. reflexivity.
    + intros _ e He E. apply Hnw. rewrite <- E. apply in_map; auto.
  - intros Hp p Ip. unfold hist_table. rewrite Hp, Hw. destruct (et_rows ev) as [|e0 es] eqn:Er; [destruct Ip|].
    cbn [length Nat.eqb negb andb].
    destruct (add_groups_get (e0 :: es) false edges (group_keys (map ev_p (e0 :: es))) (base_table (e0 :: es) false edges key) p) as [A B].
    + apply nodup_group_keys.
    + intros a b Ia Ib. apply Hc; apply in_group_keys; auto.
    + apply in_group_keys; auto.
    + rewrite A, B. eexists; split; reflexivity.
Qed.
