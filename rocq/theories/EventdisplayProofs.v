(** * Proofs about pyirf/io/eventdisplay.py *)
From Coq Require Import String Reals List Bool ZArith Arith Lia Lra Permutation Sorted.
From Verif Require Import Num Numpy Sort Table Lists Cuts Simulations Benchmarks Gadf Eventdisplay SpecEventdisplay.
Import ListNotations.
Open Scope R_scope.
Open Scope string_scope.

(** ** renaming *)
Lemma has_column_spec {A} (t : list (string * A)) n : has_column t n = true <-> In n (colnames t).
Proof.
  unfold has_column. rewrite existsb_exists. split.
  - intros (x & Hx & E). apply String.eqb_eq in E. subst; auto.
  - intros H. exists n. split; auto. apply String.eqb_refl.
Qed.
Lemma has_column_false {A} (t : list (string * A)) n : has_column t n = false <-> ~ In n (colnames t).
Proof. rewrite <- has_column_spec. destruct (has_column t n); split; congruence. Qed.
Definition rn1 (old new : string) {A} (kc : string * A) : string * A := if String.eqb (fst kc) old then (new, snd kc) else kc.
Lemma rename_column_ok {A} (t : list (string * A)) old new : In old (colnames t) -> ~ In new (colnames t) -> rename_column t old new = Ok (map (rn1 old new) t).
Proof. intros H1 H2. unfold rename_column. apply has_column_spec in H1. apply has_column_false in H2. rewrite H1, H2. reflexivity. Qed.
Lemma rename_column_err {A} (t : list (string * A)) old new : ~ (In old (colnames t) /\ ~ In new (colnames t)) -> rename_column t old new = Err KeyError.
Proof.
  intros H. unfold rename_column. destruct (has_column t old) eqn:E1; [|auto]. destruct (has_column t new) eqn:E2; [auto|].
  apply has_column_spec in E1. apply has_column_false in E2. tauto.
Qed.
Lemma rn1_names {A} (t : list (string * A)) old new n : n <> old -> n <> new -> (In n (colnames (map (rn1 old new) t)) <-> In n (colnames t)).
Proof.
  intros H1 H2. unfold colnames. rewrite map_map. rewrite !in_map_iff. split.
  - intros (kc & E & Hi). exists kc. split; auto. unfold rn1 in E. destruct (String.eqb_spec (fst kc) old); [cbn in E; congruence|auto].
  - intros (kc & E & Hi). exists kc. split; auto. unfold rn1. destruct (String.eqb_spec (fst kc) old); [congruence|auto].
Qed.
(** the total renaming *)
Fixpoint new_name (names : list (string * string)) (n : string) : string :=
  match names with [] => n | (new, old) :: names' => if String.eqb n old then new else new_name names' n end.
Lemma rename_all_iff {A} (names : list (string * string)) : forall (t : list (string * A)),
  NoDup (map snd names) -> NoDup (map fst names) -> (forall n, In n (map fst names) -> ~ In n (map snd names)) ->
  ((forall new old, In (new, old) names -> In old (colnames t) /\ ~ In new (colnames t)) -> rename_all t names = Ok (map (fun kc => (new_name names (fst kc), snd kc)) t)) /\
  (~ (forall new old, In (new, old) names -> In old (colnames t) /\ ~ In new (colnames t)) -> rename_all t names = Err KeyError).
Proof.
  induction names as [|[new old] names IH]; intros t N1 N2 D.
  - split; [intros _; cbn; f_equal; rewrite map_ext with (g := fun x => x); [rewrite map_id; auto|intros []; auto]|]. intros H. exfalso. apply H. intros ? ? [].
  - cbn [map fst snd] in *. inversion N1 as [|? ? A1 A2]; subst. inversion N2 as [|? ? B1 B2]; subst. cbn [rename_all].
    assert (Hno : new <> old) by (intros E; apply (D new (or_introl eq_refl)); left; auto).
    assert (D' : forall n, In n (map fst names) -> ~ In n (map snd names)) by (intros n H1 H2; apply (D n); right; auto).
    assert (X : forall o, In o (map snd names) -> o <> old /\ o <> new).
    { intros o Ho. split; [intros ->; auto|intros ->]. apply (D new); [left; auto|right; auto]. }
    assert (Y : forall o, In o (map fst names) -> o <> old /\ o <> new).
    { intros o Ho. split; [intros ->|intros ->; auto]. apply (D old); [right; auto|left; auto]. }
    destruct (has_column t old && negb (has_column t new)) eqn:E.
    + apply andb_true_iff in E. destruct E as [E1 E2]. apply has_column_spec in E1. apply negb_true_iff in E2. apply has_column_false in E2.
      rewrite rename_column_ok by auto. cbn [rbind]. destruct (IH (map (rn1 old new) t) A2 B2 D') as (I1 & I2). 
      assert (T : (forall n o, In (n, o) names -> In o (colnames (map (rn1 old new) t)) /\ ~ In n (colnames (map (rn1 old new) t))) <-> (forall n o, In (n, o) names -> In o (colnames t) /\ ~ In n (colnames t))).
      { split; intros H n o Hi; specialize (H n o Hi);
        destruct (X o) as (X1 & X2); try (apply in_map_iff; exists (n, o); auto); destruct (Y n) as (Y1 & Y2); try (apply in_map_iff; exists (n, o); auto);
        [rewrite !rn1_names in H by auto|rewrite !rn1_names by auto]; auto. }
      rewrite T in I1, I2. split.
      * intros H. rewrite I1 by (intros n o Hi; apply H; right; auto). f_equal. rewrite map_map. apply map_ext. intros kc. unfold rn1. cbn [new_name].
        destruct (String.eqb_spec (fst kc) old) as [Eo|Eo]; [|auto]. cbn [fst snd]. f_equal.
        assert (Q : forall l, ~ In new (map snd l) -> new_name l new = new).
        { induction l as [|[a b] l IHl]; cbn; auto. intros Hn. destruct (String.eqb_spec new b); [subst; tauto|]. apply IHl. tauto. }
        apply Q. intros Hi. apply X in Hi. tauto.
      * intros H. apply I2. intros H'. apply H. intros n o [Hi|Hi]; [injection Hi as <- <-; auto|apply H'; auto].
    + rewrite rename_column_err.
      * split; [|auto]. intros H. exfalso. destruct (H new old (or_introl eq_refl)) as (H1 & H2). apply has_column_spec in H1. apply has_column_false in H2. rewrite H1, H2 in E. discriminate.
      * intros (H1 & H2). apply has_column_spec in H1. apply has_column_false in H2. rewrite H1, H2 in E. discriminate.
Qed.
Lemma ed_map new old : In (new, old) COLUMN_MAP <-> ed_name old new.
Proof.
  split.
  - intros H. repeat (destruct H as [H|H]; [injection H as <- <-; constructor|]). destruct H.
  - intros []; cbn; tauto.
Qed.
Lemma map_facts : NoDup (map snd COLUMN_MAP) /\ NoDup (map fst COLUMN_MAP) /\ (forall n, In n (map fst COLUMN_MAP) -> ~ In n (map snd COLUMN_MAP)).
Proof.
  assert (S : forall l : list string, (forall i j, (i < j)%nat -> forall a b, nth_error l i = Some a -> nth_error l j = Some b -> a <> b) -> NoDup l).
  { intros l H. apply NoDup_nth_error. intros i j Hi E. destruct (lt_eq_lt_dec i j) as [[L|L]|L]; auto; exfalso; destruct (nth_error l i) eqn:Ei.
    - eapply (H i j L s s); auto. 
    - apply nth_error_None in Ei; lia.
    - eapply (H j i L s s); auto.
    - apply nth_error_None in Ei; lia. }
  split; [|split].
  - cbn. repeat (constructor; [cbn; intuition discriminate|]). constructor.
  - cbn. repeat (constructor; [cbn; intuition discriminate|]). constructor.
  - cbn [map fst snd COLUMN_MAP In]. intros n H H'. repeat (destruct H as [H|H]; [subst n; repeat (destruct H' as [H'|H']; [discriminate|]); destruct H'|]). destruct H.
Qed.
Lemma new_name_cases names n : (In (new_name names n, n) names) \/ (new_name names n = n /\ forall new, ~ In (new, n) names).
Proof.
  induction names as [|[new old] names IH]; cbn [new_name]; [right; split; auto|].
  destruct (String.eqb_spec n old) as [->|Hn]; [left; left; auto|]. destruct IH as [H|[H1 H2]]; [left; right; auto|right]. split; auto.
  intros x [Hx|Hx]; [injection Hx as <- <-; congruence|eapply H2; eauto].
Qed.
Lemma rename_spec (t : columns) :
  (can_rename t -> exists t', rename_all t COLUMN_MAP = Ok t' /\ renamed t t' /\ t' = map (fun kc => (new_name COLUMN_MAP (fst kc), snd kc)) t) /\
  (~ can_rename t -> rename_all t COLUMN_MAP = Err KeyError).
Proof.
  destruct map_facts as (F1 & F2 & F3). destruct (rename_all_iff COLUMN_MAP t F1 F2 F3) as (H1 & H2). split.
  - intros H. eexists. split; [apply H1; intros new old Hi; apply H, ed_map, Hi|]. split; [|reflexivity]. unfold renamed. clear. induction t as [|kc t IH]; constructor; auto.
    split; [reflexivity|]. cbn [fst]. destruct (new_name_cases COLUMN_MAP (fst kc)) as [H|[H1 H2]].
    + left. apply ed_map. auto.
    + right. split; auto. intros new Hn. apply ed_map in Hn. eapply H2; eauto.
  - intros H. apply H2. intros H'. apply H. intros old new Hn. apply ed_map in Hn. apply H'; auto.
Qed.
Lemma renamed_get (t : columns) old new : In (new, old) COLUMN_MAP -> ~ In new (colnames t) -> getitem (map (fun kc => (new_name COLUMN_MAP (fst kc), snd kc)) t) new = getitem t old.
Proof.
  intros Hi Hn. assert (E : new_name COLUMN_MAP old = new).
  { repeat (destruct Hi as [Hi|Hi]; [injection Hi as <- <-; reflexivity|]). destruct Hi. }
  assert (U : forall n, new_name COLUMN_MAP n = new -> n = old \/ n = new).
  { intros n Hq. destruct (new_name_cases COLUMN_MAP n) as [H|[H1 H2]]; [|right; congruence]. rewrite Hq in H. left. 
    repeat (destruct Hi as [Hi|Hi]; [injection Hi as <- <-; repeat (destruct H as [H|H]; [first [discriminate|congruence]|]); destruct H|]). destruct Hi. }
  induction t as [|[k c] t IH]; cbn [map getitem fst snd]; auto. cbn [colnames map fst] in Hn.
  destruct (String.eqb_spec old k) as [<-|Hk].
  - rewrite E, String.eqb_refl. auto.
  - destruct (String.eqb_spec new (new_name COLUMN_MAP k)) as [Hq|Hq]; [|apply IH; intros Q; apply Hn; right; auto].
    symmetry in Hq. apply U in Hq. destruct Hq as [Hq|Hq]; [congruence|]. exfalso. apply Hn. left. auto.
Qed.
