(** * Sort: insertion sort, used for [np.sort] and for the group keys of astropy tables. *)
From Coq Require Import String Reals List Bool ZArith Lia Lra Permutation Sorted RelationClasses OrdersEx.
From Verif Require Import Num.
Import ListNotations.

Section Sort.
  Context {A : Type} (leb : A -> A -> bool).
  Fixpoint insert (a : A) (l : list A) : list A :=
    match l with [] => [a] | b :: l' => if leb a b then a :: l else b :: insert a l' end.
  Fixpoint isort (l : list A) : list A :=
    match l with [] => [] | a :: l' => insert a (isort l') end.

  Lemma insert_perm a l : Permutation (a :: l) (insert a l).
  Proof.
    induction l as [|b l IH]; simpl; auto. destruct (leb a b); auto.
    rewrite perm_swap. constructor; auto.
  Qed.
  Lemma isort_perm l : Permutation l (isort l).
  Proof. induction l as [|a l IH]; simpl; auto. rewrite <- insert_perm. auto. Qed.
  Lemma isort_length l : length (isort l) = length l.
  Proof. symmetry; apply Permutation_length, isort_perm. Qed.

  Hypothesis leb_total : forall a b, leb a b = true \/ leb b a = true.
  Hypothesis leb_trans : forall a b c, leb a b = true -> leb b c = true -> leb a c = true.
  Let le a b := leb a b = true.

  Lemma insert_sorted a l : StronglySorted le l -> StronglySorted le (insert a l).
  Proof.
    induction 1 as [|b l Hs IH Hf]; simpl; [repeat constructor|].
    destruct (leb a b) eqn:E.
    - constructor; [constructor; auto|]. constructor; auto.
      rewrite Forall_forall in *. intros x Hx. eapply leb_trans; eauto. apply Hf; auto.
    - constructor; auto. rewrite Forall_forall in *. intros x Hx.
      assert (Hx' : In x (a :: l)) by (eapply Permutation_in; [symmetry; apply insert_perm|auto]).
      destruct Hx' as [<-|Hx']; [|apply Hf; auto].
      destruct (leb_total a b); unfold le; congruence.
  Qed.
  Lemma isort_sorted l : StronglySorted le (isort l).
  Proof. induction l as [|a l IH]; simpl; [constructor|]. apply insert_sorted; auto. Qed.

  Hypothesis leb_antisym : forall a b, leb a b = true -> leb b a = true -> a = b.
  Lemma sorted_perm_eq l1 l2 : StronglySorted le l1 -> StronglySorted le l2 ->
    Permutation l1 l2 -> l1 = l2.
  Proof.
    intros H1; revert l2. induction H1 as [|a l1 Hs1 IH Hf1]; intros l2 H2 Hp.
    - apply Permutation_nil in Hp; auto.
    - destruct H2 as [|b l2 Hs2 Hf2]; [symmetry in Hp; apply Permutation_nil in Hp; discriminate|].
      assert (a = b).
      { assert (Ha : In a (b :: l2)) by (eapply Permutation_in; eauto; left; auto).
        assert (Hb : In b (a :: l1)) by (eapply Permutation_in; [symmetry; eauto|left; auto]).
        rewrite Forall_forall in *. destruct Ha as [|Ha]; auto. destruct Hb as [|Hb]; auto.
        apply leb_antisym; [apply Hf1|apply Hf2]; auto. }
      subst b. f_equal. apply IH; auto. eapply Permutation_cons_inv; eauto.
  Qed.
  Lemma isort_perm_eq l1 l2 : Permutation l1 l2 -> isort l1 = isort l2.
  Proof.
    intros Hp. apply sorted_perm_eq; try apply isort_sorted.
    rewrite <- !isort_perm; auto.
  Qed.
End Sort.

(** strings *)
Lemma str_lt_trans a b c : String.compare a b = Lt -> String.compare b c = Lt -> String.compare a c = Lt.
Proof.
  pose proof (@StrictOrder_Transitive _ _ OrdersEx.String_as_OT.lt_strorder) as H. exact (H a b c).
Qed.
Lemma str_leb_trans a b c : String.leb a b = true -> String.leb b c = true -> String.leb a c = true.
Proof.
  unfold String.leb. destruct (String.compare a b) eqn:E1; intros H1 H2; try discriminate.
  - apply String.compare_eq_iff in E1; subst; auto.
  - destruct (String.compare b c) eqn:E2; try discriminate.
    + apply String.compare_eq_iff in E2; subst. rewrite E1; auto.
    + rewrite (str_lt_trans _ _ _ E1 E2); auto.
Qed.
Definition sort_strings := isort String.leb.
Lemma sort_strings_perm_eq l1 l2 : Permutation l1 l2 -> sort_strings l1 = sort_strings l2.
Proof.
  apply isort_perm_eq; [apply String.leb_total|apply str_leb_trans|apply String.leb_antisym].
Qed.

(** reals *)
Definition sortR := isort Rleb.
Lemma Rleb_total a b : Rleb a b = true \/ Rleb b a = true.
Proof. destruct (Rle_or_lt a b); [left|right]; rcmp; lra. Qed.
Lemma Rleb_trans a b c : Rleb a b = true -> Rleb b c = true -> Rleb a c = true.
Proof. intros; rcmp; lra. Qed.
Lemma Rleb_antisym a b : Rleb a b = true -> Rleb b a = true -> a = b.
Proof. intros; rcmp; lra. Qed.
Lemma sortR_perm l : Permutation l (sortR l).
Proof. apply isort_perm. Qed.
Lemma sortR_sorted l : StronglySorted Rle (sortR l).
Proof.
  assert (H : StronglySorted (fun a b => Rleb a b = true) (sortR l))
    by (apply isort_sorted; [apply Rleb_total|apply Rleb_trans]).
  induction H as [|a l' Hs IH Hf]; constructor; auto.
  eapply Forall_impl; [|exact Hf]. intros b Hb; simpl in Hb. rcmp; auto.
Qed.
Lemma sortR_perm_eq l1 l2 : Permutation l1 l2 -> sortR l1 = sortR l2.
Proof. apply isort_perm_eq; [apply Rleb_total|apply Rleb_trans|apply Rleb_antisym]. Qed.

Lemma nodup_perm l1 l2 : Permutation l1 l2 ->
  Permutation (nodup string_dec l1) (nodup string_dec l2).
Proof.
  intros H. apply NoDup_Permutation; try apply NoDup_nodup.
  intros x. rewrite !nodup_In. split; apply Permutation_in; auto. symmetry; auto.
Qed.
