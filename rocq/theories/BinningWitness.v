(** * BinningWitness: tactics and interpolants showing that hypotheses can be met *)
From Coq Require Import String Reals List Bool ZArith Lia Lra.
From Verif Require Import Num Numpy Table Binning SpecBinning BinningProofs HistProofs BinningProofs2.
Import ListNotations.
Open Scope R_scope.

Fixpoint chain_nle (l : list num) : Prop :=
  match l with a :: (b :: _) as t => nle a b = true /\ chain_nle t | _ => True end.
Fixpoint chain_lt (l : list R) : Prop :=
  match l with a :: (b :: _) as t => a < b /\ chain_lt t | _ => True end.
Lemma chain_nle_nondec l : (forall e, In e l -> is_nan e = false) -> chain_nle l -> nondecreasing l.
Proof.
  intros H C; split; [exact H|]. clear H. induction l as [|x l IH]; intros i a b Ha Hb; [destruct i; discriminate|].
  destruct l as [|y l]; [destruct i as [|[|i]]; discriminate|]. destruct C as [C1 C2].
  destruct i as [|i]; [|apply (IH C2 i); auto]. injection Ha as <-; injection Hb as <-. exact C1.
Qed.
Lemma chain_lt_inc l : chain_lt l -> increasing l.
Proof.
  intros C. induction l as [|x l IH]; intros i a b Ha Hb; [destruct i; discriminate|].
  destruct l as [|y l]; [destruct i as [|[|i]]; discriminate|]. destruct C as [C1 C2].
  destruct i as [|i]; [|apply (IH C2 i); auto]. injection Ha as <-; injection Hb as <-. exact C1.
Qed.
Ltac conc_nondec :=
  apply chain_nle_nondec;
  [ let e := fresh in let H := fresh in intros e H; simpl in H;
    repeat (destruct H as [<-|H]; [reflexivity|]); destruct H
  | simpl; rsolve; repeat split; reflexivity ].
Ltac conc_increasing := apply chain_lt_inc; simpl; repeat split; lra.

(** an interpolant meeting both contracts *)
Fixpoint lookup (xs ys : list R) (x : R) : R :=
  match xs, ys with
  | a :: xs', b :: ys' => if Reqb a x then b else lookup xs' ys' x
  | _, _ => 0
  end.
Definition some_itp (xs ys : list R) (x : R) : R :=
  match xs, ys with
  | [x0; x1; x2], [y0; y1; y2] => parabola x0 x1 x2 y0 y1 y2 x
  | _, _ => lookup xs ys x
  end.
Lemma lookup_passes xs ys i x y : increasing xs ->
  nth_error xs i = Some x -> nth_error ys i = Some y -> lookup xs ys x = y.
Proof.
  intros Hi. revert ys i. induction xs as [|a xs IH]; intros ys i Hx Hy; [destruct i; discriminate|].
  destruct ys as [|b ys]; [destruct i; discriminate|]. simpl.
  destruct i; simpl in Hx, Hy.
  - inversion Hx; inversion Hy; subst. rewrite (proj2 (Reqb_true x x) eq_refl). auto.
  - destruct (Reqb_spec a x) as [E|E].
    + exfalso. assert (a < x).
      { apply (strictly_increasing_lt (a :: xs) 0 (S i)); auto; [|lia]. apply strictly_increasing_iff; auto. }
      lra.
    + apply (IH (fun j => Hi (S j)) ys i); auto.
Qed.
Lemma some_itp_passes : passes_through_knots some_itp.
Proof.
  intros xs ys i x y Hi Hl Hx Hy. unfold some_itp.
  destruct xs as [|x0 [|x1 [|x2 [|x3 xs]]]];
    try (apply (lookup_passes _ _ i); auto; fail).
  destruct ys as [|y0 [|y1 [|y2 [|y3 ys]]]]; simpl in Hl; try discriminate.
  assert (x0 < x1) by (apply (Hi 0%nat); auto). assert (x1 < x2) by (apply (Hi 1%nat); auto).
  unfold parabola. destruct i as [|[|[|i]]]; simpl in Hx, Hy; [..|destruct i; discriminate];
    inversion Hx; inversion Hy; subst; field; lra.
Qed.
Lemma some_itp_quadratic : quadratic_on_three_knots some_itp.
Proof. intros x0 x1 x2 y0 y1 y2 x _ _. reflexivity. Qed.
