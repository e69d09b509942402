(** * Num: IEEE special values over exact reals, exceptions as values.

    [num] models a numpy float64 entry: NaN, +/-inf and finite values.  Finite
    values are exact reals: rounding and the sign of zero are not modelled.
    Comparisons follow IEEE 754 (everything with NaN is false). *)
From Coq Require Import Reals List Bool ZArith Lia Lra.
Import ListNotations.
Open Scope R_scope.

(** Python exceptions raised by the modelled code. *)
Inductive exn :=
| ValueError | TypeError | IndexError | KeyError | UnitConversionError | UnitsError
| NotImplementedError | MissingColumns | WrongColumnUnit | ImportError
| AttributeError | OverflowError | ZeroDivisionError | UnitTypeError | RuntimeError | LinAlgError.

Inductive res (A : Type) :=
| Ok (a : A)
| Err (e : exn).
Arguments Ok {A} a.
Arguments Err {A} e.

Definition rbind {A B} (x : res A) (f : A -> res B) : res B :=
  match x with Ok a => f a | Err e => Err e end.
Notation "'do' x <- e ; k" := (rbind e (fun x => k))
  (at level 200, x name, e at level 100, k at level 200, right associativity).

Fixpoint rmap {A B} (f : A -> res B) (l : list A) : res (list B) :=
  match l with
  | [] => Ok []
  | a :: l' => do b <- f a; do bs <- rmap f l'; Ok (b :: bs)
  end.

(** ** Boolean comparisons of reals *)
Definition Rltb (x y : R) : bool := if Rlt_dec x y then true else false.
Definition Rleb (x y : R) : bool := if Rle_dec x y then true else false.
Definition Reqb (x y : R) : bool := if Req_EM_T x y then true else false.

Lemma Rltb_true x y : Rltb x y = true <-> x < y.
Proof. unfold Rltb; destruct (Rlt_dec x y); split; intros; auto; discriminate. Qed.
Lemma Rltb_false x y : Rltb x y = false <-> y <= x.
Proof. unfold Rltb; destruct (Rlt_dec x y); split; intros; auto; try discriminate; lra. Qed.
Lemma Rleb_true x y : Rleb x y = true <-> x <= y.
Proof. unfold Rleb; destruct (Rle_dec x y); split; intros; auto; discriminate. Qed.
Lemma Rleb_false x y : Rleb x y = false <-> y < x.
Proof. unfold Rleb; destruct (Rle_dec x y); split; intros; auto; try discriminate; lra. Qed.
Lemma Reqb_true x y : Reqb x y = true <-> x = y.
Proof. unfold Reqb; destruct (Req_EM_T x y); split; intros; auto; discriminate. Qed.
Lemma Reqb_false x y : Reqb x y = false <-> x <> y.
Proof. unfold Reqb; destruct (Req_EM_T x y); split; intros; auto; try discriminate; contradiction. Qed.

Lemma Rltb_spec x y : reflect (x < y) (Rltb x y).
Proof. unfold Rltb; destruct (Rlt_dec x y); constructor; auto. Qed.
Lemma Rleb_spec x y : reflect (x <= y) (Rleb x y).
Proof. unfold Rleb; destruct (Rle_dec x y); constructor; auto. Qed.
Lemma Reqb_spec x y : reflect (x = y) (Reqb x y).
Proof. unfold Reqb; destruct (Req_EM_T x y); constructor; auto. Qed.

(** decide closed comparisons by [lra] *)
Ltac rsolve :=
  repeat match goal with
  | |- context [Rltb ?a ?b] =>
      first [ replace (Rltb a b) with true by (symmetry; apply Rltb_true; lra)
            | replace (Rltb a b) with false by (symmetry; apply Rltb_false; lra) ]
  | |- context [Rleb ?a ?b] =>
      first [ replace (Rleb a b) with true by (symmetry; apply Rleb_true; lra)
            | replace (Rleb a b) with false by (symmetry; apply Rleb_false; lra) ]
  | |- context [Reqb ?a ?b] =>
      first [ replace (Reqb a b) with true by (symmetry; apply Reqb_true; lra)
            | replace (Reqb a b) with false by (symmetry; apply Reqb_false; lra) ]
  end.

Ltac rcmp :=
  repeat match goal with
  | H : Rltb _ _ = true |- _ => apply Rltb_true in H
  | H : Rltb _ _ = false |- _ => apply Rltb_false in H
  | H : Rleb _ _ = true |- _ => apply Rleb_true in H
  | H : Rleb _ _ = false |- _ => apply Rleb_false in H
  | H : Reqb _ _ = true |- _ => apply Reqb_true in H
  | H : Reqb _ _ = false |- _ => apply Reqb_false in H
  | |- Rltb _ _ = true => apply Rltb_true
  | |- Rltb _ _ = false => apply Rltb_false
  | |- Rleb _ _ = true => apply Rleb_true
  | |- Rleb _ _ = false => apply Rleb_false
  | |- Reqb _ _ = true => apply Reqb_true
  | |- Reqb _ _ = false => apply Reqb_false
  end.

(** ** Extended numbers *)
Inductive num := Fin (r : R) | PInf | NInf | NaN.

Definition is_nan (x : num) : bool := match x with NaN => true | _ => false end.
Definition is_fin (x : num) : bool := match x with Fin _ => true | _ => false end.

(** IEEE [<], [<=], [==] *)
Definition nlt (x y : num) : bool :=
  match x, y with
  | NaN, _ | _, NaN => false
  | Fin a, Fin b => Rltb a b
  | NInf, NInf => false
  | NInf, _ => true
  | _, NInf => false
  | PInf, _ => false
  | Fin _, PInf => true
  end.
Definition nle (x y : num) : bool :=
  match x, y with
  | NaN, _ | _, NaN => false
  | Fin a, Fin b => Rleb a b
  | NInf, _ => true
  | _, PInf => true
  | _, NInf => false
  | PInf, _ => false
  end.
Definition neqb (x y : num) : bool :=
  match x, y with
  | Fin a, Fin b => Reqb a b
  | PInf, PInf | NInf, NInf => true
  | _, _ => false
  end.
Definition ngt x y := nlt y x.
Definition nge x y := nle y x.

Definition nneg (x : num) : num :=
  match x with Fin a => Fin (- a) | PInf => NInf | NInf => PInf | NaN => NaN end.
Definition nadd (x y : num) : num :=
  match x, y with
  | NaN, _ | _, NaN => NaN
  | Fin a, Fin b => Fin (a + b)
  | PInf, NInf | NInf, PInf => NaN
  | PInf, _ | _, PInf => PInf
  | NInf, _ | _, NInf => NInf
  end.
Definition nsub (x y : num) : num := nadd x (nneg y).
(** sign of a real applied to an infinity *)
Definition inf_signed (a : R) (pos : bool) : num :=
  if Reqb a 0 then NaN
  else if Rltb 0 a then (if pos then PInf else NInf) else (if pos then NInf else PInf).
Definition nmul (x y : num) : num :=
  match x, y with
  | NaN, _ | _, NaN => NaN
  | Fin a, Fin b => Fin (a * b)
  | Fin a, PInf | PInf, Fin a => inf_signed a true
  | Fin a, NInf | NInf, Fin a => inf_signed a false
  | PInf, PInf | NInf, NInf => PInf
  | PInf, NInf | NInf, PInf => NInf
  end.
(** Division; zero is taken as +0 (numpy warns and returns inf / nan). *)
Definition ndiv (x y : num) : num :=
  match x, y with
  | NaN, _ | _, NaN => NaN
  | Fin a, Fin b =>
      if Reqb b 0 then
        (if Reqb a 0 then NaN else if Rltb 0 a then PInf else NInf)
      else Fin (a / b)
  | Fin _, (PInf | NInf) => Fin 0
  | PInf, Fin b => if Rltb b 0 then NInf else PInf
  | NInf, Fin b => if Rltb b 0 then PInf else NInf
  | _, _ => NaN
  end.

Definition nsum (l : list num) : num := fold_right nadd (Fin 0) l.

(** ** Order lemmas *)
Ltac num_cases :=
  repeat match goal with
  | x : num |- _ => destruct x
  end.

Lemma nlt_irrefl x : nlt x x = false.
Proof. destruct x; simpl; auto. rcmp; lra. Qed.
Lemma nle_refl x : is_nan x = false -> nle x x = true.
Proof. destruct x; simpl; auto; intros; try discriminate. rcmp; lra. Qed.
Lemma nlt_nle x y : nlt x y = true -> nle x y = true.
Proof. destruct x, y; simpl; auto; intros; rcmp; lra. Qed.
Lemma nle_trans x y z : nle x y = true -> nle y z = true -> nle x z = true.
Proof. destruct x, y, z; simpl; auto; intros; try discriminate; rcmp; lra. Qed.
Lemma nlt_le_trans x y z : nlt x y = true -> nle y z = true -> nlt x z = true.
Proof. destruct x, y, z; simpl; auto; intros; try discriminate; rcmp; lra. Qed.
Lemma nle_lt_trans x y z : nle x y = true -> nlt y z = true -> nlt x z = true.
Proof. destruct x, y, z; simpl; auto; intros; try discriminate; rcmp; lra. Qed.
Lemma nlt_trans x y z : nlt x y = true -> nlt y z = true -> nlt x z = true.
Proof. intros H1 H2; eapply nlt_le_trans; eauto using nlt_nle. Qed.
Lemma nle_not_lt x y : nle x y = true -> nlt y x = false.
Proof. destruct x, y; simpl; auto; intros; try discriminate; rcmp; lra. Qed.
Lemma nlt_not_le x y : nlt x y = true -> nle y x = false.
Proof. destruct x, y; simpl; auto; intros; try discriminate; rcmp; lra. Qed.
Lemma not_nlt_le x y : is_nan x = false -> is_nan y = false ->
  nlt x y = false -> nle y x = true.
Proof. destruct x, y; simpl; auto; intros; try discriminate; rcmp; lra. Qed.
Lemma not_nle_lt x y : is_nan x = false -> is_nan y = false ->
  nle x y = false -> nlt y x = true.
Proof. destruct x, y; simpl; auto; intros; try discriminate; rcmp; lra. Qed.
Lemma nle_nan_l x y : nle x y = true -> is_nan x = false.
Proof. destruct x, y; simpl; auto. Qed.
Lemma nle_nan_r x y : nle x y = true -> is_nan y = false.
Proof. destruct x, y; simpl; auto. Qed.
Lemma nlt_nan_l x y : nlt x y = true -> is_nan x = false.
Proof. destruct x, y; simpl; auto. Qed.
Lemma nlt_nan_r x y : nlt x y = true -> is_nan y = false.
Proof. destruct x, y; simpl; auto. Qed.
Lemma nle_antisym x y : nle x y = true -> nle y x = true -> x = y.
Proof.
  destruct x, y; simpl; intros; try discriminate; auto.
  rcmp. f_equal; lra.
Qed.
Lemma neqb_eq x y : neqb x y = true <-> x = y /\ is_nan x = false.
Proof.
  destruct x, y; simpl; split; intros; try discriminate; auto;
    try (destruct H; discriminate).
  - rcmp. subst; auto.
  - destruct H as [H _]. inversion H; subst. rcmp; auto.
Qed.

Lemma nadd_comm x y : nadd x y = nadd y x.
Proof. destruct x, y; simpl; auto. f_equal; lra. Qed.
Lemma nadd_assoc x y z : nadd x (nadd y z) = nadd (nadd x y) z.
Proof. destruct x, y, z; simpl; auto. f_equal; lra. Qed.
Lemma nadd_0_l x : nadd (Fin 0) x = x.
Proof. destruct x; simpl; auto. f_equal; lra. Qed.
Lemma nadd_0_r x : nadd x (Fin 0) = x.
Proof. rewrite nadd_comm; apply nadd_0_l. Qed.
Lemma ndiv_fin a b : b <> 0 -> ndiv (Fin a) (Fin b) = Fin (a / b).
Proof. intros; simpl. destruct (Reqb_spec b 0); [contradiction|auto]. Qed.
