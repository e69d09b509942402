(** * Table: units, quantities and astropy tables. *)
From Coq Require Import String Ascii Reals List Bool ZArith Lia Lra.
From Verif Require Import Num Numpy.
Import ListNotations.
Open Scope R_scope.

(** A unit is a positive scale with respect to the base unit of its dimension. *)
Record unit_ := mkUnit { u_scale : R; u_dim : nat }.
Definition dimless_dim : nat := 0%nat.
Definition one_unit : unit_ := mkUnit 1 dimless_dim.

(** array with optional unit ([hasattr(x, "unit")]) *)
Record arr := mkArr { a_val : list num; a_unit : option unit_ }.

(** [Quantity.to_value(unit)] *)
Definition convert_val (from to : unit_) (x : num) : num :=
  nmul (Fin (u_scale from / u_scale to)) x.
Definition to_value (vals : list num) (from to : unit_) : res (list num) :=
  if Nat.eqb (u_dim from) (u_dim to) then Ok (map (convert_val from to) vals)
  else Err UnitConversionError.

(** ** Tables: association list, insertion order kept, [t[name] = col]
    replaces an existing column in place and appends a new one. *)
Inductive col :=
| CN (l : list num)     (* float column *)
| CZ (l : list Z)       (* integer column *)
| CS (l : list string)
| CB (l : list bool).
Definition table := list (string * col).

Fixpoint setitem {A} (t : list (string * A)) (k : string) (c : A) : list (string * A) :=
  match t with
  | [] => [(k, c)]
  | (k', c') :: t' => if String.eqb k k' then (k, c) :: t' else (k', c') :: setitem t' k c
  end.
Fixpoint getitem {A} (t : list (string * A)) (k : string) : option A :=
  match t with
  | [] => None
  | (k', c') :: t' => if String.eqb k k' then Some c' else getitem t' k
  end.
Definition colnames {A} (t : list (string * A)) : list string := map fst t.

Lemma getitem_setitem_eq {A} (t : list (string * A)) k c : getitem (setitem t k c) k = Some c.
Proof.
  induction t as [|[k' c'] t IH]; simpl.
  - rewrite String.eqb_refl; auto.
  - destruct (String.eqb k k') eqn:E; simpl; [rewrite String.eqb_refl|rewrite E]; auto.
Qed.
Lemma getitem_setitem_neq {A} (t : list (string * A)) k k2 c :
  k2 <> k -> getitem (setitem t k c) k2 = getitem t k2.
Proof.
  intros Hn. induction t as [|[k' c'] t IH]; simpl.
  - apply String.eqb_neq in Hn. rewrite Hn; auto.
  - destruct (String.eqb_spec k k') as [->|Hk]; simpl.
    + apply String.eqb_neq in Hn. rewrite Hn; auto.
    + rewrite IH; auto.
Qed.
Lemma getitem_None_notin {A} (t : list (string * A)) k : getitem t k = None <-> ~ In k (colnames t).
Proof.
  induction t as [|[k' c'] t IH]; simpl; [tauto|].
  destruct (String.eqb_spec k k') as [->|Hk]; [split; [discriminate|tauto]|].
  rewrite IH. split; intros H; [intros [?|?]; [congruence|tauto]|tauto].
Qed.
