(** * SpecRebin: the same axis with finer and with coarser bins *)
From Coq Require Import Reals List.
From Verif Require Import Num SpecBinning.
Import ListNotations.
Open Scope R_scope.

(** bin [k] of the coarse edges consists of the bins a, ..., b - 1 of the fine ones; the last bin has to be the last one in both
    (histograms include its upper edge) *)
Definition joins {A} (fine coarse : list A) (k a b : nat) : Prop :=
  (a < b)%nat /\ (exists lo, nth_error coarse k = Some lo /\ nth_error fine a = Some lo) /\ (exists hi, nth_error coarse (S k) = Some hi /\ nth_error fine b = Some hi) /\
  (S (S k) = List.length coarse <-> S b = List.length fine).
(** f a + f (a + 1) + ... + f (b - 1) *)
Fixpoint sum_of (n : nat) (f : nat -> R) (a : nat) : R := match n with O => 0 | S n' => f a + sum_of n' f (S a) end.
Definition sum_between (a b : nat) (f : nat -> R) : R := sum_of (b - a) f a.
(** first and last edge are the same *)
Definition same_ends {A} (l l' : list A) : Prop :=
  nth_error l 0 = nth_error l' 0 /\ nth_error l (List.length l - 1) = nth_error l' (List.length l' - 1).
