(** * SpecSelection: what a selection of events does to the effective area and the background *)
From Coq Require Import Reals List.
From Verif Require Import Num.
Import ListNotations.
Open Scope R_scope.

(** [m1] of [m] events of a bin are kept; the effective area was [x] before and is [x1] after: it did not grow, and the two areas
    are in the ratio of the two numbers. Without simulated showers in the bin both are NaN (no events), or the area was infinite
    and is infinite or NaN (no event kept). *)
Definition efficiency (m1 m : nat) (x1 x : num) : Prop :=
  (m1 <= m)%nat /\
  ((exists A1 A, x1 = Fin A1 /\ x = Fin A /\ A1 <= A /\ A1 * INR m = A * INR m1) \/
   (m = 0%nat /\ x = NaN /\ x1 = NaN) \/
   (m1 <> 0%nat /\ x = PInf /\ x1 = PInf) \/
   (m <> 0%nat /\ m1 = 0%nat /\ x = PInf /\ x1 = NaN)).
(** the rate was [x] before and is [x1] after the selection of events of weight [W1] from events of weight [W] *)
Definition rate_of_selection (W1 W : R) (x1 x : num) : Prop :=
  W1 <= W /\ exists r1 r, x1 = Fin r1 /\ x = Fin r /\ r1 <= r /\ r1 * W = r * W1.
(** [table[mask]] *)
Fixpoint kept {A} (mask : list bool) (l : list A) : list A :=
  match mask, l with
  | true :: mask', a :: l' => a :: kept mask' l'
  | false :: mask', _ :: l' => kept mask' l'
  | _, _ => []
  end.
