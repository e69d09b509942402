(** * SpecBinning: the vocabulary in which the binning properties are stated.
    Nothing here refers to how the model computes. *)
From Coq Require Import String Reals List Bool ZArith Lia Lra.
From Verif Require Import Num Table.
Import ListNotations.
Open Scope R_scope.

(** Edges are numbers (no NaN) and never go down. *)
Definition nondecreasing (edges : list num) : Prop :=
  (forall e, In e edges -> is_nan e = false) /\
  (forall i a b, nth_error edges i = Some a -> nth_error edges (S i) = Some b -> nle a b = true).
Definition nonincreasing (edges : list num) : Prop :=
  (forall e, In e edges -> is_nan e = false) /\
  (forall i a b, nth_error edges i = Some a -> nth_error edges (S i) = Some b -> nle b a = true).

(** [x] lies in bin [k]: lower edge included, upper edge excluded. *)
Definition in_bin (edges : list num) (k : nat) (x : num) : Prop :=
  exists lo hi, nth_error edges k = Some lo /\ nth_error edges (S k) = Some hi /\
                nle lo x = true /\ nlt x hi = true.
(** the same for decreasing edges: bins[k] > x >= bins[k+1] *)
Definition in_bin_dec (edges : list num) (k : nat) (x : num) : Prop :=
  exists a b, nth_error edges k = Some a /\ nth_error edges (S k) = Some b /\
              nlt x a = true /\ nle b x = true.
Definition first_edge (edges : list num) (e : num) : Prop := nth_error edges 0 = Some e.
Definition last_edge (edges : list num) (e : num) : Prop :=
  nth_error edges (List.length edges - 1) = Some e.

(** What index and validity flag the documentation promises for [x]. *)
Definition INT64_MIN : Z := (-9223372036854775808)%Z.
Definition INT64_MAX : Z := 9223372036854775807%Z.
Inductive bin_outcome (edges : list num) (x : num) : Z -> bool -> Prop :=
| inside k : in_bin edges k x -> bin_outcome edges x (Z.of_nat k) true
| below e : first_edge edges e -> nlt x e = true -> bin_outcome edges x INT64_MIN false
| above e : last_edge edges e -> nle e x = true \/ x = NaN -> bin_outcome edges x INT64_MAX false.
Inductive bin_outcome_dec (edges : list num) (x : num) : Z -> bool -> Prop :=
| inside_dec k : in_bin_dec edges k x -> bin_outcome_dec edges x (Z.of_nat k) true
| below_dec e : first_edge edges e -> nle e x = true \/ x = NaN ->
    bin_outcome_dec edges x INT64_MIN false
| above_dec e : last_edge edges e -> nlt x e = true -> bin_outcome_dec edges x INT64_MAX false.

(** Histogram bins: half-open, the last one closed. *)
Definition in_hist_bin (edges : list num) (k : nat) (x : num) : Prop :=
  in_bin edges k x \/
  ((S (S k) = List.length edges)%nat /\ last_edge edges x).

(** number of list elements with a property, as a relation *)
Inductive number_of {A} (P : A -> Prop) : list A -> nat -> Prop :=
| no_nil : number_of P [] 0
| no_yes a l n : P a -> number_of P l n -> number_of P (a :: l) (S n)
| no_no a l n : ~ P a -> number_of P l n -> number_of P (a :: l) n.
(** sum of weights of the list elements with a property *)
Inductive weight_of {A} (w : A -> R) (P : A -> Prop) : list A -> R -> Prop :=
| wo_nil : weight_of w P [] 0
| wo_yes a l r : P a -> weight_of w P l r -> weight_of w P (a :: l) (w a + r)
| wo_no a l r : ~ P a -> weight_of w P l r -> weight_of w P (a :: l) r.

Definition in_range (edges : list num) (x : num) : Prop :=
  exists a b, first_edge edges a /\ last_edge edges b /\ nle a x = true /\ nle x b = true.

(** what a list of counts (weights) must satisfy to be "the histogram of [evs]" *)
Definition is_histogram {A} (x : A -> num) (evs : list A) (edges : list num) (n : list Z) : Prop :=
  List.length n = (List.length edges - 1)%nat /\
  forall k c, nth_error n k = Some c -> exists m, c = Z.of_nat m /\
    number_of (fun e => in_hist_bin edges k (x e)) evs m.
Definition is_histogram_w {A} (x : A -> num) (w : A -> R) (evs : list A) (edges : list num) (n : list R) : Prop :=
  List.length n = (List.length edges - 1)%nat /\
  forall k c, nth_error n k = Some c -> weight_of w (fun e => in_hist_bin edges k (x e)) evs c.

(** no label is another label with "_weighted" appended *)
Definition no_collision (labels : list string) : Prop :=
  forall p q, In p labels -> In q labels -> p <> (q ++ "_weighted")%string.

(** the tolerance of [np.allclose(a, b, rtol=1e-5)] *)
Definition within_tolerance (a b : num) : Prop :=
  match a, b with
  | Fin x, Fin y => Rabs (x - y) <= 1/100000000 + 1/100000 * Rabs y
  | PInf, PInf | NInf, NInf => True
  | _, _ => False
  end.
(** every lower edge (but the first) matches the previous upper edge *)
Definition touching (lo hi : list num) : Prop :=
  forall i a b, nth_error lo (S i) = Some a -> nth_error hi i = Some b -> (S i < List.length hi)%nat ->
    within_tolerance a b.

Definition increasing (l : list R) : Prop :=
  forall i a b, nth_error l i = Some a -> nth_error l (S i) = Some b -> a < b.

(** scipy's contract used for interp1d: the interpolant passes through its knots *)
Definition passes_through_knots (itp : list R -> list R -> R -> R) : Prop :=
  forall xs ys i x y, increasing xs -> List.length xs = List.length ys ->
    nth_error xs i = Some x -> nth_error ys i = Some y -> itp xs ys x = y.
(** with three knots the quadratic spline is the parabola through them *)
Definition parabola (x0 x1 x2 y0 y1 y2 x : R) : R :=
  y0 * ((x - x1) * (x - x2)) / ((x0 - x1) * (x0 - x2)) +
  y1 * ((x - x0) * (x - x2)) / ((x1 - x0) * (x1 - x2)) +
  y2 * ((x - x0) * (x - x1)) / ((x2 - x0) * (x2 - x1)).
Definition quadratic_on_three_knots (itp : list R -> list R -> R -> R) : Prop :=
  forall x0 x1 x2 y0 y1 y2 x, x0 < x1 < x2 -> x0 <= x <= x2 ->
    itp [x0; x1; x2] [y0; y1; y2] x = parabola x0 x1 x2 y0 y1 y2 x.
