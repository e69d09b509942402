(** * SpecCuts: vocabulary for the properties of cuts.py and of the benchmarks *)
From Coq Require Import String Reals List Bool ZArith Lia Lra Permutation.
From Verif Require Import Num Table Cuts SpecBinning.
Import ListNotations.
Open Scope R_scope.

(** [sel]: the entries of [vs] whose partner in [xs] satisfies [P], in order *)
Inductive picks {A} (P : num -> Prop) : list num -> list A -> list A -> Prop :=
| pk_nil : picks P [] [] []
| pk_yes x v xs vs sel : P x -> picks P xs vs sel -> picks P (x :: xs) (v :: vs) (v :: sel)
| pk_no x v xs vs sel : ~ P x -> picks P xs vs sel -> picks P (x :: xs) (v :: vs) sel.

Definition ascending (s : list R) : Prop :=
  forall i a b, nth_error s i = Some a -> nth_error s (S i) = Some b -> a <= b.

(** numpy's documented definition of the percentile (method "linear"): position
    h = p/100 (n-1) in the sorted sample, linear interpolation between the neighbours *)
Definition linear_percentile (vals : list R) (p c : R) : Prop :=
  exists s i a, Permutation vals s /\ ascending s /\ nth_error s i = Some a /\
    let h := p / 100 * (INR (List.length vals) - 1) in
    (h = INR i /\ c = a) \/
    (exists b, nth_error s (S i) = Some b /\ INR i <= h < INR i + 1 /\ c = a + (h - INR i) * (b - a)).

(** [rs]: the numbers in [l] after dropping NaN (no infinities) *)
Inductive finite_part : list num -> list R -> Prop :=
| fp_nil : finite_part [] []
| fp_nan l rs : finite_part l rs -> finite_part (NaN :: l) rs
| fp_fin r l rs : finite_part l rs -> finite_part (Fin r :: l) (r :: rs).

(** [c] is [x] clipped to [lo, hi] *)
Definition is_clipped (lo hi : option R) (x c : num) : Prop :=
  match x with
  | NaN => c = NaN
  | Fin r => exists r', c = Fin r' /\
      (forall l, lo = Some l -> r < l -> r' = l) /\
      (forall h, hi = Some h -> h < r -> r' = h) /\
      ((forall l, lo = Some l -> l <= r) -> (forall h, hi = Some h -> r <= h) -> r' = r)
  | _ => False
  end.
Definition ordered_bounds (lo hi : option R) : Prop :=
  forall l h, lo = Some l -> hi = Some h -> l <= h.

(** the value the documentation promises for a bin with the events [sel] *)
Definition documented_cut (fill : num) (p : R) (lo hi : option R) (min_events : Z) (sel : list num) (c : num) : Prop :=
  if (Z.of_nat (List.length sel) <? min_events)%Z then c = fill
  else match sel with
       | [] => c = fill
       | _ => forall rs, finite_part sel rs ->
           exists raw, is_clipped lo hi raw c /\
             match rs with [] => raw = NaN | _ => exists r, raw = Fin r /\ linear_percentile rs p r end
       end.

(** cut tables whose bins touch *)
Definition contiguous (low high : list num) : Prop :=
  List.length low = List.length high /\
  forall i a b, nth_error low (S i) = Some a -> nth_error high i = Some b -> a = b.
Definition in_table_bin (low high : list num) (k : nat) (x : num) : Prop :=
  exists a b, nth_error low k = Some a /\ nth_error high k = Some b /\ nle a x = true /\ nlt x b = true.
Definition edges_ascend (low high : list num) : Prop :=
  (forall e, In e low \/ In e high -> is_nan e = false) /\
  forall k a b, nth_error low k = Some a -> nth_error high k = Some b -> nle a b = true.

(** shorthands: arguments without units *)
Definition optn (o : option R) : option num := match o with Some r => Some (Fin r) | None => None end.
Definition pargs (pc : percentile_arg) := match pc with PScalar p => [p] | PList l => l end.
Definition raw (l : list num) := mkArr l None.
Definition plain (x : num) := mkScalar x None.
Definition plaino (x : option num) := match x with Some v => Some (plain v) | None => None end.

(** tables over the same columns with the same number of rows, without NaN *)
Definition comparable (names : list string) (n : nat) (t : qtable) : Prop :=
  q_names t = names /\ List.length (q_rows t) = n /\ forall r x, In r (q_rows t) -> In x r -> is_nan x = false.

(** [z] is the number [r] cut off towards zero (how a float is stored in an integer column) *)
Definition truncated (r : R) (z : Z) : Prop :=
  0 <= IZR z * r /\ Rabs (IZR z) <= Rabs r < Rabs (IZR z) + 1.
(** the bin [low[k], low[k+1]), the last one [low[-1], high[-1]): what a table with gaps is taken for *)
Definition in_stretched_bin (low high : list num) (k : nat) (x : num) : Prop :=
  exists a b, nth_error low k = Some a /\ nth_error (low ++ [last high NaN]) (S k) = Some b /\ nle a x = true /\ nlt x b = true.
(** rows hold the same numbers; NaN is not equal to itself *)
Definition same_numbers (a b : list num) : Prop := Forall2 (fun x y => x = y /\ x <> NaN) a b.
(** tables over the same columns which agree row by row; a one-row table stands for any number of equal rows *)
Inductive tables_agree (s t : qtable) : Prop :=
| ta_rows : q_names s = q_names t -> Forall2 same_numbers (q_rows s) (q_rows t) -> tables_agree s t
| ta_left r : q_names s = q_names t -> q_rows s = [r] -> Forall (same_numbers r) (q_rows t) -> tables_agree s t
| ta_right r : q_names s = q_names t -> q_rows t = [r] -> Forall (fun a => same_numbers a r) (q_rows s) -> tables_agree s t.
(** tables numpy can compare at all *)
Definition comparable_shapes (s t : qtable) : Prop :=
  q_names s = q_names t /\
  (List.length (q_rows s) = List.length (q_rows t) \/ List.length (q_rows s) = 1%nat \/ List.length (q_rows t) = 1%nat).

(** Gaussian weights on the offsets -reach .. reach *)
Definition gaussian_weights (sigma : R) (reach : Z) (w : Z -> R) : Prop :=
  (IZR reach <= 4 * sigma + 1/2 < IZR reach + 1) /\
  (forall j, 0 < w j) /\
  (forall i j, w i * exp (- (IZR j * IZR j) / (2 * (sigma * sigma))) = w j * exp (- (IZR i * IZR i) / (2 * (sigma * sigma)))) /\
  (exists offs, NoDup offs /\ (forall j, In j offs <-> (- reach <= j <= reach)%Z) /\ fold_right Rplus 0 (map w offs) = 1).
(** entry [i] of [ss] is the weighted mean of the neighbours of entry [i] of [us]; positions beyond the ends repeat the end value *)
Definition smoothed_along (reach : Z) (w : Z -> R) (us ss : list R) : Prop :=
  List.length ss = List.length us /\
  forall i s offs, nth_error ss i = Some s -> NoDup offs -> (forall j, In j offs <-> (- reach <= j <= reach)%Z) ->
    s = fold_right Rplus 0 (map (fun j => w j * nth (Z.to_nat (Z.max 0 (Z.min (Z.of_nat i + j) (Z.of_nat (List.length us) - 1)))) us 0) offs).
