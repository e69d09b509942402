(** * Specifications used in the properties of pyirf/benchmarks *)
From Coq Require Import String Reals List Bool ZArith Arith Lia Lra Permutation.
From Verif Require Import Num Table SpecBinning Cuts SpecCuts SpecIRF Benchmarks.
Import ListNotations.
Open Scope R_scope.

(** the value of a bin with the values [sel]: the quantile of the values that are not NaN, NaN if there is none *)
Definition documented_quantile (sel : list num) (q : R) (c : num) : Prop :=
  forall rs, finite_part sel rs -> match rs with [] => c = NaN | _ => exists r, c = Fin r /\ linear_percentile rs (100 * q) r end.
(** a column of the result and its entry for bin [k] *)
Definition cell (t : bench_table) (name : string) (k : nat) (c : num) : Prop :=
  exists col, getitem (bt_cols t) name = Some col /\ nth_error col k = Some c.
(** a table with the bins [edges] and the columns [names], each with one entry per bin *)
Definition table_of (edges : list num) (names : list string) (t : bench_table) : Prop :=
  List.length (bt_n_events t) = (List.length edges - 1)%nat /\ map fst (bt_cols t) = names /\
  (forall name col, In (name, col) (bt_cols t) -> List.length col = (List.length edges - 1)%nat) /\
  List.length (bt_low t) = (List.length edges - 1)%nat /\ List.length (bt_high t) = (List.length edges - 1)%nat /\
  forall k, (k < List.length edges - 1)%nat -> nth_error (bt_low t) k = nth_error edges k /\ nth_error (bt_high t) k = nth_error edges (S k).
(** relative errors of energies in two units *)
Inductive rel_errors (ur ut : unit_) : list num -> list num -> list R -> Prop :=
| re_nil : rel_errors ur ut [] [] []
| re_cons r t rs ts es e : 0 < t -> e = (r * u_scale ur) / (t * u_scale ut) - 1 -> rel_errors ur ut rs ts es -> rel_errors ur ut (Fin r :: rs) (Fin t :: ts) (e :: es).
(** the content of a histogram with densities [h] below [x]: a bin contributes its part below [x] *)
Fixpoint content_below (edges h : list R) (x : R) : R :=
  match edges, h with
  | lo :: ((hi :: _) as rest), d :: h' => d * Rmax 0 (Rmin x hi - lo) + content_below rest h' x
  | _, _ => 0
  end.
(** the energy dispersion column [h] on the edges; at least two edges *)
Definition dispersion_column (edges h : list R) : Prop :=
  increasing edges /\ (List.length edges = List.length h + 1)%nat /\ (1 <= List.length h)%nat /\ forall d, In d h -> 0 <= d.
(** the energies [xs] and their unit [u] that are binned *)
Definition binned_energy (energy_type : string) (trues recos : list num) (ut ur : unit_) (xs : list num) (u : unit_) : Prop :=
  (energy_type = "true"%string /\ xs = trues /\ u = ut) \/ (energy_type = "reco"%string /\ xs = recos /\ u = ur).
(** median and half of the distance between the quantiles [lower] and [upper] of the values [sel] *)
Definition bias_and_resolution (lower upper : R) (sel : list R) (bias resolution : num) : Prop :=
  match sel with
  | [] => bias = NaN /\ resolution = NaN
  | _ => exists m lo hi, bias = Fin m /\ resolution = Fin ((hi - lo) / 2) /\ linear_percentile sel 50 m /\
      linear_percentile sel (100 * lower) lo /\ linear_percentile sel (100 * upper) hi
  end.
(** [x]: where the content of the histogram reaches [q], looking at the upper edges of the bins only: the largest value up to
    the last edge with at most this content; the first upper edge if the first bin alone has more than [q] *)
Definition dispersion_quantile (edges h : list R) (q x : R) : Prop :=
  exists e1 el, nth_error edges 1 = Some e1 /\ nth_error edges (List.length edges - 1) = Some el /\ e1 <= x <= el /\
    (content_below edges h e1 <= q <= content_below edges h el -> content_below edges h x = q) /\
    (content_below edges h e1 <= q -> forall y, y <= el -> content_below edges h y <= q -> y <= x) /\
    (q < content_below edges h e1 -> x = e1) /\ (content_below edges h el < q -> x = el).
