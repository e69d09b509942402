(** * SpecIRFUnits: event tables, bins and results in different units *)
From Coq Require Import String Reals List.
From Verif Require Import Num Tensor Quantities SpectralUnits SimulationUnits IRFUnits SpecUnits.
Import ListNotations.
Open Scope R_scope.

(** [l] in the unit [u] are the numbers [l'] in the unit of the same dimension with [k] SI units *)
Definition numbers (d : dim) (k : R) (l : list num) (u : qunit) (l' : list num) : Prop :=
  unit_of d u /\ l' = map (fun x => nmul x (Fin (qu_scale u / k))) l.
Definition reals (d : dim) (k : R) (l : list R) (u : qunit) (l' : list R) : Prop :=
  unit_of d u /\ l' = map (fun x => x * (qu_scale u / k)) l.
(** one degree in SI units *)
Definition one_degree : R := PI / 180.
(** a table with [n] rows: the names of the columns are different, every column has one entry per row *)
Definition has_rows (t : qevents) (n : nat) : Prop :=
  qe_rows t = n /\ NoDup (map fst (qe_columns t)) /\
  (forall name l, In (name, APlain l) (qe_columns t) -> List.length l = n) /\
  (forall name l u, In (name, AQty (mkQA l u)) (qe_columns t) -> List.length l = n) /\
  (forall w, qe_weight t = Some w -> List.length w = n) /\ (forall p, qe_ptype t = Some p -> List.length p = n).
(** the table has a column with these values, given in some unit *)
Definition has_column (t : qevents) (name : string) (d : dim) (k : R) (values : list num) : Prop :=
  exists l u, In (name, AQty (mkQA l u)) (qe_columns t) /\ numbers d k l u values.
(** the same outcome: the same exception, or an array of the same shape whose entries have the dimension [d] and are
    the numbers of [r'] in the unit with [k] SI units *)
Definition same_outcome (d : dim) (k : R) (r : res (tensor * qunit)) (r' : res tensor) : Prop :=
  match r, r' with
  | Ok (a, u), Ok b => unit_of d u /\ shape a = shape b /\ forall ix, nmul (at_ a ix) (Fin (qu_scale u / k)) = at_ b ix
  | Err e, Err e' => e = e'
  | _, _ => False
  end.
Definition area_dim : dim := mkDim 2 0 0 0.
Definition per_solid_angle_dim : dim := mkDim 0 0 0 (-2).
(** per energy, time and solid angle *)
Definition background_dim : dim := mkDim (-2) (-1) 1 (-2).
(** the interpolation does not depend on the unit of its arguments *)
Definition scale_free (itp : list R -> list R -> R -> R) : Prop := forall c xs ys x, 0 < c -> itp (map (fun x => x * c) xs) ys (x * c) = itp xs ys x.
(** a column, energies or angles with a unit of this dimension *)
Definition with_dimension (t : qevents) (name : string) (d : dim) : Prop := exists l u, In (name, AQty (mkQA l u)) (qe_columns t) /\ qu_dim u = d.
Definition array_of (d : dim) (a : array_arg) : Prop := exists l u, a = AQty (mkQA l u) /\ qu_dim u = d.
Definition angles_of (d : dim) (a : angle_arg) : Prop := exists l u, a = GQty l u /\ qu_dim u = d.
