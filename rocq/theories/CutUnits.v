(** * CutUnits: cuts.py [evaluate_binned_cut] for values and cuts with units *)
From Coq Require Import String Reals List Bool ZArith.
From Verif Require Import Num Numpy Table Binning Cuts.
Import ListNotations.
Open Scope R_scope.

(** cuts.py:153-190 [evaluate_binned_cut] for quantities: as [Cuts.evaluate_binned_cut]; the comparison in line 149 converts the
    cuts to the unit of the values, after the cuts have been picked by index.  Not modelled: values with a unit and cuts without
    or vice versa *)
Definition evaluate_binned_cut_q (is_qtable : bool) (values : list num) (values_unit : unit_) (bin_values : arr)
    (low high : list num) (edge_unit : option unit_) (cuts : list num) (cuts_unit : unit_) (op : num -> num -> bool) : res (list bool) :=
  do picked <- evaluate_binned_cut is_qtable values bin_values low high edge_unit cuts (fun _ _ => true);
  if Nat.eqb (u_dim cuts_unit) (u_dim values_unit)
  then evaluate_binned_cut is_qtable values bin_values low high edge_unit (map (convert_val cuts_unit values_unit) cuts) op
  else Err UnitConversionError.
