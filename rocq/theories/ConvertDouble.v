(** * ConvertDouble: bins in another unit than the data, converted in double precision *)
From Coq Require Import String Reals List Bool.
From Verif Require Import Num Numpy Table Binning Double.
Import ListNotations.
Open Scope R_scope.

(** binning.py:168-170 [bins.to_value(unit)]: astropy multiplies every edge by the factor [s] between the units, a double;
    the values of [data] stay as they are (their unit is the target) *)
Definition converted (s : R) (bins : list num) : list num := map (fun e => fmul e (Fin s)) bins.
(** binning.py:133-180 [calculate_bin_indices] for Quantities whose units differ by the factor [s] *)
Definition calculate_bin_indices_double (s : R) (data bins : list num) : res (list Z * list bool) :=
  calculate_bin_indices_raw data (converted s bins).
(** binning.py:183-257 [create_histogram_table]: np.histogram on Quantities converts the edges in the same way.  The columns
    "n" and "n_weighted" of this table are those of the code; the columns with the edges, which the code keeps in the unit of
    [bins], are not modelled here *)
Definition create_histogram_table_converted (s : R) (events : etable) (bins : list num) (key : string) : res table :=
  create_histogram_table events (converted s bins) key.
