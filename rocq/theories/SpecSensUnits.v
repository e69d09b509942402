(** * SpecSensUnits: tables with energies in other units *)
From Coq Require Import String Reals List.
From Verif Require Import Num Table Quantities SpecUnits SpecIRFUnits.
Import ListNotations.
Open Scope R_scope.

(** the columns of [t] and [t'] have the same names and are equal, except that the edges reco_energy_low, reco_energy_high and
    reco_energy_center are given in the unit [u] in [t] and in TeV in [t'] *)
Definition same_table (u : qunit) (t t' : table) : Prop :=
  unit_of energy_dim u /\ colnames t = colnames t' /\
  forall name, if in_dec string_dec name ["reco_energy_low"; "reco_energy_high"; "reco_energy_center"]%string
               then match getitem t name, getitem t' name with
                    | Some (CN l), Some (CN l') => numbers energy_dim tev l u l'
                    | None, None => True
                    | _, _ => False
                    end
               else getitem t name = getitem t' name.
(** the same exception, or the same table up to the unit of the energies *)
Definition same_histogram (r : res (table * qunit)) (r' : res table) : Prop :=
  match r, r' with Ok (t, u), Ok t' => same_table u t t' | Err e, Err e' => e = e' | _, _ => False end.
(** an angle in radian *)
Definition in_radian (q : quantity) (y : num) : Prop := unit_of angle_dim (q_unit q) /\ y = nmul (q_val q) (Fin (qu_scale (q_unit q))).
