(** * Eventdisplay: pyirf/io/eventdisplay.py *)
From Coq Require Import String Reals List Bool ZArith Lia Lra.
From Verif Require Import Num Numpy Sort Table Cuts Simulations Benchmarks Gadf.
Import ListNotations.
Open Scope R_scope.
Open Scope string_scope.

(** eventdisplay.py:12-25: new name, old name *)
Definition COLUMN_MAP : list (string * string) :=
  [("obs_id", "OBS_ID"); ("event_id", "EVENT_ID"); ("true_energy", "MC_ENERGY"); ("reco_energy", "ENERGY"); ("true_alt", "MC_ALT"); ("true_az", "MC_AZ");
   ("pointing_alt", "PNT_ALT"); ("pointing_az", "PNT_AZ"); ("reco_alt", "ALT"); ("reco_az", "AZ"); ("gh_score", "GH_MVA"); ("multiplicity", "MULTIP")].
Definition has_column {A} (t : list (string * A)) (name : string) : bool := existsb (String.eqb name) (colnames t).
(** [Table.rename_column] of astropy *)
Definition rename_column {A} (t : list (string * A)) (old new : string) : res (list (string * A)) :=
  if has_column t old then
    if has_column t new then Err KeyError
    else Ok (map (fun kc => if String.eqb (fst kc) old then (new, snd kc) else kc) t)
  else Err KeyError.
(** eventdisplay.py:55-56 *)
Fixpoint rename_all {A} (t : list (string * A)) (names : list (string * string)) : res (list (string * A)) :=
  match names with [] => Ok t | (new, old) :: names' => do t' <- rename_column t old new; rename_all t' names' end.

(** [unique(events[["obs_id", "pointing_az", "pointing_alt"]])]: rows are sorted, equal neighbours belong to one group *)
Definition key : Type := (num * num * num)%type.
Definition key_eqb (a b : key) : bool := let '(a1, a2, a3) := a in let '(b1, b2, b3) := b in neqb a1 b1 && neqb a2 b2 && neqb a3 b3.
Definition key_leb (a b : key) : bool :=
  let '(a1, a2, a3) := a in let '(b1, b2, b3) := b in
  nlt a1 b1 || (neqb a1 b1 && (nlt a2 b2 || (neqb a2 b2 && nle a3 b3))).
Fixpoint n_groups (l : list key) : nat :=
  match l with [] => 0%nat | a :: l' => match l' with [] => 1%nat | b :: _ => ((if key_eqb a b then 0 else 1) + n_groups l')%nat end end.
Definition column (t : columns) (name : string) : res (list num) := match getitem t name with Some c => Ok (a_val c) | None => Err KeyError end.
Definition keys_of (t : columns) : res (list key) :=
  do a <- column t "obs_id"; do b <- column t "pointing_az"; do c <- column t "pointing_alt"; Ok (combine (combine a b) c).
(** eventdisplay.py:58; the first row of a group of an empty table does not exist *)
Definition number_of_runs (t : columns) : res Z :=
  do ks <- keys_of t;
  match ks with [] => Err IndexError | _ => Ok (Z.of_nat (n_groups (isort key_leb ks))) end.

(** the first row of the table RUNHEADER (its columns exist, integers as mathematical integers) *)
Record run_header := mkRun { num_use : Z; num_showers : Z; E_range : list R * option unit_; core_range : list R * option unit_;
  viewcone : list R * option unit_; run_index : R }.
Definition u_m := mkUnit 1 6.
(** [u.Quantity(values[i], unit)]: a number without unit is taken in this unit *)
Definition quantity_at (x : list R * option unit_) (i : nat) (target : unit_) : res R :=
  match nth_error (fst x) i with
  | None => Err IndexError
  | Some r => match snd x with
              | None => Ok r
              | Some u => if Nat.eqb (u_dim u) (u_dim target) then Ok (r * (u_scale u / u_scale target)) else Err UnitConversionError
              end
  end.
(** eventdisplay.py:62 [int(sim_events["EVENTS"].sum())] *)
Definition int_of (x : num) : res Z := match x with Fin r => Ok (truncZ r) | NaN => Err ValueError | _ => Err OverflowError end.

(** eventdisplay.py:28-84 [read_eventdisplay_fits]: the three tables of the file; angles of the result in radian *)
Definition read_eventdisplay_fits (events sim_events : columns) (runs : list run_header) (use_histogram : bool) : res (columns * sim_info) :=
  match runs with
  | [] => Err IndexError
  | run :: _ =>
      do events <- rename_all events COLUMN_MAP;
      do n_runs <- number_of_runs events;
      let n_showers_guessed := (n_runs * num_use run * num_showers run)%Z in
      do ev <- column sim_events "EVENTS";
      do n_showers_hist <- int_of (nsum ev);
      let n_showers := if use_histogram then n_showers_hist else n_showers_guessed in
      do emin <- quantity_at (E_range run) 0 u_TeV;
      do emax <- quantity_at (E_range run) 1 u_TeV;
      do impact <- quantity_at (core_range run) 1 u_m;
      do vmin <- quantity_at (viewcone run) 0 u_deg;
      do vmax <- quantity_at (viewcone run) 1 u_deg;
      do sim <- simulated_events_info n_showers emin emax impact (run_index run) (vmin * (PI / 180)) (vmax * (PI / 180));
      Ok (events, sim)
  end.
