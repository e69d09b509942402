(** * Specifications used in the properties of pyirf/io/eventdisplay.py *)
From Coq Require Import String Reals List Bool ZArith Lia Lra.
From Verif Require Import Num Numpy Table Benchmarks Gadf Simulations Eventdisplay.
Import ListNotations.
Open Scope R_scope.
Open Scope string_scope.

(** the names of Eventdisplay and the ones of pyirf *)
Inductive ed_name : string -> string -> Prop :=
| ed_obs_id : ed_name "OBS_ID" "obs_id" | ed_event_id : ed_name "EVENT_ID" "event_id" | ed_true_energy : ed_name "MC_ENERGY" "true_energy"
| ed_reco_energy : ed_name "ENERGY" "reco_energy" | ed_true_alt : ed_name "MC_ALT" "true_alt" | ed_true_az : ed_name "MC_AZ" "true_az"
| ed_pointing_alt : ed_name "PNT_ALT" "pointing_alt" | ed_pointing_az : ed_name "PNT_AZ" "pointing_az" | ed_reco_alt : ed_name "ALT" "reco_alt"
| ed_reco_az : ed_name "AZ" "reco_az" | ed_gh_score : ed_name "GH_MVA" "gh_score" | ed_multiplicity : ed_name "MULTIP" "multiplicity".
(** the same columns at the same places, the twelve ones renamed *)
Definition renamed (before after : columns) : Prop :=
  Forall2 (fun b a => snd a = snd b /\ (ed_name (fst b) (fst a) \/ (fst a = fst b /\ forall new, ~ ed_name (fst b) new))) before after.
(** all columns are there, and the new names are free *)
Definition can_rename (t : columns) : Prop :=
  forall old new, ed_name old new -> In old (colnames t) /\ ~ In new (colnames t).
(** [n] different elements *)
Definition n_distinct {A} (l : list A) (n : nat) : Prop :=
  exists d, NoDup d /\ (forall x, In x d <-> In x l) /\ List.length d = n.
(** observation and pointing of each event *)
Definition pointings (t : columns) (rows : list (num * num * num)) : Prop :=
  exists obs az alt, getitem t "OBS_ID" = Some obs /\ getitem t "PNT_AZ" = Some az /\ getitem t "PNT_ALT" = Some alt /\
    List.length (a_val obs) = List.length rows /\ List.length (a_val az) = List.length rows /\ List.length (a_val alt) = List.length rows /\
    forall i o z a, nth_error (a_val obs) i = Some o -> nth_error (a_val az) i = Some z -> nth_error (a_val alt) i = Some a ->
      nth_error rows i = Some (o, z, a) /\ is_nan o = false /\ is_nan z = false /\ is_nan a = false.
(** the number at a position, in a unit; without unit it is taken as it is *)
Definition header_value (x : list R * option unit_) (i : nat) (target : unit_) (v : R) : Prop :=
  exists r, nth_error (fst x) i = Some r /\
    match snd x with None => v = r | Some u => u_dim u = u_dim target /\ v = r * (u_scale u / u_scale target) end.
(** contents of the histogram *)
Definition histogram (sim_events : columns) (rs : list R) : Prop :=
  exists u, getitem sim_events "EVENTS" = Some (mkArr (map Fin rs) u).
