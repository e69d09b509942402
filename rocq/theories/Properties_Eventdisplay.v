(** * Properties of pyirf/io/eventdisplay.py (C64) *)
From Coq Require Import String Reals List Bool ZArith Arith Lia Lra.
From Verif Require Import Num Numpy Table Cuts Simulations Benchmarks Gadf Eventdisplay SpecEventdisplay EventdisplayProofs EventdisplayProofs2.
Import ListNotations.
Open Scope R_scope.
Open Scope string_scope.

(** columns; number of showers; energies in TeV, impact in m, angles in radian *)
Theorem C64_read : forall (events sim_events : columns) (rows : list (num * num * num)) (rs : list R) (run : run_header) (later : list run_header) (emin emax impact vmin vmax : R),
  can_rename events -> pointings events rows -> histogram sim_events rs ->
  header_value (E_range run) 0 u_TeV emin -> header_value (E_range run) 1 u_TeV emax -> header_value (core_range run) 1 u_m impact ->
  header_value (viewcone run) 0 u_deg vmin -> header_value (viewcone run) 1 u_deg vmax ->
  forall use_histogram,
  rows <> [] -> run_index run <= -1 -> exists t sim n,
    read_eventdisplay_fits events sim_events (run :: later) use_histogram = Ok (t, sim) /\ renamed events t /\ n_distinct rows n /\
    (use_histogram = false -> Simulations.n_showers sim = (Z.of_nat n * num_use run * num_showers run)%Z) /\
    (use_histogram = true -> (forall r, In r rs -> 0 <= r) -> IZR (Simulations.n_showers sim) <= rsum rs < IZR (Simulations.n_showers sim) + 1) /\
    energy_min sim = emin /\ energy_max sim = emax /\ max_impact sim = impact /\ spectral_index sim = run_index run /\
    viewcone_min sim = vmin * PI / 180 /\ viewcone_max sim = vmax * PI / 180.
Proof. intros; eapply read_ok; eauto. Qed.
Print Assumptions C64_read.
(** the sum of the histogram *)
Theorem C64_histogram_integer : forall (events sim_events : columns) (rows : list (num * num * num)) (rs : list R) (run : run_header) (later : list run_header) (emin emax impact vmin vmax : R),
  can_rename events -> pointings events rows -> histogram sim_events rs ->
  header_value (E_range run) 0 u_TeV emin -> header_value (E_range run) 1 u_TeV emax -> header_value (core_range run) 1 u_m impact ->
  header_value (viewcone run) 0 u_deg vmin -> header_value (viewcone run) 1 u_deg vmax ->
  forall t sim k,
  read_eventdisplay_fits events sim_events (run :: later) true = Ok (t, sim) -> rsum rs = IZR k -> (0 <= k)%Z -> Simulations.n_showers sim = k.
Proof. intros; eapply read_integer_histogram; eauto. Qed.
Print Assumptions C64_histogram_integer.
(** a spectrum that does not fall steeply enough *)
Theorem C64_spectral_index : forall (events sim_events : columns) (rows : list (num * num * num)) (rs : list R) (run : run_header) (later : list run_header) (emin emax impact vmin vmax : R),
  can_rename events -> pointings events rows -> histogram sim_events rs ->
  header_value (E_range run) 0 u_TeV emin -> header_value (E_range run) 1 u_TeV emax -> header_value (core_range run) 1 u_m impact ->
  header_value (viewcone run) 0 u_deg vmin -> header_value (viewcone run) 1 u_deg vmax ->
  forall use_histogram,
  rows <> [] -> -1 < run_index run -> read_eventdisplay_fits events sim_events (run :: later) use_histogram = Err ValueError.
Proof. intros; eapply read_spectrum; eauto. Qed.
Print Assumptions C64_spectral_index.
(** a missing column, or one that has a new name already *)
Theorem C64_names : forall events sim_events run later use_histogram,
  ~ can_rename events -> read_eventdisplay_fits events sim_events (run :: later) use_histogram = Err KeyError.
Proof. exact read_names. Qed.
Print Assumptions C64_names.
Theorem C64_no_header : forall events sim_events use_histogram,
  read_eventdisplay_fits events sim_events [] use_histogram = Err IndexError.
Proof. exact read_no_header. Qed.
Print Assumptions C64_no_header.
(** the number of different elements is unique *)
Theorem C64_runs_unique : forall {A} (l : list A) n m,
  n_distinct l n -> n_distinct l m -> n = m.
Proof. exact @n_distinct_unique. Qed.
Print Assumptions C64_runs_unique.
(** expected: the histogram is used.  No events: IndexError *)
Theorem C64_no_events_refuted : forall (events sim_events : columns) (rows : list (num * num * num)) (rs : list R) (run : run_header) (later : list run_header) (emin emax impact vmin vmax : R),
  can_rename events -> pointings events rows -> histogram sim_events rs ->
  header_value (E_range run) 0 u_TeV emin -> header_value (E_range run) 1 u_TeV emax -> header_value (core_range run) 1 u_m impact ->
  header_value (viewcone run) 0 u_deg vmin -> header_value (viewcone run) 1 u_deg vmax ->
  forall use_histogram,
  rows = [] -> read_eventdisplay_fits events sim_events (run :: later) use_histogram = Err IndexError.
Proof. intros; eapply read_no_events; eauto. Qed.
Print Assumptions C64_no_events_refuted.
Definition ev64 : columns := map (fun n => (n, mkArr [Fin 1; Fin 1; Fin 2] None))
  ["OBS_ID"; "EVENT_ID"; "MC_ENERGY"; "ENERGY"; "MC_ALT"; "MC_AZ"; "PNT_ALT"; "PNT_AZ"; "ALT"; "AZ"; "GH_MVA"; "MULTIP"; "OTHER"].
Definition run64 : run_header := mkRun 10 1000 ([3/1000; 330], None) ([0; 1000], None) ([0; 10], Some u_deg) (-2).
Definition rows64 : list (num * num * num) := [(Fin 1, Fin 1, Fin 1); (Fin 1, Fin 1, Fin 1); (Fin 2, Fin 2, Fin 2)].
(** for [C64_read]: two runs, so 20000 showers are expected *)
Example C64_example : can_rename ev64 /\ pointings ev64 rows64 /\ rows64 <> [] /\ n_distinct rows64 2 /\
  histogram [("EVENTS", mkArr [Fin 5; Fin 7] None)] [5; 7] /\ rsum [5; 7] = IZR 12 /\
  header_value (E_range run64) 0 u_TeV (3/1000) /\ header_value (E_range run64) 1 u_TeV 330 /\ header_value (core_range run64) 1 u_m 1000 /\
  header_value (viewcone run64) 0 u_deg 0 /\ header_value (viewcone run64) 1 u_deg 10 /\ run_index run64 <= -1 /\
  (exists t sim, read_eventdisplay_fits ev64 [("EVENTS", mkArr [Fin 5; Fin 7] None)] [run64] false = Ok (t, sim) /\ Simulations.n_showers sim = 20000%Z) /\
  (exists t sim, read_eventdisplay_fits ev64 [("EVENTS", mkArr [Fin 5; Fin 7] None)] [run64] true = Ok (t, sim) /\ Simulations.n_showers sim = 12%Z).
Proof.
  assert (E1 : can_rename ev64) by (intros old new []; split; cbn; [tauto|intuition discriminate|..]; try tauto; intuition discriminate).
  assert (E2 : pointings ev64 rows64).
  { exists (mkArr [Fin 1; Fin 1; Fin 2] None), (mkArr [Fin 1; Fin 1; Fin 2] None), (mkArr [Fin 1; Fin 1; Fin 2] None). repeat (split; [reflexivity|]).
    intros [|[|[|i]]] o z a Ho Hz Ha; cbn in Ho, Hz, Ha; try (destruct i; discriminate); injection Ho as <-; injection Hz as <-; injection Ha as <-; repeat split. }
  assert (E3 : histogram [("EVENTS", mkArr [Fin 5; Fin 7] None)] [5; 7]) by (exists None; reflexivity).
  assert (V1 : header_value (E_range run64) 0 u_TeV (3/1000)) by (eexists; split; reflexivity).
  assert (V2 : header_value (E_range run64) 1 u_TeV 330) by (eexists; split; reflexivity).
  assert (V3 : header_value (core_range run64) 1 u_m 1000) by (eexists; split; reflexivity).
  assert (V4 : header_value (viewcone run64) 0 u_deg 0) by (eexists; split; [reflexivity|]; split; [reflexivity|cbn; lra]).
  assert (V5 : header_value (viewcone run64) 1 u_deg 10) by (eexists; split; [reflexivity|]; split; [reflexivity|cbn; lra]).
  assert (V6 : run_index run64 <= -1) by (unfold run64; cbn [run_index]; lra).
  assert (N : rows64 <> []) by discriminate.
  assert (D : n_distinct rows64 2).
  { exists [(Fin 1, Fin 1, Fin 1); (Fin 2, Fin 2, Fin 2)]. split; [|split; [|reflexivity]].
    - constructor; [intros [H|[]]; injection H; lra|]. repeat constructor; auto.
    - intros x. cbn. tauto. }
  assert (S : rsum [5; 7] = IZR 12) by (unfold rsum; cbn [fold_right]; lra).
  repeat (split; [assumption|]). split.
  - destruct (C64_read _ _ _ _ _ [] _ _ _ _ _ E1 E2 E3 V1 V2 V3 V4 V5 false N V6) as (t & sim & n & R & _ & D' & Hn & _). exists t, sim. split; [exact R|].
    rewrite (Hn eq_refl), (C64_runs_unique _ _ _ D' D). reflexivity.
  - destruct (C64_read _ _ _ _ _ [] _ _ _ _ _ E1 E2 E3 V1 V2 V3 V4 V5 true N V6) as (t & sim & n & R & _). exists t, sim. split; [exact R|].
    eapply (C64_histogram_integer _ _ _ _ _ [] _ _ _ _ _ E1 E2 E3 V1 V2 V3 V4 V5); [exact R|exact S|lia].
Qed.
