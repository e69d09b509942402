(** * Properties_Errors2: C80 for Eventdisplay files *)
From Coq Require Import String Reals List Bool ZArith Lia Lra.
From Verif Require Import Num Numpy Table Simulations Benchmarks Gadf Eventdisplay SpecEventdisplay Properties_Eventdisplay SpecErrors ErrorsProofs2.
Import ListNotations.
Open Scope R_scope.

(** no column EVENTS *)
Theorem C80_eventdisplay_no_histogram : forall events sim_events rows run later use_histogram,
  can_rename events -> pointings events rows -> rows <> [] -> getitem sim_events "EVENTS" = None ->
  read_eventdisplay_fits events sim_events (run :: later) use_histogram = Err KeyError.
Proof. intros. eapply read_no_histogram; eauto. Qed.
Print Assumptions C80_eventdisplay_no_histogram.
(** numbers of showers that are not finite *)
Theorem C80_eventdisplay_bad_histogram : forall events sim_events rows run later use_histogram u l,
  can_rename events -> pointings events rows -> rows <> [] -> getitem sim_events "EVENTS" = Some (mkArr l u) ->
  (In NaN l \/ (In PInf l /\ In NInf l) -> read_eventdisplay_fits events sim_events (run :: later) use_histogram = Err ValueError) /\
  (~ In NaN l -> In PInf l -> ~ In NInf l -> read_eventdisplay_fits events sim_events (run :: later) use_histogram = Err OverflowError).
Proof. intros. eapply read_bad_histogram; eauto. Qed.
Print Assumptions C80_eventdisplay_bad_histogram.
(** ranges of the header with fewer than two numbers, or in a wrong unit *)
Theorem C80_eventdisplay_ranges : forall events sim_events rows run later use_histogram rs,
  can_rename events -> pointings events rows -> rows <> [] -> histogram sim_events rs ->
  let r := read_eventdisplay_fits events sim_events (run :: later) use_histogram in
  ((List.length (fst (E_range run)) < 2)%nat -> fits_unit (E_range run) u_TeV -> r = Err IndexError) /\
  ((1 <= List.length (fst (E_range run)))%nat -> wrong_unit (E_range run) u_TeV -> r = Err UnitConversionError) /\
  ((2 <= List.length (fst (E_range run)))%nat -> fits_unit (E_range run) u_TeV ->
    ((List.length (fst (core_range run)) < 2)%nat -> r = Err IndexError) /\
    ((2 <= List.length (fst (core_range run)))%nat -> wrong_unit (core_range run) u_m -> r = Err UnitConversionError) /\
    ((2 <= List.length (fst (core_range run)))%nat -> fits_unit (core_range run) u_m ->
      ((List.length (fst (viewcone run)) < 2)%nat -> fits_unit (viewcone run) u_deg -> r = Err IndexError) /\
      ((1 <= List.length (fst (viewcone run)))%nat -> wrong_unit (viewcone run) u_deg -> r = Err UnitConversionError))).
Proof. intros. eapply read_ranges; eauto. Qed.
Print Assumptions C80_eventdisplay_ranges.
(** energies, angles, areas, per solid angle, background rates, lengths and numbers cannot be converted into each other *)
Theorem C80_units_differ : NoDup (map u_dim [one_unit; u_TeV; u_deg; u_m2; u_per_sr; u_background; u_m]).
Proof. exact units_differ. Qed.
Print Assumptions C80_units_differ.
Example C80_eventdisplay_ex : can_rename ev64 /\ pointings ev64 rows64 /\ rows64 <> [] /\ histogram [("EVENTS"%string, mkArr [Fin 5; Fin 7] None)] [5; 7] /\
  fits_unit (E_range run64) u_TeV /\ fits_unit (viewcone run64) u_deg /\ wrong_unit ([1; 2], Some u_m) u_TeV.
Proof.
  destruct C64_example as (H1 & H2 & H3 & _ & H4 & _). split; [exact H1|]. split; [exact H2|]. split; [exact H3|]. split; [exact H4|].
  split; [intros w; discriminate|]. split; [intros w E; injection E as <-; reflexivity|]. exists u_m. split; [reflexivity|discriminate].
Qed.
