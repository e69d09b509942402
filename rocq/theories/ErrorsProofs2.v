(** * Proofs for C80: eventdisplay files *)
From Coq Require Import String Reals List Bool ZArith Lia Lra.
From Verif Require Import Num Numpy Lists Table Simulations Benchmarks Gadf Eventdisplay SpecEventdisplay EventdisplayProofs EventdisplayProofs2 SpecErrors.
Import ListNotations.
Open Scope R_scope.

(** ** eventdisplay files *)
Lemma nsum_nan l : nsum l = NaN -> In NaN l \/ (In PInf l /\ In NInf l).
Proof.
  assert (P : forall l, nsum l = PInf -> In PInf l). { induction l0 as [|x l0 IH]; [discriminate|]. cbn. unfold nsum in IH. destruct x, (fold_right nadd (Fin 0) l0); cbn; try discriminate; auto. }
  assert (N : forall l, nsum l = NInf -> In NInf l). { induction l0 as [|x l0 IH]; [discriminate|]. cbn. unfold nsum in IH. destruct x, (fold_right nadd (Fin 0) l0); cbn; try discriminate; auto. }
  induction l as [|x l IH]; [discriminate|]. change (nsum (x :: l)) with (nadd x (nsum l)). specialize (P l). specialize (N l).
  destruct x, (nsum l); cbn; try discriminate; intros _; intuition auto.
Qed.
Lemma nsum_cases l : nsum l = NaN \/ (nsum l = PInf /\ ~ In NaN l /\ ~ In NInf l /\ In PInf l) \/ (nsum l = NInf /\ ~ In NaN l /\ ~ In PInf l /\ In NInf l) \/
     (exists r, nsum l = Fin r /\ ~ In NaN l /\ ~ In NInf l /\ ~ In PInf l).
Proof.
  induction l as [|x l IH]; [right; right; right; exists 0; cbn; tauto|]. change (nsum (x :: l)) with (nadd x (nsum l)).
  destruct IH as [->|[(-> & H)|[(-> & H)|(r & -> & H)]]].
  - left. destruct x; reflexivity.
  - destruct x; cbn; try (left; reflexivity); right; left; intuition discriminate.
  - destruct x; cbn; try (left; reflexivity); right; right; left; intuition discriminate.
  - destruct x; cbn; [right; right; right; eexists; split; [reflexivity|]; intuition discriminate|right; left; intuition discriminate|right; right; left; intuition discriminate|left; reflexivity].
Qed.
Section Read.
Context (events sim_events : columns) (rows : list (num * num * num)) (run : run_header) (later : list run_header) (use_histogram : bool).
Context (Hc : can_rename events) (Hp : pointings events rows) (Hne : rows <> []).
Lemma read_start : exists t n, rename_all events COLUMN_MAP = Ok t /\ number_of_runs t = Ok n.
Proof.
  destruct (proj1 (rename_spec events) Hc) as (t & Et & Rt & Dt). destruct (runs_spec events rows Hc Hp Hne) as (n & Dn & En). rewrite <- Dt in En. eauto.
Qed.
Lemma read_no_histogram : getitem sim_events "EVENTS" = None -> read_eventdisplay_fits events sim_events (run :: later) use_histogram = Err KeyError.
Proof. intros H. destruct read_start as (t & n & Et & En). unfold read_eventdisplay_fits. rewrite Et. cbn [rbind]. rewrite En. cbn [rbind]. unfold column. rewrite H. reflexivity. Qed.
Lemma read_bad_histogram u l : getitem sim_events "EVENTS" = Some (mkArr l u) ->
  (In NaN l \/ (In PInf l /\ In NInf l) -> read_eventdisplay_fits events sim_events (run :: later) use_histogram = Err ValueError) /\
  (~ In NaN l -> In PInf l -> ~ In NInf l -> read_eventdisplay_fits events sim_events (run :: later) use_histogram = Err OverflowError).
Proof.
  intros H. destruct read_start as (t & n & Et & En). unfold read_eventdisplay_fits. rewrite Et. cbn [rbind]. rewrite En. cbn [rbind]. unfold column. rewrite H. cbn [rbind a_val].
  pose proof nsum_cases as B. pose proof nsum_nan as C.
  split.
  - intros Hl. destruct (B l) as [->|[(E & N1 & N2 & N3)|[(E & N1 & N2 & N3)|(r & E & N1 & N2 & N3)]]]; [reflexivity|tauto|tauto|tauto].
  - intros N1 N2 N3. destruct (B l) as [E|[(-> & _)|[(E & M1 & M2 & M3)|(r & E & M1 & M2 & M3)]]]; [|reflexivity|tauto|tauto]. apply C in E. tauto.
Qed.
Context (rs : list R) (Hh : histogram sim_events rs).
Lemma read_step : exists k, forall (out : res (columns * sim_info)),
   (do emin <- quantity_at (E_range run) 0 u_TeV; do emax <- quantity_at (E_range run) 1 u_TeV; do impact <- quantity_at (core_range run) 1 u_m;
    do vmin <- quantity_at (viewcone run) 0 u_deg; do vmax <- quantity_at (viewcone run) 1 u_deg; k emin emax impact vmin vmax) = out ->
   read_eventdisplay_fits events sim_events (run :: later) use_histogram = out.
Proof.
  destruct read_start as (t & n & Et & En). unfold read_eventdisplay_fits. rewrite Et. cbn [rbind]. rewrite En. cbn [rbind]. destruct Hh as (u & Hu). unfold column. rewrite Hu. cbn [rbind a_val].
  rewrite nsum_fin. cbn [int_of rbind]. eexists. intros out H. rewrite <- H. reflexivity.
Qed.
Lemma at_short x i u : (List.length (fst x) <= i)%nat -> quantity_at x i u = Err IndexError.
Proof. intros H. unfold quantity_at. apply nth_error_None in H. rewrite H. reflexivity. Qed.
Lemma at_unit x i u w : (i < List.length (fst x))%nat -> snd x = Some w -> u_dim w <> u_dim u -> quantity_at x i u = Err UnitConversionError.
Proof.
  intros H Hw D. unfold quantity_at. destruct (nth_error (fst x) i) eqn:E; [|apply nth_error_None in E; lia]. rewrite Hw.
  destruct (Nat.eqb_spec (u_dim w) (u_dim u)); [congruence|]. reflexivity.
Qed.
Lemma at_ok x i u : (i < List.length (fst x))%nat -> (forall w, snd x = Some w -> u_dim w = u_dim u) -> exists v, quantity_at x i u = Ok v.
Proof.
  intros H D. unfold quantity_at. destruct (nth_error (fst x) i) eqn:E; [|apply nth_error_None in E; lia]. destruct (snd x) as [w|]; eauto.
  rewrite (D w eq_refl), Nat.eqb_refl. eauto.
Qed.
Lemma read_ranges :
  let r := read_eventdisplay_fits events sim_events (run :: later) use_histogram in
  ((List.length (fst (E_range run)) < 2)%nat -> fits_unit (E_range run) u_TeV -> r = Err IndexError) /\
  ((1 <= List.length (fst (E_range run)))%nat -> wrong_unit (E_range run) u_TeV -> r = Err UnitConversionError) /\
  ((2 <= List.length (fst (E_range run)))%nat -> fits_unit (E_range run) u_TeV ->
    ((List.length (fst (core_range run)) < 2)%nat -> r = Err IndexError) /\
    ((2 <= List.length (fst (core_range run)))%nat -> wrong_unit (core_range run) u_m -> r = Err UnitConversionError) /\
    ((2 <= List.length (fst (core_range run)))%nat -> fits_unit (core_range run) u_m ->
      ((List.length (fst (viewcone run)) < 2)%nat -> fits_unit (viewcone run) u_deg -> r = Err IndexError) /\
      ((1 <= List.length (fst (viewcone run)))%nat -> wrong_unit (viewcone run) u_deg -> r = Err UnitConversionError))).
Proof.
  cbv zeta. destruct read_step as (k & K). repeat match goal with |- _ /\ _ => split end.
  - intros L F. apply K. destruct (fst (E_range run)) as [|x l] eqn:E.
    + rewrite at_short by (rewrite E; cbn; lia). reflexivity.
    + destruct (at_ok (E_range run) 0 u_TeV) as (v & ->); [rewrite E; cbn; lia|exact F|]. rewrite at_short by (rewrite E; cbn in *; lia). reflexivity.
  - intros L (w & Hw & D). apply K. rewrite (at_unit _ _ _ w) by (auto; lia). reflexivity.
  - intros L F. destruct (at_ok (E_range run) 0 u_TeV) as (v & E1); [lia|exact F|]. destruct (at_ok (E_range run) 1 u_TeV) as (v' & E2); [lia|exact F|].
    rewrite E1, E2 in K. cbn [rbind] in K. split; [|split].
    + intros L'. apply K. rewrite at_short by lia. reflexivity.
    + intros L' (w & Hw & D). apply K. rewrite (at_unit _ _ _ w) by (auto; lia). reflexivity.
    + intros L' F'. destruct (at_ok (core_range run) 1 u_m) as (v2 & E3); [lia|exact F'|]. rewrite E3 in K. cbn [rbind] in K. split.
      * intros L2 F2. apply K. destruct (fst (viewcone run)) as [|x l] eqn:E.
        -- rewrite at_short by (rewrite E; cbn; lia). reflexivity.
        -- destruct (at_ok (viewcone run) 0 u_deg) as (v3 & ->); [rewrite E; cbn; lia|exact F2|]. rewrite at_short by (rewrite E; cbn in *; lia). reflexivity.
      * intros L2 (w & Hw & D). apply K. rewrite (at_unit _ _ _ w) by (auto; lia). reflexivity.
Qed.
End Read.
(** units of the files and tables are different *)
Lemma units_differ : NoDup (map u_dim [one_unit; u_TeV; u_deg; u_m2; u_per_sr; u_background; u_m]).
Proof. cbn. repeat constructor; cbn; intuition discriminate. Qed.
