(** * SpecParticles: vocabulary for the optimisation of cuts with several particle types in the background *)
From Coq Require Import String Reals List Bool ZArith Sorted.
From Verif Require Import Num Table Binning SpecBinning CutOptimization SpecCutOptimization.
Import ListNotations.
Open Scope R_scope.

(** the distance of an event from the centre of the field of view is inside the ring *)
Definition in_ring (offset_min offset_max : num) (e : opt_event) : Prop :=
  nle offset_min (o_offset e) = true /\ nlt (o_offset e) offset_max = true.
(** [ps]: the particle types of the events inside the ring, in alphabetical order, each once *)
Definition particle_types (offset_min offset_max : num) (events : list opt_event) (ps : list string) : Prop :=
  StronglySorted (fun a b => String.ltb a b = true) ps /\
  forall p, In p ps <-> exists e, In e events /\ in_ring offset_min offset_max e /\ ev_p (o_ev e) = p.
(** the columns of a sensitivity table of background events of the types [ps] *)
Definition particle_columns (ps : list string) : list string :=
  flat_map (fun p => ["n_" ++ p; ("n_" ++ p) ++ "_weighted"]%string) ps.
Definition sensitivity_columns (ps : list string) : list string :=
  ["reco_energy_low"; "reco_energy_high"; "reco_energy_center"; "n_signal"; "n_signal_weighted";
   "n_background"; "n_background_weighted"]%string ++ particle_columns ps ++ ["significance"; "relative_sensitivity"]%string.
(** labels that clash neither with the columns of a sensitivity table nor with each other *)
Definition good_labels (background : list opt_event) : Prop :=
  clean_labels true background /\ no_collision (map (fun e => ev_p (o_ev e)) background).
(** the scan chosen in every bin: the first smallest relative sensitivity, the first scan if nothing is finite *)
Definition chosen_scans (sens : list table) (n_bins : nat) (choice : list nat) : Prop :=
  List.length choice = n_bins /\
  forall k j, nth_error choice k = Some j -> (j < List.length sens)%nat /\ exists vals, List.length vals = List.length sens /\
    (forall i s v, nth_error sens i = Some s -> nth_error vals i = Some v -> cell s "relative_sensitivity" k v) /\
    (best_choice vals j \/ nothing_finite vals j).
(** every chosen table has as many columns as the first one *)
Definition as_wide_as_first (sens : list table) (choice : list nat) : Prop :=
  forall k j s s0, nth_error choice k = Some j -> nth_error sens j = Some s -> nth_error sens 0 = Some s0 ->
    List.length (colnames s) = List.length (colnames s0).
(** the events inside the ring and inside the energy range of the bins *)
Definition in_range (bins : list num) (offset_min offset_max : num) (e : opt_event) : Prop :=
  in_ring offset_min offset_max e /\ exists k, in_bin bins k (o_energy e).
(** every particle type in range has an event in range that passes the cut at the score of any signal event, and
    any of the multiplicity cuts [mults] *)
Definition every_type_survives (op : num -> num -> bool) (bins : list num) (offset_min offset_max : num)
    (signal background : list opt_event) (mults : list num) : Prop :=
  forall e, In e background -> in_range bins offset_min offset_max e ->
    exists e', In e' background /\ in_range bins offset_min offset_max e' /\ ev_p (o_ev e') = ev_p (o_ev e) /\
      (forall s, In s signal -> op (o_gh e') (o_gh s) = true) /\ (forall m, In m mults -> nle m (o_mult e') = true).
(** [ps]: the particle types of the events in range, in alphabetical order, each once *)
Definition types_in_range (bins : list num) (offset_min offset_max : num) (events : list opt_event) (ps : list string) : Prop :=
  StronglySorted (fun a b => String.ltb a b = true) ps /\
  forall p, In p ps <-> exists e, In e events /\ in_range bins offset_min offset_max e /\ ev_p (o_ev e) = p.
