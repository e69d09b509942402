(** * SpecTrend: comparing the sensitivities of two samples *)
From Coq Require Import String Reals List Bool Permutation.
From Verif Require Import Num Table Binning Statistics Sensitivity Spectral SpecBinning SpecSensitivity.
Import ListNotations.
Open Scope R_scope.

(** all events of [small] are in [large], in any order *)
Definition contained {A} (small large : list A) : Prop := exists rest, Permutation large (small ++ rest).
(** the event with [c] times its weight *)
Definition reweighted (c : R) (v : event) : event := mkEvent (ev_x v) (c * ev_w v) (ev_p v).
Definition reweighted_bg (c : R) (b : bg_event) : bg_event := mkBg (reweighted c (bg_ev b)) (bg_offset b).
(** [r2] is at most [r1], up to the tolerance of the root finder; infinite means not detectable *)
Definition not_worse (r2 r1 : num) : Prop :=
  match r1, r2 with
  | PInf, (PInf | Fin _) => True
  | Fin r1, Fin r2 => r2 <= r1 + brentq_tol r1 + brentq_tol r2
  | _, _ => False
  end.
(** from events to the sensitivity: [create_histogram_table], [estimate_background] and [calculate_sensitivity] *)
Definition sensitivity_of br (sw sp bw bp : bool) (signal : list event) (background : list bg_event) bins (centers cuts : list R) (alpha mn mx s m e : R) : res table :=
  do signal_hist <- create_histogram_table (mkEvents signal sw sp) bins "reco_energy";
  do background_hist <- estimate_background background bw bp bins (map Fin centers) (map Fin cuts) (Fin alpha) (Fin mn) (Fin mx);
  calculate_sensitivity br li_ma1 li_ma_array signal_hist background_hist (Fin alpha) (Fin s) (Fin m) (Fin e).
(** valid settings *)
Definition settings br (bins : list num) (centers cuts : list R) (alpha mn mx s : R) : Prop :=
  brentq_sound br /\ brentq_converges br /\ brentq_checks_signs br /\ nondecreasing bins /\ (2 <= List.length bins)%nat /\
  (forall k lo hi, nth_error bins k = Some lo -> nth_error bins (S k) = Some hi -> exists r, lo = Fin r \/ hi = Fin r) /\
  increasing centers /\ List.length centers = List.length cuts /\ centers <> [] /\ 0 < alpha /\ 0 <= mn /\ mn < mx /\ mx <= PI /\ 0 < s.
(** valid events: no negative weights, particle types whose columns do not clash with other columns *)
Definition valid_events (sp bp : bool) (signal : list event) (background : list bg_event) : Prop :=
  (sp = true -> forall v, In v signal -> ev_p v <> "weighted"%string) /\
  (bp = true -> forall b, In b background ->
     ~ In (ev_p (bg_ev b)) ["weighted"; "signal"; "signal_weighted"; "background"; "background_weighted"]%string) /\
  (forall v, In v signal -> 0 <= ev_w v) /\ (forall b, In b background -> 0 <= ev_w (bg_ev b)).
(** the spectrum with [c] times its normalisation *)
Definition brighter (c : R) (s : spectrum) : spectrum :=
  match s with
  | PowerLaw p => PowerLaw (mkPL (nmul (pl_norm p) (Fin c)) (pl_unit p) (pl_index p) (pl_e_ref p))
  | LogParabola norm u a b e_ref => LogParabola (nmul norm (Fin c)) u a b e_ref
  | ExpGauss p f mu sigma => ExpGauss (mkPL (nmul (pl_norm p) (Fin c)) (pl_unit p) (pl_index p) (pl_e_ref p)) f mu sigma
  end.
