(** * SpecCutOptimization: what "best" means *)
From Coq Require Import String Reals List Bool ZArith Lia Lra.
From Verif Require Import Num Numpy Table Binning SpecBinning Percentile Cuts SpecCuts SpecSensitivity Sensitivity CutOptimization.
Import ListNotations.
Open Scope R_scope.

(** [j] is the first smallest value, NaN ignored; 0 if everything is NaN *)
Inductive best_choice (vals : list num) : nat -> Prop :=
| best_all_nan : (forall x, In x vals -> x = NaN) -> best_choice vals 0
| best_value j v : nth_error vals j = Some v -> v <> NaN ->
    (forall i x, nth_error vals i = Some x -> x <> NaN -> nle v x = true) ->
    (forall i x, (i < j)%nat -> nth_error vals i = Some x -> x <> NaN -> nlt v x = true) ->
    best_choice vals j.
(** entry [k] of a float (or integer) column; of column [name] of a table *)
Definition entry (c : col) (k : nat) (v : num) : Prop :=
  match c with
  | CN l => nth_error l k = Some v
  | CZ l => exists z, nth_error l k = Some z /\ v = Fin (IZR z)
  | _ => False
  end.
Definition cell (t : table) (name : string) (k : nat) (v : num) : Prop :=
  exists c, getitem t name = Some c /\ entry c k v.
(** row [k] of [t1] equals row [k] of [t2], column by column in order *)
Definition same_row (k : nat) (t1 t2 : table) : Prop :=
  Forall2 (fun p q => exists v, entry (snd p) k v /\ entry (snd q) k v) t1 t2.
(** all columns hold numbers *)
Definition numeric (t : table) : Prop := forall p, In p t -> match snd p with CN _ | CZ _ => True | _ => False end.

(** the events whose flag is set, in order *)
Inductive kept {A} : list bool -> list A -> list A -> Prop :=
| kept_nil : kept [] [] []
| kept_yes m a l s : kept m l s -> kept (true :: m) (a :: l) (a :: s)
| kept_no m a l s : kept m l s -> kept (false :: m) (a :: l) s.
(** [s] is the sensitivity table of the flagged events, computed with the public functions
    [create_histogram_table], [estimate_background] and [calculate_sensitivity] *)
Definition sensitivity_of_selection br sf sa (sw sp bw bp : bool) (signal background : list opt_event) (bins : list num)
    (alpha offset_min offset_max ms mse mex : num) (m_signal m_background : list bool)
    (th_center th_cut : list num) (s : table) : Prop :=
  exists sig_sel bkg_sel sh bh,
    kept m_signal signal sig_sel /\ kept m_background background bkg_sel  /\
    create_histogram_table (mkEvents (map o_ev sig_sel) sw sp) bins "reco_energy" = Ok sh  /\
    estimate_background (map (fun e => mkBg (o_ev e) (o_offset e)) bkg_sel) bw bp bins th_center th_cut
      alpha offset_min offset_max = Ok bh  /\
    calculate_sensitivity br sf sa sh bh alpha ms mse mex = Ok s.
(** [s] is the sensitivity table of the events passing a gamma/hadron cut (one value per
    bin, compared with [op]) and a theta cut (signal only) *)
Definition sensitivity_of_cuts br sf sa (sw sp bw bp : bool) (signal background : list opt_event) (bins : list num)
    (alpha offset_min offset_max ms mse mex : num) (op : num -> num -> bool)
    (gh_cut : list num) (th_low th_high th_center th_cut : list num) (s : table) : Prop :=
  exists m_gh m_theta b_gh,
    evaluate_binned_cut true (map o_gh signal) (raw (map o_energy signal)) (but_last bins) (tl bins) None gh_cut op = Ok m_gh /\
    evaluate_binned_cut true (map o_theta signal) (raw (map o_energy signal)) th_low th_high None th_cut nle = Ok m_theta /\
    evaluate_binned_cut true (map o_gh background) (raw (map o_energy background)) (but_last bins) (tl bins) None gh_cut op = Ok b_gh /\
    sensitivity_of_selection br sf sa sw sp bw bp signal background bins alpha offset_min offset_max ms mse mex
      (zipwith andb m_gh m_theta) b_gh th_center th_cut s.
(** the same with gamma/hadron, theta and multiplicity cuts; the multiplicity flags of the
    signal and background events are given *)
Definition sensitivity_of_all_cuts br sf sa (sw sp bw bp : bool) (signal background : list opt_event) (bins : list num)
    (alpha offset_min offset_max ms mse mex : num) (m_mult b_mult : list bool)
    (gh_cut th_cut : list num) (s : table) : Prop :=
  exists m_gh m_theta b_gh,
    evaluate_binned_cut true (map o_gh signal) (raw (map o_energy signal)) (but_last bins) (tl bins) None gh_cut nge = Ok m_gh /\
    evaluate_binned_cut true (map o_theta signal) (raw (map o_energy signal)) (but_last bins) (tl bins) None th_cut nle = Ok m_theta /\
    evaluate_binned_cut true (map o_gh background) (raw (map o_energy background)) (but_last bins) (tl bins) None gh_cut nge = Ok b_gh /\
    sensitivity_of_selection br sf sa sw sp bw bp signal background bins alpha offset_min offset_max ms mse mex
      (zipwith andb (zipwith andb m_gh m_theta) m_mult) (zipwith andb b_gh b_mult) (bin_center bins) th_cut s.
(** events passing a global multiplicity cut *)
Definition enough_telescopes (mult_cut : num) (events : list opt_event) : list bool :=
  map (fun e => nle mult_cut (o_mult e)) events.
(** what the scan reports when nothing is finite: index 0, even if that entry is NaN *)
Definition nothing_finite (vals : list num) (j : nat) : Prop :=
  j = 0%nat /\ nth_error vals 0 = Some NaN /\ In PInf vals /\ forall x, In x vals -> x = NaN \/ x = PInf.
(** [cut] is column [j] of the rows of a two-dimensional cut column *)
Definition column_of (rows : list (list num)) (j : nat) (cut : list num) : Prop :=
  Forall2 (fun r c => nth_error r j = Some c) rows cut.
(** the percentile cuts of the signal events with enough telescopes: gamma/hadron cuts
    keeping the fractions [gh_eff], theta cuts keeping the fractions [theta_eff], one row
    per energy bin and one column per fraction *)
Definition percentile_grids (signal : list opt_event) (bins : list num) (fill : num) (gh_eff theta_eff : list R)
    (theta_min theta_max mult_cut : num) (gh_table theta_table : cut_table) (gh_rows theta_rows : list (list num)) : Prop :=
  exists sel, kept (enough_telescopes mult_cut signal) signal sel /\
    calculate_percentile_cut false (raw (map o_gh sel)) (raw (map o_energy sel)) (raw bins) (plain fill)
      (PList (map (fun e => 100 * (1 - e)) gh_eff)) None None None 10 = Ok gh_table /\ ct_cut gh_table = Cut2 gh_rows /\
    calculate_percentile_cut false (raw (map o_theta sel)) (raw (map o_energy sel)) (raw bins) (plain theta_max)
      (PList (map (fun e => 100 * e) theta_eff)) (Some (plain theta_min)) (Some (plain theta_max)) None 10 = Ok theta_table /\
    ct_cut theta_table = Cut2 theta_rows.
(** the smallest and the largest value of a list; NaN if there is a NaN *)
Definition smallest_of (l : list num) (m : num) : Prop :=
  (In NaN l /\ m = NaN) \/ (~ In NaN l /\ In m l /\ forall x, In x l -> nle m x = true).
Definition largest_of (l : list num) (m : num) : Prop :=
  (In NaN l /\ m = NaN) \/ (~ In NaN l /\ In m l /\ forall x, In x l -> nle x m = true).
(** the columns every sensitivity table has *)
Definition core_columns : list string :=
  ["reco_energy_low"; "reco_energy_high"; "reco_energy_center"; "n_signal"; "n_signal_weighted";
   "n_background"; "n_background_weighted"; "significance"; "relative_sensitivity"]%string.
(** particle labels that do not produce the names of these columns *)
Definition clean_labels (has_ptype : bool) (events : list opt_event) : Prop :=
  has_ptype = true -> forall e, In e events ->
    ~ In (ev_p (o_ev e)) ["weighted"; "signal"; "signal_weighted"; "background"; "background_weighted"]%string.
(** strictly increasing bin edges (the outermost may be infinite), not the single bin (-inf, inf) *)
Definition rising (bins : list num) : Prop :=
  (forall e, In e bins -> is_nan e = false) /\
  (forall k a b, nth_error bins k = Some a -> nth_error bins (S k) = Some b -> nlt a b = true) /\
  (forall k a b, nth_error bins k = Some a -> nth_error bins (S k) = Some b -> exists r, a = Fin r \/ b = Fin r).
