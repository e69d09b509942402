(** * HistDouble: weighted histograms, binning.py and irf/background.py with every operation rounded to double precision *)
From Coq Require Import Reals List Bool ZArith String Lia Lra.
From Verif Require Import Num Numpy Table Binning Tensor IRF Double IRFDouble.
Import ListNotations.
Open Scope R_scope.

(** numpy/lib/histograms.py [histogram] with explicit edges and weights: per block of 65536 values: sort, cumulative sum of
    the weights, its values at the edges (all but the last searched with side='left', the last with side='right'); the sum
    over the blocks; the differences.  [argsort l]: the elements of [l] in the order of [np.argsort] of their values, which is
    not stable *)
Definition BLOCK : nat := Z.to_nat 65536.
Fixpoint blocks {A} (fuel : nat) (l : list A) : list (list A) :=
  match fuel, l with
  | O, _ | _, [] => []
  | S fuel', _ => firstn BLOCK l :: blocks fuel' (skipn BLOCK l)
  end.
(** [np.concatenate(([0], sw.cumsum()))] *)
Fixpoint cumsum_double (acc : num) (l : list num) : list num :=
  acc :: match l with [] => [] | a :: l' => cumsum_double (fadd acc a) l' end.
(** [_search_sorted_inclusive] *)
Definition search_sorted_inclusive (sa edges : list num) : list nat :=
  map (searchsorted_left sa) (but_last edges) ++ [searchsorted_right sa (last edges NaN)].
Definition block_sums {A} (argsort : list A -> list A) (x : A -> num) (w : A -> R) (edges : list num) (block : list A) : list num :=
  let sorted := argsort block in
  let cw := cumsum_double (Fin 0) (map (fun e => Fin (w e)) sorted) in
  map (fun i => nth i cw NaN) (search_sorted_inclusive (map x sorted) edges).
Definition np_histogram_w_double {A} (argsort : list A -> list A) (x : A -> num) (w : A -> R) (evs : list A) (edges : list num) : res (list num) :=
  if decreases edges then Err ValueError else
    let cum_n := fold_left (fun cum block => zipwith fadd cum (block_sums argsort x w edges block)) (blocks (List.length evs) evs) (map (fun _ => Fin 0) edges) in
    Ok (diff_double cum_n).

(** binning.py:206-214 and 223-232, as [Binning.hist_columns]; the counts are integers *)
Definition hist_columns_double (argsort : list event -> list event) (evs : list event) (has_weight : bool) (bins : list num) : res (list Z * col) :=
  do n <- np_histogram ev_x evs bins;
  if has_weight then
    do w <- np_histogram_w_double argsort ev_x ev_w evs bins;
    Ok (n, CN w)
  else Ok (n, CZ n).
(** binning.py:220-232 *)
Fixpoint add_groups_double (argsort : list event -> list event) (evs : list event) (has_weight : bool) (bins : list num) (keys : list string) (hist : table) : res table :=
  match keys with
  | [] => Ok hist
  | particle :: keys' =>
      do nc <- hist_columns_double argsort (group evs particle) has_weight bins;
      let c := ("n_" ++ particle)%string in
      let hist := setitem hist c (CZ (fst nc)) in
      let hist := setitem hist (c ++ "_weighted")%string (snd nc) in
      add_groups_double argsort evs has_weight bins keys' hist
  end.
(** binning.py:183-234 [create_histogram_table] *)
Definition create_histogram_table_double (argsort : list event -> list event) (events : etable) (bins : list num) (key : string) : res table :=
  let lo := but_last bins in
  let hi := tl bins in
  let hist := setitem [] (key ++ "_low")%string (CN lo) in
  let hist := setitem hist (key ++ "_high")%string (CN hi) in
  let hist := setitem hist (key ++ "_center")%string (CN (zipwith (fun a b => fmul (Fin (1/2)) (fadd a b)) lo hi)) in
  do nc <- hist_columns_double argsort (et_rows events) (et_has_weight events) bins;
  let hist := setitem hist "n"%string (CZ (fst nc)) in
  let hist := setitem hist "n_weighted"%string (snd nc) in
  if et_has_ptype events && negb (Nat.eqb (List.length (et_rows events)) 0) then
    add_groups_double argsort (et_rows events) (et_has_weight events) bins (group_keys (map ev_p (et_rows events))) hist
  else Ok hist.

(** numpy/lib/histograms.py [histogramdd] with weights: [np.bincount] adds the weights of every bin in the order of the events *)
Definition histogramdd_double {A} (dims : list ((A -> num) * list num)) (w : A -> R) (evs : list A) : res tensor :=
  if existsb (fun d => decreases (snd d)) dims then Err ValueError
  else if existsb (fun d => match snd d with [] => true | _ => false end) dims then Err IndexError
  else Ok (mkT (map (fun d => (List.length (snd d) - 1)%nat) dims)
               (fun ix => fsum (map (fun e => Fin (w e)) (filter (hdd_match dims ix) evs)))).
(** background.py:10-58, [t_obs] in s, result in 1/(s TeV sr) *)
Definition background_2d_double (cos : num -> num) (events : list dl2) (reco_energy_bins : list num) (fov_offset_bins : list R) (t_obs : R) : res tensor :=
  do hist <- histogramdd_double [(reco_energy, reco_energy_bins); (reco_fov_offset, map Fin fov_offset_bins)] weight events;
  do per_energy <- tbin fdiv (transpose2 hist) (vec (diff_double reco_energy_bins));
  let per_energy := transpose2 per_energy in
  let bin_solid_angle := diff_double (map (cone_solid_angle_double cos) fov_offset_bins) in
  tbin fdiv (tmap (fun x => fdiv x (Fin t_obs)) per_energy) (vec bin_solid_angle).
