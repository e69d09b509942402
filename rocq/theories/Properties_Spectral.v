(** * Properties of pyirf/spectral.py (C34-C38) *)
From Coq Require Import Reals List Bool ZArith Lia Lra Permutation.
From Verif Require Import Num Numpy Utils SpecSimulations Simulations SpecSpectral Spectral SpectralProofs SpectralLimits.
Import ListNotations.
Open Scope R_scope.

(** ** C34: energy integral x disk area x observation time x solid angle = n_showers; the
    integral is the difference of any antiderivative of the flux *)
(** viewcone_min < viewcone_max: a diffuse spectrum *)
Theorem C34_diffuse : forall s T e_ref,
  0 < energy_min s -> energy_min s < energy_max s -> spectral_index s <= 0 -> spectral_index s <> -1 -> 0 < max_impact s -> 0 < T -> 0 < e_ref ->
  0 <= viewcone_min s -> viewcone_min s < viewcone_max s -> viewcone_max s <= PI ->
  exists p fl, from_simulation s T e_ref = Ok p /\ pl_index p = spectral_index s /\ pl_e_ref p = e_ref /\
    (forall E, 0 < E -> call (PowerLaw p) (Fin E) = (Fin (fl E), Diffuse)) /\
    (exists P, primitive_on positive fl P) /\
    forall P, primitive_on positive fl P ->
      (P (energy_max s) - P (energy_min s)) * (PI * (max_impact s * max_impact s)) * T * ring_sr (viewcone_min s) (viewcone_max s) = IZR (n_showers s).
Proof. exact c34_diffuse. Qed.
Print Assumptions C34_diffuse.
(** otherwise: a point-source spectrum *)
Theorem C34_point_source : forall s T e_ref,
  0 < energy_min s -> energy_min s < energy_max s -> spectral_index s <= 0 -> spectral_index s <> -1 -> 0 < max_impact s -> 0 < T -> 0 < e_ref ->
  viewcone_max s <= viewcone_min s ->
  exists p fl, from_simulation s T e_ref = Ok p /\ pl_index p = spectral_index s /\ pl_e_ref p = e_ref /\
    (forall E, 0 < E -> call (PowerLaw p) (Fin E) = (Fin (fl E), PointSource)) /\
    (exists P, primitive_on positive fl P) /\
    forall P, primitive_on positive fl P ->
      (P (energy_max s) - P (energy_min s)) * (PI * (max_impact s * max_impact s)) * T = IZR (n_showers s).
Proof. exact c34_point. Qed.
Print Assumptions C34_point_source.
(** the reference energy does not matter *)
Theorem C34_e_ref : forall s T r1 r2 E,
  0 < energy_min s -> energy_min s < energy_max s -> spectral_index s <= 0 -> spectral_index s <> -1 -> 0 < max_impact s -> 0 < T -> 0 < r1 -> 0 < r2 ->
  0 <= viewcone_min s -> viewcone_max s <= PI -> 0 < E ->
  exists p1 p2, from_simulation s T r1 = Ok p1 /\ from_simulation s T r2 = Ok p2 /\
    call (PowerLaw p1) (Fin E) = call (PowerLaw p2) (Fin E).
Proof. exact c34_e_ref. Qed.
Print Assumptions C34_e_ref.
Theorem C34_index_positive : forall s T e_ref,
  0 < spectral_index s -> from_simulation s T e_ref = Err ValueError.
Proof. exact c34_index_positive. Qed.
Print Assumptions C34_index_positive.
(** index -1 (accepted by SimulatedEventsInfo): the normalisation is NaN *)
Theorem C34_index_minus_one_refuted : forall s T e_ref,
  spectral_index s = -1 -> 0 < energy_min s -> 0 < energy_max s -> 0 < e_ref ->
  exists p, from_simulation s T e_ref = Ok p /\ pl_norm p = NaN.
Proof. exact c34_index_minus_one. Qed.
Print Assumptions C34_index_minus_one_refuted.
Example C34_example : let s := mkSim 1000 (1 / 1000) 330 1400 (-2) 0 (PI / 18) in
  0 < energy_min s /\ energy_min s < energy_max s /\ spectral_index s <= 0 /\ spectral_index s <> -1 /\ 0 < max_impact s /\
  0 <= viewcone_min s /\ viewcone_min s < viewcone_max s /\ viewcone_max s <= PI.
Proof. pose proof PI_RGT_0. cbn. lra. Qed.
(** ** C35 *)
Theorem C35_integrate_cone : forall p a b,
  pl_unit p = Diffuse -> pl_index p <= 0 ->
  exists q, integrate_cone (PowerLaw p) a b = Ok (PowerLaw q) /\ pl_index q = pl_index p /\ pl_e_ref q = pl_e_ref p /\
    pl_unit q = PointSource /\ pl_norm q = nmul (pl_norm p) (Fin (ring_sr a b)).
Proof. exact c35. Qed.
Print Assumptions C35_integrate_cone.
(** the flux is multiplied by the solid angle of the ring *)
Theorem C35_flux : forall N i r a b E,
  i <= 0 -> 0 < r -> 0 < E -> exists q, integrate_cone (PowerLaw (mkPL (Fin N) Diffuse i r)) a b = Ok q /\
  exists x, call (PowerLaw (mkPL (Fin N) Diffuse i r)) (Fin E) = (Fin x, Diffuse) /\ call q (Fin E) = (Fin (x * ring_sr a b), PointSource).
Proof. exact c35_flux. Qed.
Print Assumptions C35_flux.
Theorem C35_additive : forall a b c,
  ring_sr a b + ring_sr b c = ring_sr a c.
Proof. exact c35_additive. Qed.
Print Assumptions C35_additive.
Theorem C35_positive : forall a b,
  0 <= a -> a < b -> b <= PI -> 0 < ring_sr a b.
Proof. exact c35_positive. Qed.
Print Assumptions C35_positive.
(** spectra without 1/sr are rejected *)
Theorem C35_point_source : forall p f mu sigma a b,
  pl_unit p = PointSource ->
  integrate_cone (PowerLaw p) a b = Err ValueError /\ integrate_cone (ExpGauss p f mu sigma) a b = Err ValueError.
Proof. exact c35_point. Qed.
Print Assumptions C35_point_source.
(** a diffuse PowerLawWithExponentialGaussian: the result has lost the bump *)
Theorem C35_bump_refuted : exists s q E x y, integrate_cone s 0 PI = Ok q /\
  call s (Fin E) = (Fin x, Diffuse) /\ call q (Fin E) = (Fin y, PointSource) /\ y < x * ring_sr 0 PI.
Proof. exact c35_bump_refuted. Qed.
Print Assumptions C35_bump_refuted.
(** ** C36 *)
Theorem C36_weights : forall energies f g u,
  calculate_event_weights energies (f, u) (g, u) = Ok (map (fun e => ndiv (f e) (g e)) energies).
Proof. exact c36. Qed.
Print Assumptions C36_weights.
Theorem C36_units : forall energies f g u v,
  u <> v -> calculate_event_weights energies (f, u) (g, v) = Err UnitConversionError.
Proof. exact c36_units. Qed.
Print Assumptions C36_units.
Theorem C36_chain : forall energies (A B C : num -> num) u,
  (forall e, In e energies -> exists a b c, A e = Fin a /\ B e = Fin b /\ C e = Fin c /\ 0 < a /\ 0 < b /\ 0 < c) ->
  exists w1 w2 w3, calculate_event_weights energies (A, u) (B, u) = Ok (map Fin w1) /\ calculate_event_weights energies (B, u) (C, u) = Ok (map Fin w2) /\
    calculate_event_weights energies (A, u) (C, u) = Ok (map Fin w3) /\ w3 = zipwith Rmult w1 w2 /\
    (forall w, In w w1 -> 0 < w) /\ calculate_event_weights energies (A, u) (A, u) = Ok (map (fun _ => Fin 1) energies).
Proof. exact c36_chain. Qed.
Print Assumptions C36_chain.
Theorem C36_spectrum : forall s E,
  fst (as_callable s) E = fst (call s E) /\ snd (as_callable s) = snd (call s E).
Proof. exact c36_spectrum. Qed.
Print Assumptions C36_spectrum.
Theorem C36_e_ref : forall energies N1 N2 u i1 i2 r1 r2 r1' r2',
  0 < r1 -> 0 < r2 -> 0 < r1' -> 0 < r2' -> (forall e, In e energies -> exists E, e = Fin E /\ 0 < E) ->
  calculate_event_weights energies (as_callable (PowerLaw (mkPL (Fin N1) u i1 r1))) (as_callable (PowerLaw (mkPL (Fin N2) u i2 r2))) =
  calculate_event_weights energies (as_callable (PowerLaw (mkPL (Fin (N1 * Rpower (r1' / r1) i1)) u i1 r1'))) (as_callable (PowerLaw (mkPL (Fin (N2 * Rpower (r2' / r2) i2)) u i2 r2'))).
Proof. exact c36_e_ref_weights. Qed.
Print Assumptions C36_e_ref.
Example C36_example : exists a b c, call (PowerLaw (mkPL (Fin 3) PointSource (-2) 1)) (Fin 2) = (Fin a, PointSource) /\
  call (PowerLaw (mkPL (Fin 5) PointSource (-3) 1)) (Fin 2) = (Fin b, PointSource) /\
  call (LogParabola (Fin 1) PointSource (-2) (-1) 1) (Fin 2) = (Fin c, PointSource) /\ 0 < a /\ 0 < b /\ 0 < c.
Proof.
  destruct (c37_scaling 3 PointSource (-2) 1 1 2 ltac:(lra) ltac:(lra) ltac:(lra)) as (a & Ha & _ & Pa).
  destruct (c37_scaling 5 PointSource (-3) 1 1 2 ltac:(lra) ltac:(lra) ltac:(lra)) as (b & Hb & _ & Pb).
  destruct (c37_log_parabola_pos 1 PointSource (-2) (-1) 1 2 ltac:(lra) ltac:(lra) ltac:(lra)) as (c & Hc & Pc).
  exists a, b, c. split; auto. split; auto. split; auto. split; [apply Pa; lra|]. split; [apply Pb; lra|auto].
Qed.
(** ** C37 *)
(** positive indices are rejected *)
Theorem C37_index : forall N u i r,
  (i <= 0 -> power_law_init N u i r = Ok (mkPL N u i r)) /\ (0 < i -> power_law_init N u i r = Err ValueError).
Proof. exact c37_init. Qed.
Print Assumptions C37_index.
Theorem C37_reference : forall N u i r,
  0 < r -> call (PowerLaw (mkPL (Fin N) u i r)) (Fin r) = (Fin N, u).
Proof. exact c37_ref. Qed.
Print Assumptions C37_reference.
Theorem C37_scaling : forall N u i r c E,
  0 < r -> 0 < c -> 0 < E -> exists x,
  call (PowerLaw (mkPL (Fin N) u i r)) (Fin E) = (Fin x, u) /\ call (PowerLaw (mkPL (Fin N) u i r)) (Fin (c * E)) = (Fin (Rpower c i * x), u) /\
  (0 < N -> 0 < x).
Proof. exact c37_scaling. Qed.
Print Assumptions C37_scaling.
Theorem C37_log_parabola : forall N u a b r E,
  0 < N -> 0 < r -> 0 < E -> exists x, call (LogParabola (Fin N) u a b r) (Fin E) = (Fin x, u) /\ 0 < x.
Proof. exact c37_log_parabola_pos. Qed.
Print Assumptions C37_log_parabola.
Theorem C37_log_parabola_b0 : forall N u a r E,
  0 < r -> 0 < E ->
  call (LogParabola (Fin N) u a 0 r) (Fin E) = call (PowerLaw (mkPL (Fin N) u a r)) (Fin E).
Proof. exact c37_log_parabola_b0. Qed.
Print Assumptions C37_log_parabola_b0.
Theorem C37_bump : forall N u i r f mu sigma E,
  0 < r -> 0 < E -> sigma <> 0 -> exists x y,
  call (PowerLaw (mkPL (Fin N) u i r)) (Fin E) = (Fin x, u) /\
  call (ExpGauss (mkPL (Fin N) u i r) f mu sigma) (Fin E) = (Fin y, u) /\
  (f = 0 -> y = x) /\ (0 < N -> 0 <= f -> x <= y) /\ (0 < N -> 0 < f -> x < y <= x * (1 + f * (exp 1 - 1))).
Proof. exact c37_bump_law. Qed.
Print Assumptions C37_bump.
Theorem C37_exp_gauss : forall N u i r f mu sigma,
  (0 < i -> exp_gauss_init (Fin N) u i r f mu sigma = Err ValueError) /\
  (i <= 0 -> 0 < r -> sigma <> 0 -> exists s, exp_gauss_init (Fin N) u i r f mu sigma = Ok s /\ forall E, 0 < E ->
     call s (Fin E) = (Fin (N * Rpower (E / r) i * (1 + f * (exp (exp (- (1 / 2) * ((log10 (E / r) - mu) / sigma) ^ 2)) - 1))), u)).
Proof. exact c37_exp_gauss. Qed.
Print Assumptions C37_exp_gauss.
(** energies 0 and infinity: falling power laws, with or without bump, are infinite and 0; log-parabolas with curvature b < 0 vanish *)
Theorem C37_extreme_energies : forall N u i r f mu sigma,
  0 < N -> 0 < r -> i < 0 -> sigma <> 0 ->
  call (PowerLaw (mkPL (Fin N) u i r)) (Fin 0) = (PInf, u) /\ call (PowerLaw (mkPL (Fin N) u i r)) PInf = (Fin 0, u) /\
  call (ExpGauss (mkPL (Fin N) u i r) f mu sigma) (Fin 0) = (PInf, u) /\ call (ExpGauss (mkPL (Fin N) u i r) f mu sigma) PInf = (Fin 0, u).
Proof. intros. destruct (power_limits N u i r), (gauss_limits N u i r f mu sigma); auto. Qed.
Print Assumptions C37_extreme_energies.
Theorem C37_log_parabola_extreme : forall N u a b r, 0 < N -> 0 < r ->
  (b < 0 -> call (LogParabola (Fin N) u a b r) (Fin 0) = (Fin 0, u) /\ call (LogParabola (Fin N) u a b r) PInf = (Fin 0, u)) /\
  (0 < b -> call (LogParabola (Fin N) u a b r) (Fin 0) = (PInf, u) /\ call (LogParabola (Fin N) u a b r) PInf = (PInf, u)).
Proof. intros N u a b r HN Hr. destruct (parabola_limits N u a b r HN Hr) as (A & B & _). auto. Qed.
Print Assumptions C37_log_parabola_extreme.
(** without curvature the log-parabola is a power law only at positive finite energies: at 0 and infinity it is NaN *)
Theorem C37_log_parabola_b0_refuted : forall N u a r, 0 < N -> 0 < r -> a < 0 ->
  call (LogParabola (Fin N) u a 0 r) (Fin 0) = (NaN, u) /\ call (PowerLaw (mkPL (Fin N) u a r)) (Fin 0) = (PInf, u) /\
  call (LogParabola (Fin N) u a 0 r) PInf = (NaN, u) /\ call (PowerLaw (mkPL (Fin N) u a r)) PInf = (Fin 0, u).
Proof. intros N u a r HN Hr Ha. destruct (parabola_limits N u a 0 r HN Hr) as (_ & _ & C). destruct C as (C1 & C2); auto. destruct (power_limits N u a r); auto. Qed.
Print Assumptions C37_log_parabola_b0_refuted.
(** ** C38: rows of (energy, flux) with distinct energies; logarithmic axes need positive numbers *)
(** the value lies on the polygon through the tabulated points, in the configured coordinates *)
Theorem C38_polygon : forall (le lf : bool) (ref : R) (rows : list (R * R)),
  0 < ref -> (forall e f, In (e, f) rows -> (le = true -> 0 < e) /\ (lf = true -> 0 < f)) ->
  NoDup (map fst rows) -> (2 <= List.length rows)%nat ->
  forall E,
  (le = true -> 0 < E) -> exists v x y points,
  table_call (table_init (map fst rows) (map snd rows) le lf ref) E = Some v /\
  on_axis le (E / ref) x /\ on_axis lf v y /\
  List.length points = List.length rows /\
  (forall i e f, nth_error rows i = Some (e, f) -> exists xi yi, nth_error points i = Some (xi, yi) /\ on_axis le (e / ref) xi /\ on_axis lf f yi) /\
  on_polygon points x y.
Proof. exact c38. Qed.
Print Assumptions C38_polygon.
Theorem C38_passes_through : forall (le lf : bool) (ref : R) (rows : list (R * R)),
  0 < ref -> (forall e f, In (e, f) rows -> (le = true -> 0 < e) /\ (lf = true -> 0 < f)) ->
  NoDup (map fst rows) -> (2 <= List.length rows)%nat ->
  forall e f,
  In (e, f) rows -> table_call (table_init (map fst rows) (map snd rows) le lf ref) e = Some f.
Proof. exact c38_knot. Qed.
Print Assumptions C38_passes_through.
Theorem C38_between : forall (le lf : bool) (ref : R) (rows : list (R * R)),
  0 < ref -> (forall e f, In (e, f) rows -> (le = true -> 0 < e) /\ (lf = true -> 0 < f)) ->
  NoDup (map fst rows) -> (2 <= List.length rows)%nat ->
  forall e1 f1 e2 f2 E,
  In (e1, f1) rows -> In (e2, f2) rows -> e1 <= E <= e2 -> e1 < e2 ->
  (forall e f, In (e, f) rows -> e <= e1 \/ e2 <= e) ->
  exists v, table_call (table_init (map fst rows) (map snd rows) le lf ref) E = Some v /\ Rmin f1 f2 <= v <= Rmax f1 f2.
Proof. exact c38_between. Qed.
Print Assumptions C38_between.
(** the order of the rows does not matter *)
Theorem C38_order : forall le lf ref rows rows' E,
  0 < ref -> (forall e f, In (e, f) rows -> (le = true -> 0 < e) /\ (lf = true -> 0 < f)) ->
  NoDup (map fst rows) -> (2 <= List.length rows)%nat -> Permutation rows rows' ->
  table_call (table_init (map fst rows') (map snd rows') le lf ref) E = table_call (table_init (map fst rows) (map snd rows) le lf ref) E.
Proof. exact c38_order. Qed.
Print Assumptions C38_order.
Example C38_example : let rows := [(1, 10); (100, 1); (10, 5)] in
  (forall e f, In (e, f) rows -> (true = true -> 0 < e) /\ (true = true -> 0 < f)) /\ NoDup (map fst rows) /\ (2 <= List.length rows)%nat.
Proof.
  cbn zeta. split; [|split; [|cbn; lia]].
  - intros e f [H|[H|[H|[]]]]; injection H as <- <-; lra.
  - cbn [map fst]. repeat constructor; cbn; intuition lra.
Qed.
