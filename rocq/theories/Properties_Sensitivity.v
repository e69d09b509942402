(** * Properties_Sensitivity: C21-C26 *)
From Coq Require Import String Reals List Bool ZArith Lia Lra.
From Verif Require Import Num Numpy Table Binning SpecBinning BinningWitness Utils Statistics SpecStatistics
  Sensitivity SpecSensitivity SensitivityProofs SensitivityProofs2 SensitivityProofs3 SensitivityProofs4 SensitivityProofs5.
Import ListNotations.
Open Scope R_scope.

(** The root finder is any function with scipy's contract; a solver with that contract
    exists (bisection). *)
Theorem C21_solver_contract_inhabited :
  brentq_sound bisect_solver /\ brentq_checks_signs bisect_solver /\ brentq_converges bisect_solver /\
  forall f x y ex, bisect_solver f x y = Err ex -> ex = ValueError \/ ex = RuntimeError.
Proof. exact (conj bisect_sound (conj bisect_signs (conj bisect_converges bisect_exn))). Qed.
Print Assumptions C21_solver_contract_inhabited.

(** ** C21: outcome of relative_sensitivity for one bin; arrays are handled elementwise *)
Theorem C21_nan : forall br sig n_on n_off a s m e,
  n_on = NaN \/ n_off = NaN ->
  relative_sensitivity1 br sig n_on n_off a s m e = Ok NaN.
Proof. exact c21_nan. Qed.
Print Assumptions C21_nan.
Theorem C21_negative_counts : forall br sig n_on n_off a s m e,
  n_on <> NaN -> n_off <> NaN ->
  nlt n_on (Fin 0) = true \/ nlt n_off (Fin 0) = true ->
  relative_sensitivity1 br sig n_on n_off a s m e = Err ValueError.
Proof. exact c21_negative. Qed.
Print Assumptions C21_negative_counts.
Theorem C21_no_signal : forall br sig n_on n_off a s m e,
  0 <= n_on -> 0 <= n_off -> n_on <= a * n_off ->
  relative_sensitivity1 br sig (Fin n_on) (Fin n_off) (Fin a) s m e = Ok PInf.
Proof. exact c21_no_signal. Qed.
Print Assumptions C21_no_signal.
Theorem C21_signal : forall br n_on b a s m e,
  brentq_sound br ->
  (forall f x y ex, br f x y = Err ex -> ex = ValueError \/ ex = RuntimeError) ->
  0 <= b -> 0 < a -> 0 < s -> a * b < n_on ->
  relative_sensitivity1 br li_ma1 (Fin n_on) (Fin b) (Fin a) (Fin s) (Fin m) (Fin e) = Ok NaN \/
  exists r, 0 < r /\
  relative_sensitivity1 br li_ma1 (Fin n_on) (Fin b) (Fin a) (Fin s) (Fin m) (Fin e) = Ok (Fin r).
Proof. exact c21_signal. Qed.
Print Assumptions C21_signal.
Theorem C21_arrays : forall br sf on off a s m e,
  List.length on = List.length off -> on <> [] ->
  (forall i x y, nth_error on i = Some x -> nth_error off i = Some y -> exists r,
     relative_sensitivity1 br sf x y a s m e = Ok r) ->
  exists rel, relative_sensitivity br sf on off a s m e = Ok rel /\ List.length rel = List.length on /\
    forall i x y r, nth_error on i = Some x -> nth_error off i = Some y -> nth_error rel i = Some r ->
      relative_sensitivity1 br sf x y a s m e = Ok r.
Proof. exact relative_sensitivity_ok. Qed.
Print Assumptions C21_arrays.

(** ** C22, C23: the returned flux fulfils the requirements and is the smallest one.
    Everything the solver tolerance does not blur is exact: the requirements on
    the number of signal events hold for [r] itself. *)
Theorem C22_requirements : forall br n_on b a s m e r,
  brentq_sound br ->
  0 <= n_on -> 0 <= b -> 0 < a -> 0 < s -> a * b < n_on ->
  relative_sensitivity1 br li_ma1 (Fin n_on) (Fin b) (Fin a) (Fin s) (Fin m) (Fin e) = Ok (Fin r) ->
  let N := n_on - a * b in
  0 < r /\ m <= N * r /\ e * (a * b) <= N * r /\
  (forall r', r + brentq_tol r <= r' -> detectable N b a s m e r') /\
  (forall r', detectable N b a s m e r' -> r - brentq_tol r <= r').
Proof. exact rel_sens_sound. Qed.
Print Assumptions C22_requirements.
Theorem C23_smallest : forall br n_on b a s m e r, brentq_sound br ->
  0 <= n_on -> 0 <= b -> 0 < a -> 0 < s -> a * b < n_on ->
  relative_sensitivity1 br li_ma1 (Fin n_on) (Fin b) (Fin a) (Fin s) (Fin m) (Fin e) = Ok (Fin r) ->
  forall r', r' < r - brentq_tol r -> ~ detectable (n_on - a * b) b a s m e r'.
Proof.
  intros br n_on b a s m e r Hs H1 H2 H3 H4 H5 H r' Hr' Hd.
  pose proof (rel_sens_sound br n_on b a s m e r Hs H1 H2 H3 H4 H5 H) as (_ & _ & _ & _ & Hmin).
  specialize (Hmin r' Hd). lra.
Qed.
Print Assumptions C23_smallest.
Theorem C23_solver_independent : forall br1 br2 n_on b a s m e r1 r2,
  brentq_sound br1 -> brentq_sound br2 ->
  0 <= n_on -> 0 <= b -> 0 < a -> 0 < s -> a * b < n_on ->
  relative_sensitivity1 br1 li_ma1 (Fin n_on) (Fin b) (Fin a) (Fin s) (Fin m) (Fin e) = Ok (Fin r1) ->
  relative_sensitivity1 br2 li_ma1 (Fin n_on) (Fin b) (Fin a) (Fin s) (Fin m) (Fin e) = Ok (Fin r2) ->
  Rabs (r1 - r2) <= brentq_tol r1 + brentq_tol r2.
Proof. exact c23_unique. Qed.
Print Assumptions C23_solver_independent.
Theorem C23_inverse_scaling : forall br1 br2 c N b a s m e r1 r2,
  brentq_sound br1 -> brentq_sound br2 ->
  0 < c -> 0 < N -> 0 <= b -> 0 < a -> 0 < s ->
  relative_sensitivity1 br1 li_ma1 (Fin (N + a * b)) (Fin b) (Fin a) (Fin s) (Fin m) (Fin e) = Ok (Fin r1) ->
  relative_sensitivity1 br2 li_ma1 (Fin (c * N + a * b)) (Fin b) (Fin a) (Fin s) (Fin m) (Fin e) = Ok (Fin r2) ->
  Rabs (r2 - r1 / c) <= brentq_tol r2 + brentq_tol r1 / c.
Proof. exact c23_scale. Qed.
Print Assumptions C23_inverse_scaling.
(** the conditions of C22-C24 hold for a typical case *)
Example C22_example : exists r, 0 < r /\
  relative_sensitivity1 bisect_solver li_ma1 (Fin 100) (Fin 50) (Fin (1/5)) (Fin 5) (Fin 10) (Fin (1/20)) = Ok (Fin r).
Proof.
  destruct (c24_default bisect_solver 100 50 (1/5) 10 (1/20) bisect_sound bisect_converges) as (r & H & Hr); try lra.
  exists r; auto.
Qed.

(** ** C24: where an answer is guaranteed, and where it is not *)
(** exactly when: ten times the naive excess is significant, or without background the source needs between 1/10000 and
    100 times its flux; in all other cases NaN *)
Theorem C24_exact : forall br n_on b a s m e,
  brentq_sound br -> brentq_converges br -> brentq_checks_signs br ->
  0 <= b -> 0 < a -> 0 < s -> a * b < n_on ->
  let found := (1 < b /\ s <= lima (10 * (s * sqrt (a * b)) + a * b) b a) \/
    (b <= 1 /\ lima ((n_on - a * b) * (1 / 10000) + a * b) b a <= s <= lima ((n_on - a * b) * 100 + a * b) b a) in
  (found -> exists r, relative_sensitivity1 br li_ma1 (Fin n_on) (Fin b) (Fin a) (Fin s) (Fin m) (Fin e) = Ok (Fin r) /\ 0 < r) /\
  (~ found -> relative_sensitivity1 br li_ma1 (Fin n_on) (Fin b) (Fin a) (Fin s) (Fin m) (Fin e) = Ok NaN).
Proof. exact c24_exact. Qed.
Print Assumptions C24_exact.
Example C24_solver : brentq_sound bisect_solver /\ brentq_converges bisect_solver /\ brentq_checks_signs bisect_solver.
Proof. exact (conj bisect_sound (conj bisect_converges bisect_signs)). Qed.
(** enough background *)
Theorem C24_background : forall br n_on b a s m e,
  brentq_sound br -> brentq_converges br ->
  1 < b -> 0 < a <= 1 -> 0 < s -> 5 * s <= 24 * sqrt (a * b) -> a * b < n_on ->
  exists r, relative_sensitivity1 br li_ma1 (Fin n_on) (Fin b) (Fin a) (Fin s) (Fin m) (Fin e) = Ok (Fin r) /\ 0 < r.
Proof. exact c24_many. Qed.
Print Assumptions C24_background.
(** the default 5 sigma and the usual exposure ratios *)
Theorem C24_default : forall br n_on b a m e,
  brentq_sound br -> brentq_converges br ->
  1 < b -> 1/10 <= a <= 1 -> a * b < n_on ->
  exists r, relative_sensitivity1 br li_ma1 (Fin n_on) (Fin b) (Fin a) (Fin 5) (Fin m) (Fin e) = Ok (Fin r) /\ 0 < r.
Proof. exact c24_default. Qed.
Print Assumptions C24_default.
(** one or no off event *)
Theorem C24_few_off : forall br n_on b a m e,
  brentq_sound br -> brentq_converges br ->
  0 <= b <= 1 -> 1/10 <= a <= 1 -> 1 <= n_on - a * b <= 50000 ->
  exists r, relative_sensitivity1 br li_ma1 (Fin n_on) (Fin b) (Fin a) (Fin 5) (Fin m) (Fin e) = Ok (Fin r) /\ 0 < r.
Proof. exact c24_few. Qed.
Print Assumptions C24_few_off.
(** the bracket misses the root for small alpha: NaN although there is signal *)
Theorem C24_small_alpha_refuted : forall br m e,
  brentq_checks_signs br ->
  relative_sensitivity1 br li_ma1 (Fin (1 + 1/65536 * 4)) (Fin 4) (Fin (1/65536)) (Fin 5) (Fin m) (Fin e) = Ok NaN.
Proof. exact c24_small_alpha. Qed.
Print Assumptions C24_small_alpha_refuted.
Theorem C24_large_alpha_refuted : forall br m e,
  brentq_checks_signs br ->
  relative_sensitivity1 br li_ma1 (Fin (1 + 400 * 4)) (Fin 4) (Fin 400) (Fin 5) (Fin m) (Fin e) = Ok NaN.
Proof. exact c24_large_alpha. Qed.
Print Assumptions C24_large_alpha_refuted.
(** no off events and a source needing less than 1/10000 of its flux *)
Theorem C24_strong_source_refuted : forall br m e,
  brentq_checks_signs br ->
  relative_sensitivity1 br li_ma1 (Fin 1000000) (Fin 0) (Fin (1/5)) (Fin 5) (Fin m) (Fin e) = Ok NaN.
Proof. exact c24_strong_source. Qed.
Print Assumptions C24_strong_source_refuted.
(** no off events and a source needing more than 100 times its flux *)
Theorem C24_weak_source_refuted : forall br m e,
  brentq_checks_signs br ->
  relative_sensitivity1 br li_ma1 (Fin (1/100)) (Fin 0) (Fin (1/5)) (Fin 5) (Fin m) (Fin e) = Ok NaN.
Proof. exact c24_weak_source. Qed.
Print Assumptions C24_weak_source_refuted.

(** ** C25 *)
Theorem C25_table : forall br sf sa sig bkg a s m e ns sw bn bw,
  same_binning sig bkg ->
  column sig "n" ns -> column sig "n_weighted" sw -> column bkg "n" bn -> column bkg "n_weighted" bw ->
  List.length sw = List.length ns -> List.length bw = List.length ns -> List.length bn = List.length ns -> ns <> [] ->
  (forall name, In name reserved -> ~ In name (colnames bkg)) ->
  (forall on off, List.length on = List.length off -> sa on off a = Ok (zipwith (fun x y => sf x y a) on off)) ->
  (forall i x y, nth_error sw i = Some x -> nth_error bw i = Some y -> exists r,
     relative_sensitivity1 br sf (nadd x (nmul a y)) y a s m e = Ok r) ->
  exists t n_signal n_signal_weighted significance rel,
    calculate_sensitivity br sf sa sig bkg a s m e = Ok t /\
    (forall name, In name ["reco_energy_low"; "reco_energy_center"; "reco_energy_high"]%string ->
       getitem t name = getitem sig name) /\
    column t "n_signal" n_signal /\ column t "n_signal_weighted" n_signal_weighted /\
    column t "n_background" bn /\ column t "n_background_weighted" bw /\
    column t "significance" significance /\ column t "relative_sensitivity" rel /\
    List.length rel = List.length ns /\ List.length n_signal = List.length ns /\ List.length n_signal_weighted = List.length ns /\
    List.length significance = List.length ns /\
    (forall p, In ("n_" ++ p)%string (colnames bkg) -> p <> "weighted"%string ->
       getitem t ("n_" ++ p)%string = getitem bkg ("n_" ++ p)%string) /\
    forall i n w b, nth_error ns i = Some n -> nth_error sw i = Some w -> nth_error bw i = Some b ->
      exists r, nth_error rel i = Some r /\
        relative_sensitivity1 br sf (nadd w (nmul a b)) b a s m e = Ok r /\
        nth_error n_signal i = Some (nmul n r) /\
        nth_error n_signal_weighted i = Some (nmul w r) /\
        nth_error significance i = Some (sf (nadd (nmul w r) (nmul a b)) b a).
Proof. exact c25_table. Qed.
Print Assumptions C25_table.
(** the premise on the significance function holds for Li & Ma *)
Theorem C25_li_ma_elementwise : forall a on off,
  List.length on = List.length off ->
  li_ma_array on off a = Ok (zipwith (fun x y => li_ma1 x y a) on off).
Proof. exact li_ma_array_elementwise. Qed.
Print Assumptions C25_li_ma_elementwise.
Theorem C25_different_edges : forall br sf sa sig bkg a s m e name l1 l2,
  In name ["reco_energy_low"; "reco_energy_center"; "reco_energy_high"]%string ->
  (forall n, In n ["reco_energy_low"; "reco_energy_center"; "reco_energy_high"]%string ->
     exists l1 l2, getitem sig n = Some (CN l1) /\ getitem bkg n = Some (CN l2) /\ List.length l1 = List.length l2) ->
  getitem sig name = Some (CN l1) -> getitem bkg name = Some (CN l2) -> 
  (l1 <> l2 \/ In NaN l1) ->
  calculate_sensitivity br sf sa sig bkg a s m e = Err ValueError.
Proof. exact c25_mismatch. Qed.
Print Assumptions C25_different_edges.
Theorem C25_bad_bin : forall br sf sa sig bkg a s m e sw bw i w b ex,
  column sig "n_weighted" sw -> column bkg "n_weighted" bw -> List.length sw = List.length bw ->
  nth_error sw i = Some w -> nth_error bw i = Some b ->
  relative_sensitivity1 br sf (nadd w (nmul a b)) b a s m e = Err ex ->
  forall t, calculate_sensitivity br sf sa sig bkg a s m e <> Ok t.
Proof. exact c25_bad_bin. Qed.
Print Assumptions C25_bad_bin.
(** a background particle type called "signal" replaces the signal columns *)
Theorem C25_name_collision_refuted : forall br sf sa sig bkg a s m e t name,
  calculate_sensitivity br sf sa sig bkg a s m e = Ok t ->
  In name reserved -> In name (colnames bkg) -> getitem t name = getitem bkg name.
Proof. exact c25_collision. Qed.
Print Assumptions C25_name_collision_refuted.
Definition example_hist (n : Z) (w : R) : table :=
  [("reco_energy_low", CN [Fin 1]); ("reco_energy_high", CN [Fin 10]); ("reco_energy_center", CN [Fin (11/2)]);
   ("n", CZ [n]); ("n_weighted", CN [Fin w]); ("n_proton", CZ [n])]%string.
Example C25_example : same_binning (example_hist 10 20) (example_hist 7 30) /\
  column (example_hist 10 20) "n" [Fin 10] /\ column (example_hist 7 30) "n_weighted" [Fin 30] /\
  (forall name, In name reserved -> ~ In name (colnames (example_hist 7 30))) /\
  exists r, relative_sensitivity1 bisect_solver li_ma1 (nadd (Fin 20) (nmul (Fin (1/5)) (Fin 30))) (Fin 30) (Fin (1/5))
    (Fin 5) (Fin 10) (Fin (1/20)) = Ok r.
Proof.
  split; [|split; [|split; [|split]]].
  - intros name Hn. simpl in Hn. destruct Hn as [<-|[<-|[<-|[]]]]; eexists; (split; [reflexivity|split; [reflexivity|]]);
      intros x [<-|[]]; reflexivity.
  - right. exists [10%Z]. split; reflexivity.
  - left. reflexivity.
  - intros name Hn. simpl in Hn. destruct Hn as [<-|[<-|[<-|[<-|[]]]]]; simpl; intuition discriminate.
  - destruct (c24_default bisect_solver (20 + 1/5 * 30) 30 (1/5) 10 (1/20) bisect_sound bisect_converges) as (r & H & Hr); try lra.
    exists (Fin r). exact H.
Qed.

(** ** C26: counts and weights of the ring events, scaled by solid angles and 1/alpha *)
Theorem C26_counts : forall events hw hp edges centers cuts alpha mn mx,
  nondecreasing edges -> (2 <= List.length edges)%nat ->
  increasing centers -> List.length centers = List.length cuts -> centers <> [] ->
  alpha <> 0 -> 0 <= mn -> mn < mx -> mx <= PI ->
  exists t n, estimate_background events hw hp edges (map Fin centers) (map Fin cuts) (Fin alpha) (Fin mn) (Fin mx) = Ok t /\
    column t "n" n /\ List.length n = (List.length edges - 1)%nat /\
    (forall k lo hi v, nth_error edges k = Some lo -> nth_error edges (S k) = Some hi ->
       (exists r, lo = Fin r \/ hi = Fin r) -> nth_error n k = Some v ->
       exists theta m, cut_for_bin centers cuts lo hi theta /\
         number_of (fun e => in_annulus mn mx (bg_offset e) /\ in_hist_bin edges k (ev_x (bg_ev e))) events m /\
         v = Fin (INR m * ring_ratio theta mn mx / alpha)).
Proof. exact c26. Qed.
Print Assumptions C26_counts.
Theorem C26_weights : forall events hp edges centers cuts alpha mn mx,
  nondecreasing edges -> (2 <= List.length edges)%nat ->
  increasing centers -> List.length centers = List.length cuts -> centers <> [] ->
  alpha <> 0 -> 0 <= mn -> mn < mx -> mx <= PI ->
  (hp = true -> forall e, In e events -> ev_p (bg_ev e) <> "weighted"%string) ->
  exists t n, estimate_background events true hp edges (map Fin centers) (map Fin cuts) (Fin alpha) (Fin mn) (Fin mx) = Ok t /\
    column t "n_weighted" n /\ List.length n = (List.length edges - 1)%nat /\
    (forall k lo hi v, nth_error edges k = Some lo -> nth_error edges (S k) = Some hi ->
       (exists r, lo = Fin r \/ hi = Fin r) -> nth_error n k = Some v ->
       exists theta w, cut_for_bin centers cuts lo hi theta /\
         weight_of (fun e => ev_w (bg_ev e))
           (fun e => in_annulus mn mx (bg_offset e) /\ in_hist_bin edges k (ev_x (bg_ev e))) events w /\
         v = Fin (w * ring_ratio theta mn mx / alpha)).
Proof. exact c26_weighted. Qed.
Print Assumptions C26_weights.
Theorem C26_particles : forall events edges centers cuts alpha mn mx p,
  nondecreasing edges -> (2 <= List.length edges)%nat ->
  increasing centers -> List.length centers = List.length cuts -> centers <> [] ->
  alpha <> 0 -> 0 <= mn -> mn < mx -> mx <= PI ->
  no_collision (map (fun e => ev_p (bg_ev e)) events) ->
  (exists e, In e events /\ in_annulus mn mx (bg_offset e) /\ ev_p (bg_ev e) = p) ->
  exists t n, estimate_background events true true edges (map Fin centers) (map Fin cuts) (Fin alpha) (Fin mn) (Fin mx) = Ok t /\
    column t (("n_" ++ p) ++ "_weighted") n /\ List.length n = (List.length edges - 1)%nat /\
    (forall k lo hi v, nth_error edges k = Some lo -> nth_error edges (S k) = Some hi ->
       (exists r, lo = Fin r \/ hi = Fin r) -> nth_error n k = Some v ->
       exists theta w, cut_for_bin centers cuts lo hi theta /\
         weight_of (fun e => ev_w (bg_ev e))
           (fun e => in_annulus mn mx (bg_offset e) /\ in_hist_bin edges k (ev_x (bg_ev e)) /\ ev_p (bg_ev e) = p) events w /\
         v = Fin (w * ring_ratio theta mn mx / alpha)).
Proof. exact c26_particles. Qed.
Print Assumptions C26_particles.
(** the interpolated cut is determined by the table *)
Theorem C26_interpolation_unique : forall xs ys x y y',
  increasing xs -> List.length xs = List.length ys ->
  interpolates xs ys x y -> interpolates xs ys x y' -> y = y'.
Proof. exact interpolates_unique. Qed.
Print Assumptions C26_interpolation_unique.
Example C26_example : nondecreasing [Fin 1; Fin 10; PInf] /\ increasing [2; 5] /\
  in_annulus 0 (1/10) (Fin 0) /\ ~ in_annulus 0 (1/10) (Fin (1/10)) /\ interpolates [2; 5] [1; 4] 3 (1 + (3 - 2) / (5 - 2) * (4 - 1)).
Proof.
  split; [conc_nondec|]. split; [conc_increasing|]. unfold in_annulus; cbn [nle nlt].
  split; [split; rsolve; auto|]. split; [intros [_ H]; rcmp; lra|].
  apply (interp_between _ _ _ 0); auto; lra.
Qed.
