(** * LocalProofs2: angular resolution and estimated background (C83) *)
From Coq Require Import String Reals List Bool ZArith Arith Lia Lra.
From Verif Require Import Num Numpy Table Binning SpecBinning Lists BinningProofs SpecSensitivity SpecUtils Sensitivity SpecLocal LocalProofs
  Percentile Cuts SpecCuts Benchmarks SpecBenchmarks BenchmarkProofs BenchmarkProofs2 UtilsProofs SensitivityProofs4.
Import ListNotations.
Open Scope R_scope.

Lemma resolution_cells events energy_type xs thetas u tu edges qs :
  getitem events (energy_type ++ "_energy") = Some (mkArr xs (Some u)) -> getitem events "theta" = Some (mkArr thetas tu) ->
  n_rows events = List.length xs -> List.length thetas = List.length xs -> 0 < u_scale u -> nondecreasing edges -> (2 <= List.length edges)%nat ->
  (forall q, In q qs -> 0 <= q <= 1) -> NoDup (map column_name qs) -> (exists x k, In x xs /\ in_bin edges k x) ->
  exists t, angular_resolution events (mkArr edges (Some u)) energy_type (QSeq qs) = Ok t /\
    forall k sel, (k < List.length edges - 1)%nat -> picks (in_bin edges k) xs thetas sel ->
      nth_error (bt_n_events t) k = Some (Z.of_nat (List.length sel)) /\
      match sel with [] => forall nm, In nm (map column_name qs) -> cell t nm k NaN
      | _ => exists vs, rmap (nanquantile sel) qs = Ok vs /\ forall j nm v, nth_error (map column_name qs) j = Some nm -> nth_error vs j = Some v -> cell t nm k v end.
Proof.
  intros He Ht Hrows Hlen Hu Hnd H2 Hq Hnn Hex.
  destruct (bins_ok (map column_name qs) (fun g => rmap (nanquantile g) qs) thetas xs edges u Hnn Hnd H2 Hlen Hu) as (iv & t & E1 & E2 & Htab & Hk); auto.
  - intros g. destruct (quantiles_ok g qs Hq) as (vs & E & L & _). exists vs. rewrite map_length. auto.
  - exists t. split; [|exact Hk].
    unfold angular_resolution, get_column. rewrite He, Ht. cbn [rbind]. rewrite E1. cbn [rbind]. destruct Hex as (x & k & Hx & _).
    destruct (Nat.eqb_spec (n_rows events) 0); [|exact E2]. rewrite Hrows in e. destruct xs; [contradiction|discriminate].
Qed.
Lemma local_resolution events events' energy_type xs xs' thetas thetas' u tu edges qs :
  getitem events (energy_type ++ "_energy") = Some (mkArr xs (Some u)) -> getitem events "theta" = Some (mkArr thetas tu) ->
  n_rows events = List.length xs -> List.length thetas = List.length xs ->
  getitem events' (energy_type ++ "_energy") = Some (mkArr xs' (Some u)) -> getitem events' "theta" = Some (mkArr thetas' tu) ->
  n_rows events' = List.length xs' -> List.length thetas' = List.length xs' -> 0 < u_scale u -> nondecreasing edges -> (2 <= List.length edges)%nat ->
  (forall q, In q qs -> 0 <= q <= 1) -> NoDup (map column_name qs) -> (exists x k, In x xs /\ in_bin edges k x) -> (exists x k, In x xs' /\ in_bin edges k x) ->
  exists t t', angular_resolution events (mkArr edges (Some u)) energy_type (QSeq qs) = Ok t /\ angular_resolution events' (mkArr edges (Some u)) energy_type (QSeq qs) = Ok t' /\
    forall k sel, (k < List.length edges - 1)%nat -> picks (in_bin edges k) xs thetas sel -> picks (in_bin edges k) xs' thetas' sel ->
      nth_error (bt_n_events t) k = nth_error (bt_n_events t') k /\ forall q, In q qs -> exists c, cell t (column_name q) k c /\ cell t' (column_name q) k c.
Proof.
  intros A1 A2 A3 A4 B1 B2 B3 B4 Hu Hnd H2 Hq Hnn X X'.
  destruct (resolution_cells _ _ _ _ _ _ _ _ A1 A2 A3 A4 Hu Hnd H2 Hq Hnn X) as (t & E & C). destruct (resolution_cells _ _ _ _ _ _ _ _ B1 B2 B3 B4 Hu Hnd H2 Hq Hnn X') as (t' & E' & C').
  exists t, t'. split; [exact E|]. split; [exact E'|]. intros k sel Hk P P'. destruct (C k sel Hk P) as (N & V). destruct (C' k sel Hk P') as (N' & V'). split; [congruence|].
  intros q Hin. destruct sel as [|s sel]; [exists NaN; split; [apply V|apply V']; apply in_map, Hin|]. destruct V as (vs & Ev & V). destruct V' as (vs' & Ev' & V').
  rewrite Ev in Ev'. injection Ev' as <-. apply In_nth_error in Hin as (j & Hj).
  destruct (quantiles_ok (s :: sel) qs Hq) as (vs0 & E0 & L & _). rewrite E0 in Ev. injection Ev as <-.
  destruct (nth_some_ex vs0 j) as (v & Hv); [rewrite L; eapply nth_some_lt; eauto|]. exists v. split; [eapply V|eapply V']; eauto; rewrite nth_error_map, Hj; auto.
Qed.
Lemma cut_unique centers cuts lo hi a b : increasing centers -> List.length centers = List.length cuts -> cut_for_bin centers cuts lo hi a -> cut_for_bin centers cuts lo hi b -> a = b.
Proof.
  intros I L H H'. inversion H; subst; inversion H'; subst; try congruence. eapply interpolates_unique; eauto.
Qed.
Lemma local_estimate l l' hw hp edges centers cuts alpha mn mx k lo hi :
  nondecreasing edges -> (2 <= List.length edges)%nat -> increasing centers -> List.length centers = List.length cuts -> centers <> [] ->
  alpha <> 0 -> 0 <= mn -> mn < mx -> mx <= PI -> nth_error edges k = Some lo -> nth_error edges (S k) = Some hi -> (exists r, lo = Fin r \/ hi = Fin r) ->
  same_on (fun e => in_annulus mn mx (bg_offset e) /\ in_hist_bin edges k (ev_x (bg_ev e))) l l' ->
  exists t t' n n' v, estimate_background l hw hp edges (map Fin centers) (map Fin cuts) (Fin alpha) (Fin mn) (Fin mx) = Ok t /\
    estimate_background l' hw hp edges (map Fin centers) (map Fin cuts) (Fin alpha) (Fin mn) (Fin mx) = Ok t' /\
    column t "n" n /\ column t' "n" n' /\ nth_error n k = Some v /\ nth_error n' k = Some v.
Proof.
  intros He Le Hc Lc Nc Ha Hm Hmx Hp Hlo Hhi Hr S.
  destruct (c26 l hw hp edges centers cuts alpha mn mx He Le Hc Lc Nc Ha Hm Hmx Hp) as (t & n & E & G & Ln & V).
  destruct (c26 l' hw hp edges centers cuts alpha mn mx He Le Hc Lc Nc Ha Hm Hmx Hp) as (t' & n' & E' & G' & Ln' & V').
  pose proof (nth_some_lt _ _ _ Hhi). destruct (nth_some_ex n k) as [v Hv]; [lia|]. destruct (nth_some_ex n' k) as [v' Hv']; [lia|].
  destruct (V k lo hi v Hlo Hhi Hr Hv) as (th & m & T & M & ->). destruct (V' k lo hi v' Hlo Hhi Hr Hv') as (th' & m' & T' & M' & ->).
  rewrite (cut_unique _ _ _ _ _ _ Hc Lc T T') in *. assert (m = m') by exact (same_number _ _ _ _ _ _ (fun e H => H) S M M'). subst m'.
  exists t, t', n, n', (Fin (INR m * ring_ratio th' mn mx / alpha)). repeat (split; [assumption|]). assumption.
Qed.
