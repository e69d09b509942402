(** * Properties_HistDouble: C76, weighted histograms and the background rate in double precision *)
From Coq Require Import String Reals List Bool ZArith Lia Lra.
From Verif Require Import Num Numpy SpecBinning Table Binning BinningWitness SpecUtils SpecSimulations Tensor SpecIRF IRF Double SpecDouble
  IRFDouble PSFDoubleProofs HistDouble HistDouble2Proofs BackgroundDoubleProofs.
Import ListNotations.
Open Scope R_scope.

(** ** C76 *)
(** the weighted columns of the histogram table, of all events and of the particles *)
Theorem C76_histogram_table : forall argsort ev bins key, sorting ev_x argsort -> nondecreasing bins -> (2 <= List.length bins)%nat ->
  et_has_weight ev = true -> usable_weights ev_w (et_rows ev) -> (Z.of_nat (List.length (et_rows ev)) <= 2 ^ 53)%Z ->
  no_collision (map ev_p (et_rows ev)) -> ~ In "weighted"%string (map ev_p (et_rows ev)) ->
  exists t, create_histogram_table_double argsort ev bins key = Ok t /\
    (exists h, getitem t "n_weighted" = Some (CN h) /\ close_histogram ev_x ev_w (et_rows ev) bins h) /\
    (et_has_ptype ev = true -> forall p, In p (map ev_p (et_rows ev)) ->
       exists h, getitem t ("n_" ++ p ++ "_weighted") = Some (CN h) /\ close_histogram ev_x ev_w (filter (fun e => String.eqb (ev_p e) p) (et_rows ev)) bins h).
Proof. exact table_double. Qed.
Print Assumptions C76_histogram_table.
(** whole weights with a total of at most 2^53, for instance a weight of 1 for every event: exact *)
Theorem C76_whole_weights : forall (A : Type) argsort (x : A -> num) w evs edges, sorting x argsort -> nondecreasing edges -> (2 <= List.length edges)%nat ->
  (forall e, In e evs -> exists z, (0 <= z)%Z /\ w e = IZR z) -> (forall t, weight_of w (fun _ => True) evs t -> t <= 2 ^ 53) ->
  (Z.of_nat (List.length evs) <= 2 ^ 53)%Z ->
  exists h, np_histogram_w_double argsort x w evs edges = Ok (map Fin h) /\ is_histogram_w x w evs edges h.
Proof. intros A. exact whole_weights. Qed.
Print Assumptions C76_whole_weights.
(** a bin is not accurate relative to its own content: the weight 1 behind a weight of 2^54 is lost *)
Theorem C76_cancellation_refuted : forall argsort key, sorting ev_x argsort ->
  let evs := [mkEvent (Fin (1 / 2)) (2 ^ 54) ""; mkEvent (Fin (3 / 2)) 1 ""] in
  (exists t, create_histogram_table_double argsort (mkEvents evs true false) [Fin 0; Fin 1; Fin 2] key = Ok t /\
    getitem t "n_weighted" = Some (CN [Fin (2 ^ 54); Fin 0])) /\
  weight_of ev_w (fun e => in_hist_bin [Fin 0; Fin 1; Fin 2] 1 (ev_x e)) evs 1.
Proof. exact cancellation. Qed.
Print Assumptions C76_cancellation_refuted.
(** the background rate adds the weights of every bin separately: accurate relative to its value *)
Theorem C76_background : forall cosine evs ebins fbins t_obs, accurate_cos cosine -> increasing ebins -> (2 <= List.length ebins)%nat -> moderate_widths ebins ->
  angles fbins -> (2 <= List.length fbins)%nat -> moderate t_obs -> (Z.of_nat (List.length evs) <= 2 ^ 50)%Z ->
  (forall e, In e evs -> double (weight e) /\ (weight e = 0 \/ moderate (weight e))) ->
  (forall k a b, nth_error fbins k = Some a -> nth_error fbins (S k) = Some b -> 10000 * eps53 <= ring_deg a b) ->
  exists out, background_2d_double cosine evs (map Fin ebins) fbins t_obs = Ok out /\ shape out = [(List.length ebins - 1)%nat; (List.length fbins - 1)%nat] /\
  forall i j e e' f f' m c, nth_error ebins i = Some e -> nth_error ebins (S i) = Some e' -> nth_error fbins j = Some f -> nth_error fbins (S j) = Some f' ->
    number_of (fun ev => in_hist_bin (map Fin ebins) i (reco_energy ev) /\ in_hist_bin (map Fin fbins) j (reco_fov_offset ev)) evs m ->
    weight_of weight (fun ev => in_hist_bin (map Fin ebins) i (reco_energy ev) /\ in_hist_bin (map Fin fbins) j (reco_fov_offset ev)) evs c ->
    let exact := c / ((e' - e) * t_obs * ring_deg f f') in
    exists rate, at_ out [i; j] = Fin rate /\ 0 <= rate /\ Rabs (rate - exact) <= (3 * (INR m + 4) + 1000 / ring_deg f f') * eps53 * exact.
Proof. exact bkg_double. Qed.
Print Assumptions C76_background.
Example C76_example : sorting ev_x (sort_events ev_x) /\ nondecreasing [Fin 0; Fin 1; Fin 2] /\
  usable_weights ev_w [mkEvent (Fin (1 / 2)) (2 ^ 54) ""; mkEvent (Fin (3 / 2)) 1 ""] /\
  close_histogram (fun e : num * R => fst e) snd [(Fin 1, 2)] [Fin 0; Fin 2] [Fin 2].
Proof.
  split; [apply sort_events_sorting|]. split; [conc_nondec|]. split; [exact usable_example|]. split; [reflexivity|].
  intros k y Hy. destruct k as [|k]; [|destruct k; discriminate]. inversion Hy; subst y. exists 2. split; auto. split; [lra|].
  assert (I : in_hist_bin [Fin 0; Fin 2] 0 (Fin 1)) by (left; exists (Fin 0), (Fin 2); repeat split; cbn; rewrite ?(proj2 (Rleb_true 0 1)), ?(proj2 (Rltb_true 1 2)) by lra; reflexivity). split; [intros H; exfalso; apply (H _ (or_introl eq_refl)); exact I|].
  intros c t Hc Ht. rewrite (weight_of_unique _ _ _ _ Hc (2 + 0)) by (apply (wo_yes snd _ (Fin 1, 2) []); [exact I|constructor]).
  rewrite Rplus_0_r, Rminus_diag_eq, Rabs_R0 by reflexivity. assert (0 <= t) by (inversion Ht as [| ? ? r ? Hr|? ? r ? Hr]; inversion Hr; subst; cbn; lra).
  apply Rmult_le_pos; auto. apply Rmult_le_pos; [unfold eps53; assert (0 < / 2 ^ 53) by (apply Rinv_0_lt_compat; apply pow_lt; lra); lra|].
  assert (0 <= Rmin (INR (List.length [(Fin 1, 2)])) 65536) by (apply Rmin_glb; [apply pos_INR|lra]). cbn [List.length INR] in *. lra.
Qed.
