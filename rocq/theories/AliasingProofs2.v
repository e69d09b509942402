(** * AliasingProofs2: any session gives the results of the functional model *)
From Coq Require Import Reals List Bool ZArith Arith Lia Lra.
From Verif Require Import Num Numpy Sort Table Binning Utils Morph Geometry Quantile Estimators Aliasing SpecHistory AliasingProofs.
Import ListNotations.
Open Scope R_scope.

Definition good_call (P : nat -> Prop) (h0 : heap) (call : heap -> target_arg -> heap * res (bool * view))
    (F : target_arg -> res (bool * list R)) (fresh : bool) : Prop :=
  forall h t, agree P h0 h -> exists h' r, call h t = (h', r) /\ frame h h' /\
    match r with
    | Err e => F t = Err e
    | Ok (w, v) => F t = Ok (w, read_view h' v) /\ valid h' v /\ (fresh = true -> (length h <= v_buf v)%nat)
    end.
Definition bounded (P : nat -> Prop) (h0 : heap) : Prop := forall b, P b -> (b < length h0)%nat.

Lemma run_calls P h0 call F fresh input p : good_call P h0 call F fresh -> bounded P h0 -> only_calls p ->
  s_seen (run call input h0 p) = map F (targets p) /\ final (run call input h0 p) = map content (s_seen (run call input h0 p)).
Proof.
  intros G B. unfold run, final.
  assert (K : forall p s, only_calls p -> agree P h0 (s_heap s) ->
    Forall2 (fun r o => match r with Some v => valid (s_heap s) v /\ content o = Some (read_view (s_heap s) v) | None => content o = None end) (s_returned s) (s_seen s) ->
    let s' := fold_left (step call input) p s in s_seen s' = s_seen s ++ map F (targets p) /\
      map (option_map (read_view (s_heap s'))) (s_returned s') = map content (s_seen s')).
  { clear p. induction p as [|a p IH]; intros s Hc Ha Hr; cbn [fold_left].
    - cbn [targets map]. rewrite app_nil_r. split; auto.
      induction Hr as [|r o l l' H Hr IHr]; cbn [map]; auto. f_equal; auto. destruct r; cbn [option_map]; [symmetry; tauto|auto].
    - destruct (Hc a) as [t ->]; [left; auto|]. cbn [targets step map].
      destruct (G _ t Ha) as (h' & r & E & Fr & M). rewrite E.
      assert (Mono : forall _ : unit, Forall2 (fun r o => match r with Some v => valid h' v /\ content o = Some (read_view h' v) | None => content o = None end) (s_returned s) (s_seen s)).
      { intros _. clear - Hr Fr. induction Hr as [|r o l l' H Hr IHr]; constructor; auto. destruct r; auto. destruct H as [V C]. split; [eapply frame_valid; eauto|].
        rewrite (frame_read _ _ _ Fr); auto. apply V. }
      destruct r as [[w v]|x].
      + destruct M as (M1 & M2 & _). specialize (IH (mkSession h' (s_returned s ++ [Some v]) (s_seen s ++ [Ok (w, read_view h' v)]))).
        cbn [s_heap s_returned s_seen] in IH. destruct IH as [I1 I2].
        * intros a Ha'. apply Hc. right; auto.
        * eapply frame_agree; eauto.
        * apply Forall2_app; [apply (Mono tt)|]. constructor; [split; auto|constructor].
        * cbv zeta in *. rewrite I1. split; [|rewrite <- I1; exact I2]. rewrite <- app_assoc. cbn [app]. rewrite <- M1. auto.
      + specialize (IH (mkSession h' (s_returned s ++ [None]) (s_seen s ++ [Err x]))).
        cbn [s_heap s_returned s_seen] in IH. destruct IH as [I1 I2].
        * intros a Ha'. apply Hc. right; auto.
        * eapply frame_agree; eauto.
        * apply Forall2_app; [apply (Mono tt)|]. constructor; [reflexivity|constructor].
        * cbv zeta in *. rewrite I1. split; [|rewrite <- I1; exact I2]. rewrite <- app_assoc. cbn [app]. rewrite <- M. auto. }
  intros Hc. apply (K p (mkSession h0 [] []) Hc); cbn [s_heap s_returned s_seen]; [split; auto|constructor].
Qed.
Lemma write_agree (P : nat -> Prop) h0 h v l : ~ P (v_buf v) -> agree P h0 h -> agree P h0 (write_view h v l).
Proof. intros H [A B]. split; [rewrite write_view_length; auto|]. intros b Hb. rewrite write_view_other; [auto|]. intros ->. contradiction. Qed.
Lemma run_any P h0 call F input p : good_call P h0 call F true -> bounded P h0 -> input_untouched p \/ ~ P input ->
  s_seen (run call input h0 p) = map F (targets p).
Proof.
  intros G B. unfold run.
  assert (K : forall p s, input_untouched p \/ ~ P input -> agree P h0 (s_heap s) ->
    (forall k v, nth k (s_returned s) None = Some v -> (length h0 <= v_buf v)%nat) ->
    s_seen (fold_left (step call input) p s) = s_seen s ++ map F (targets p)).
  { clear p. induction p as [|a p IH]; intros s Hc Ha Hr; cbn [fold_left].
    - cbn [targets map]. rewrite app_nil_r. auto.
    - assert (Hc' : input_untouched p \/ ~ P input) by (destruct Hc as [Hc|Hc]; auto; left; intros x Hx; apply Hc; right; auto).
      destruct a as [t|k c|i c]; cbn [targets step map].
      + destruct (G _ t Ha) as (h' & r & E & Fr & M). rewrite E. destruct r as [[w v]|x].
        * destruct M as (M1 & M2 & M3). rewrite IH; auto; cbn [s_heap s_returned s_seen].
          -- rewrite <- app_assoc. cbn [app]. rewrite <- M1. auto.
          -- eapply frame_agree; eauto.
          -- intros k v' Hk. destruct (Nat.lt_ge_cases k (length (s_returned s))) as [L|L].
             ++ rewrite app_nth1 in Hk by auto. eauto.
             ++ rewrite app_nth2 in Hk by auto. destruct (k - length (s_returned s))%nat as [|m]; cbn [nth] in Hk; [|destruct m; discriminate].
                injection Hk as <-. specialize (M3 eq_refl). destruct Ha; lia.
        * rewrite IH; auto; cbn [s_heap s_returned s_seen].
          -- rewrite <- app_assoc. cbn [app]. rewrite <- M. auto.
          -- eapply frame_agree; eauto.
          -- intros k v' Hk. destruct (Nat.lt_ge_cases k (length (s_returned s))) as [L|L].
             ++ rewrite app_nth1 in Hk by auto. eauto.
             ++ rewrite app_nth2 in Hk by auto. destruct (k - length (s_returned s))%nat as [|m]; cbn [nth] in Hk; [|destruct m]; discriminate.
      + destruct (nth k (s_returned s) None) as [v|] eqn:Ek; [|auto]. rewrite IH; auto; cbn [s_heap s_returned s_seen].
        apply write_agree; auto. intros HP. specialize (B _ HP). specialize (Hr _ _ Ek). lia.
      + rewrite IH; auto; cbn [s_heap s_returned s_seen]. apply write_agree; auto. cbn [v_buf].
        destruct Hc as [Hc|Hc]; auto. exfalso. apply (Hc (SetInput i c)) with (i := i) (c := c); auto. left; auto. }
  intros Hc. apply (K p (mkSession h0 [] []) Hc); cbn [s_heap s_returned s_seen]; [split; auto|]. intros [|k] v H; discriminate.
Qed.

Lemma no_searcher_nearest i e o : no_searcher i e -> nearest_object (eo_interp o) = is_nearest (as_method i) ->
  (match eo_extrap o with Some oe => nearest_object oe | None => false end = match e with Some e => is_nearest (as_method e) | None => false end) ->
  forall w, used_nearest o w = false.
Proof.
  intros [N1 N2] H1 H2 w. unfold used_nearest.
  assert (K : forall c, ~ searcher c -> is_nearest (as_method c) = false).
  { intros c Hc. destruct c; cbn [as_method is_nearest]; auto. exfalso. apply Hc. exists norm_ord; auto. }
  destruct w; [rewrite H2|rewrite H1; auto]. destruct e; auto.
Qed.

(** ** plain estimators *)
Lemma plain_good inside P h0 b o est fresh : good_estimator inside P h0 b o est ->
  (fresh = true -> forall w, used_nearest o w = false) ->
  good_call P h0 (fun h t => call_obj inside h o t) (estimator_call inside est) fresh.
Proof.
  intros G Hn h t Ha. destruct (ge_call _ _ _ _ _ _ G h t Ha) as (h' & r & E & F & M). exists h', r. split; auto. split; auto.
  destruct r as [[w v]|x]; auto. destruct M as (M1 & M2 & _ & M3). split; auto. split; auto. intros Hf. rewrite (Hn Hf w) in M3. auto.
Qed.
Theorem c67_plain inside (h : heap) b gp i e est : (b < length h)%nat ->
  parametrized_init gp (Some (read_rows h b)) (as_method i) (option_map as_method e) = Ok est ->
  exists h0 o, init_obj h gp b i e = (h0, Ok o) /\ (forall b', (b' < length h)%nat -> read_rows h0 b' = read_rows h b') /\
    let session := run (fun h t => call_obj inside h o t) b h0 in
    (forall p, only_calls p -> s_seen (session p) = map (estimator_call inside est) (targets p) /\
       final (session p) = map content (s_seen (session p))) /\
    (no_searcher i e -> forall p, input_untouched p -> s_seen (session p) = map (estimator_call inside est) (targets p)) /\
    (no_searcher i e -> grid_dim est = 1%nat \/ all_eager i e -> forall p, s_seen (session p) = map (estimator_call inside est) (targets p)).
Proof.
  intros Hb Hi.
  destruct (good_init inside (fun _ => True) h b gp i e est Hb Hi) as (h0 & b0 & o & E & F & L & C & _ & N1 & N2 & _).
  exists h0, o. split; auto. split; [apply F|].
  assert (G : forall P, P b0 \/ all_eager i e -> good_estimator inside P h0 b0 o est).
  { intros P HP. destruct (good_init inside P h b gp i e est Hb Hi) as (h0' & b0' & o' & E' & _ & _ & C' & _ & _ & _ & G').
    rewrite E in E'. injection E' as <- <-. assert (b0' = b0) by (destruct (Nat.eqb (grid_dim est) 1); congruence). subst b0'. auto. }
  cbv zeta. split; [|split].
  - intros p Hp. apply (run_calls (fun x => x = b0) h0 _ _ false); auto; [|intros x ->; auto].
    eapply plain_good; [apply G; auto|discriminate].
  - intros Hn p Hp. apply (run_any (fun x => x = b0) h0); auto; [|intros x ->; auto].
    eapply plain_good; [apply G; auto|]. intros _. eapply no_searcher_nearest; eauto.
  - intros Hn Hd p. destruct (Nat.eqb_spec (grid_dim est) 1) as [D|D].
    + apply (run_any (fun x => x = b0) h0); [|intros x ->; auto|right; lia].
      eapply plain_good; [apply G; auto|]. intros _. eapply no_searcher_nearest; eauto.
    + destruct Hd as [Hd|Hd]; [contradiction|]. apply (run_any (fun x => False) h0); [|intros x []|auto].
      eapply plain_good; [apply G; auto|]. intros _. eapply no_searcher_nearest; eauto.
Qed.

(** ** EffectiveAreaEstimator *)
Lemma area_good inside P h0 b o est mn : good_estimator inside P h0 b o est ->
  good_call P h0 (fun h t => call_area inside h o mn t) (aeff_call inside est mn) true.
Proof.
  intros G h t Ha. destruct (ge_call _ _ _ _ _ _ G h t Ha) as (h' & r & E & F & M). unfold call_area, aeff_call. rewrite E.
  destruct r as [[w v]|x].
  - destruct M as (M1 & M2 & _). unfold alloc_view. eexists _, _. split; [reflexivity|].
    set (v2 := mkView (length h') 0). set (h2 := h' ++ [[map exp (read_view h' v)]]).
    assert (V : valid h2 v2).
    { unfold valid, v2, h2. cbn [v_buf v_row]. rewrite read_new, app_length. simpl. lia. }
    assert (R2 : read_view h2 v2 = map exp (read_view h' v)) by (unfold read_view at 1, v2, h2; cbn [v_buf v_row]; rewrite read_new; reflexivity).
    split; [apply frame_write; [cbn [v_buf v2]; destruct F; lia|eapply frame_trans; [eauto|apply frame_app]]|].
    split; [|split].
    + rewrite M1. cbn [rbind fst snd]. rewrite write_view_read by apply V. rewrite R2, map_map. reflexivity.
    + destruct V as [V1 V2]. split; [rewrite write_view_length; auto|]. unfold write_view. unfold read_rows at 1. rewrite set_nth_same by auto. rewrite set_nth_length. auto.
    + intros _. cbn [v_buf v2]. destruct F; lia.
  - exists h', (Err x). split; auto. split; auto. rewrite M. reflexivity.
Qed.
Theorem c67_area inside (h : heap) b gp unit mn i e est : (b < length h)%nat ->
  aeff_init gp (in_m2 unit (read_rows h b)) mn (as_method i) (option_map as_method e) = Ok est ->
  exists h0 o, init_area h gp b unit mn i e = (h0, Ok o) /\
    (forall b', (b' < length h)%nat -> b' <> b \/ unit <> None -> read_rows h0 b' = read_rows h b') /\
    forall p, let s := run (fun h t => call_area inside h o mn t) b h0 p in
      s_seen s = map (aeff_call inside est mn) (targets p) /\
      (only_calls p -> final s = map content (s_seen s)).
Proof.
  intros Hb Hi.
  assert (K : exists (h1 : heap) b1, init_area h gp b unit mn i e =
      (let h2 := write_rows h1 b1 (map (map (floor_at mn)) (read_rows h1 b1)) in init_obj (h2 ++ [map (map ln) (read_rows h2 b1)]) gp (length h2) i e) /\
    frame h h1 /\ (b1 < length h1)%nat /\ read_rows h1 b1 = in_m2 unit (read_rows h b) /\
    (unit = None -> b1 = b) /\ (unit <> None -> (length h <= b1)%nat)).
  { unfold init_area, in_m2, alloc. destruct unit as [s|].
    - eexists _, _. split; [reflexivity|]. split; [apply frame_app|]. split; [rewrite app_length; simpl; lia|]. split; [apply read_new|]. split; [discriminate|auto].
    - exists h, b. split; [reflexivity|]. split; [apply frame_refl|]. split; auto. split; auto. split; [auto|congruence]. }
  destruct K as (h1 & b1 & Eini & F1 & L1 & R1 & C1 & C2). rewrite Eini. clear Eini. cbv zeta.
  set (h2 := write_rows h1 b1 (map (map (floor_at mn)) (read_rows h1 b1))).
  set (h3 := h2 ++ [map (map ln) (read_rows h2 b1)]).
  assert (R2 : read_rows h2 b1 = map (map (floor_at mn)) (in_m2 unit (read_rows h b))).
  { unfold h2, write_rows. rewrite <- R1. unfold read_rows at 1. apply set_nth_same; auto. }
  assert (L2 : length h2 = length h1) by (unfold h2, write_rows; apply set_nth_length).
  assert (R3 : read_rows h3 (length h2) = map (map (fun a => ln (floor_at mn a))) (in_m2 unit (read_rows h b))).
  { unfold h3. rewrite read_new, R2, map_map. apply map_ext. intros l. apply map_map. }
  assert (L3 : (length h2 < length h3)%nat) by (unfold h3; rewrite app_length; simpl; lia).
  unfold aeff_init in Hi. rewrite <- R3 in Hi.
  destruct (good_init inside (fun _ => True) h3 (length h2) gp i e est L3 Hi) as (h0 & b0 & o & E & F & L & C & _ & N1 & N2 & _).
  rewrite E. exists h0, o. split; auto.
  assert (Lb : (b < b0)%nat). { destruct F1. destruct (Nat.eqb (grid_dim est) 1); subst b0; lia. }
  split.
  - intros b' Hb' Hne. destruct F1 as [F1a F1b]. rewrite <- (F1b b' Hb'). destruct F as [Fa Fb]. rewrite Fb by lia. unfold h3. rewrite read_app by lia.
    unfold h2, write_rows, read_rows. apply set_nth_other. destruct unit as [s|].
    + specialize (C2 ltac:(discriminate)). lia.
    + rewrite (C1 eq_refl). destruct Hne as [Hne|Hne]; congruence.
  - destruct (good_init inside (fun x => x = b0) h3 (length h2) gp i e est L3 Hi) as (h0' & b0' & o' & E' & _ & _ & C' & _ & _ & _ & G').
    rewrite E in E'. injection E' as <- <-. assert (b0' = b0) by (destruct (Nat.eqb (grid_dim est) 1); congruence). subst b0'.
    specialize (G' (or_introl eq_refl)). pose proof (area_good _ _ _ _ _ _ mn G') as Gc.
    assert (B : bounded (fun x => x = b0) h0) by (intros x ->; auto).
    intros p. cbv zeta. split.
    + apply (run_any (fun x => x = b0) h0); auto. right. lia.
    + intros Hp. eapply run_calls; eauto.
Qed.

(** ** RadMaxEstimator *)
Lemma rad_max_call_eq inside tri find two_axes r target :
  rad_max_call inside tri find two_axes r target =
  do wo <- estimator_call inside (rm_est r) target;
  let full := map min_entry (snd wo) in
  do o <- fill_entries tri find two_axes (grid_dim (rm_est r)) (grid (rm_est r)) (rm_params r) (fill_val r) (interp_nearest r) (extrap_nearest r) target full;
  Ok (fst wo, match o with Some l => l | None => full end).
Proof.
  unfold rad_max_call, fill_entries. destruct (estimator_call inside (rm_est r) target) as [[w l]|x]; cbn [rbind]; [|reflexivity].
  cbv zeta. destruct (check_target (grid_dim (rm_est r)) target) as [t|x]; cbn [rbind]; [|reflexivity].
  destruct (active_fill (fill_val r)) as [f|]; [|reflexivity].
  destruct (Nat.eqb (grid_dim (rm_est r)) 1).
  - destruct (_ || interp_nearest r); [reflexivity|].
    destruct (rm_segment _ _) as [s|]; cbn [rbind]; [|reflexivity].
    destruct (pyget _ (fst s)); cbn [rbind]; [|reflexivity]. destruct (pyget _ (snd s)); cbn [rbind]; [|reflexivity].
    destruct two_axes; reflexivity.
  - destruct (_ || interp_nearest r); [reflexivity|].
    destruct (match find t with Some i => Ok i | None => _ end) as [k|]; cbn [rbind]; [|reflexivity].
    destruct (nth_error (simplices tri) k) as [[[p q] s]|]; [|reflexivity].
    destruct (pyget _ (Z.of_nat p)); cbn [rbind]; [|reflexivity]. destruct (pyget _ (Z.of_nat q)); cbn [rbind]; [|reflexivity]. destruct (pyget _ (Z.of_nat s)); cbn [rbind]; [|reflexivity].
    destruct two_axes; reflexivity.
Qed.
Lemma min_entry_id l : (forall x, In x l -> 0 <= x) -> map min_entry l = l.
Proof.
  intros H. induction l as [|x l IH]; cbn [map]; auto. f_equal; [|apply IH; intros; apply H; right; auto].
  unfold min_entry. rewrite (proj2 (Rltb_false _ _)); auto. specialize (H x (or_introl eq_refl)). lra.
Qed.
Lemma view_nonneg h v : non_negative (read_rows h (v_buf v)) -> valid h v -> forall x, In x (read_view h v) -> 0 <= x.
Proof. intros H [V1 V2] x Hx. eapply H; [|exact Hx]. unfold read_view. apply nth_In. auto. Qed.
Lemma fill_none tri find two_axes dim grid params params' fill a b t full : active_fill fill = None ->
  fill_entries tri find two_axes dim grid params fill a b t full = fill_entries tri find two_axes dim grid params' fill a b t full.
Proof. intros H. unfold fill_entries. rewrite H. reflexivity. Qed.
Lemma rad_max_good inside tri find two_axes (P : nat -> Prop) h0 b0 (r : rad_max_obj) (rm : rad_max_estimator) (i : cls) (e : option cls) fresh :
  bounded P h0 -> good_estimator inside P h0 b0 (rmo_est r) (rm_est rm) ->
  rmo_fill r = fill_val rm -> rmo_interp_nearest r = interp_nearest rm -> rmo_extrap_nearest r = extrap_nearest rm ->
  nearest_object (eo_interp (rmo_est r)) = interp_nearest rm ->
  match eo_extrap (rmo_est r) with Some oe => nearest_object oe | None => false end = extrap_nearest rm ->
  (active_fill (fill_val rm) = None \/ (P (rmo_params r) /\ read_rows h0 (rmo_params r) = rm_params rm)) ->
  (forall w, used_nearest (rmo_est r) w = false) \/ (P b0 /\ non_negative (read_rows h0 b0)) ->
  (fresh = true -> forall w, used_nearest (rmo_est r) w = false) ->
  good_call P h0 (fun h t => call_rad_max inside tri find two_axes h r t) (rad_max_call inside tri find two_axes rm) fresh.
Proof.
  intros Bd G Ef Ei Ee Ni Ne Hp Hneg Hfr h t Ha. rewrite rad_max_call_eq. unfold call_rad_max.
  destruct (ge_call _ _ _ _ _ _ G h t Ha) as (h1 & x & E & F & M). rewrite E.
  destruct x as [[w v]|x].
  2:{ exists h1, (Err x). split; auto. split; auto. rewrite M. reflexivity. }
  destruct M as (M1 & M2 & (t' & Ht & Hw) & M3). rewrite M1. cbn [rbind fst snd]. cbv zeta.
  set (h2 := write_view h1 v (map min_entry (read_view h1 v))).
  assert (R2 : read_view h2 v = map min_entry (read_view h1 v)) by (apply write_view_read; apply M2).
  assert (K : frame h h2 /\ valid h2 v /\ (used_nearest (rmo_est r) w = true -> h2 = h)).
  { assert (V2 : valid h2 v).
    { destruct M2 as [V1 V2]. split; [unfold h2; rewrite write_view_length; auto|]. unfold h2, write_view. unfold read_rows at 1. rewrite set_nth_same by auto. rewrite set_nth_length. auto. }
    destruct (used_nearest (rmo_est r) w) eqn:U.
    - destruct M3 as [-> Mb]. destruct Hneg as [Hneg|[Hneg1 Hneg2]]; [rewrite Hneg in U; discriminate|].
      assert (h2 = h). { apply write_same. symmetry. apply min_entry_id. apply view_nonneg; auto. rewrite Mb. destruct Ha as [_ Ha]. rewrite Ha; auto. }
      rewrite H in *. split; [apply frame_refl|]. auto.
    - split; [apply frame_write; auto|]. split; auto. discriminate. }
  destruct K as (F2 & V2 & K2).
  assert (Efill : fill_entries tri find two_axes (eo_dim (rmo_est r)) (eo_grid (rmo_est r)) (read_rows h2 (rmo_params r)) (rmo_fill r)
      (rmo_interp_nearest r) (rmo_extrap_nearest r) t (read_view h2 v) =
    fill_entries tri find two_axes (grid_dim (rm_est rm)) (grid (rm_est rm)) (rm_params rm) (fill_val rm) (interp_nearest rm) (extrap_nearest rm) t
      (map min_entry (read_view h1 v))).
  { rewrite R2, Ef, Ei, Ee, (ge_dim _ _ _ _ _ _ G), (ge_grid _ _ _ _ _ _ G). destruct Hp as [Hp|[Hp1 Hp2]]; [apply fill_none; auto|].
    destruct Ha as [Ha1 Ha2]. destruct F2 as [Fa Fb]. rewrite Fb by (specialize (Bd _ Hp1); lia). rewrite (Ha2 _ Hp1), Hp2. reflexivity. }
  rewrite <- Efill.
  destruct (fill_entries _ _ _ (eo_dim _) _ _ _ _ _ _ _) as [[l|]|x] eqn:Efe; cbn [rbind].
  - destruct (Nat.eqb_spec (eo_dim (rmo_est r)) 1) as [D|D].
    + assert (U : used_nearest (rmo_est r) w = false).
      { destruct (used_nearest (rmo_est r) w) eqn:U; auto. exfalso.
        unfold fill_entries in Efe. rewrite Ht in Efe. cbn [rbind] in Efe. cbv zeta in Efe. destruct (active_fill (rmo_fill r)) as [f|]; [|discriminate].
        rewrite D in Efe. cbn [Nat.eqb] in Efe. unfold target_in_grid in Hw. rewrite D in Hw. cbn [Nat.eqb] in Hw.
        assert (X : ((Rltb (hd 0 t') (list_min (concat (eo_grid (rmo_est r)))) || Rltb (list_max (concat (eo_grid (rmo_est r)))) (hd 0 t')) && rmo_extrap_nearest r || rmo_interp_nearest r) = true).
        { unfold used_nearest in U. destruct w.
          - rewrite Ee, <- Ne, U, andb_true_r. apply orb_true_iff. left. symmetry in Hw. apply negb_true_iff, andb_false_iff in Hw.
            apply orb_true_iff. destruct Hw as [Hw|Hw]; apply Rleb_false in Hw; [left|right]; apply Rltb_true; lra.
          - rewrite Ei, <- Ni, U. apply orb_true_r. }
        rewrite X in Efe. discriminate. }
      rewrite U in M3. eexists _, _. split; [reflexivity|]. split; [apply frame_write; auto|]. split; [rewrite write_view_read by apply V2; reflexivity|].
      split; [|auto]. destruct V2 as [V2a V2b]. split; [rewrite write_view_length; auto|]. unfold write_view. unfold read_rows at 1. rewrite set_nth_same by auto. rewrite set_nth_length. auto.
    + unfold alloc_view. eexists _, _. split; [reflexivity|]. split; [eapply frame_trans; [eauto|apply frame_app]|].
      split; [unfold read_view at 1; cbn [v_buf v_row]; rewrite read_new; reflexivity|].
      split; [unfold valid; cbn [v_buf v_row]; rewrite read_new, app_length; simpl; lia|]. intros _. cbn [v_buf]. destruct F2; lia.
  - eexists _, _. split; [reflexivity|]. split; auto. split; [rewrite R2; reflexivity|]. split; auto.
    intros Hf. rewrite (Hfr Hf w) in M3. auto.
  - eexists _, _. split; [reflexivity|]. split; auto.
Qed.
Theorem c67_rad_max inside tri find two_axes (h : heap) b gp fv i e rm : (b < length h)%nat ->
  rad_max_init gp (read_rows h b) fv (as_method i) (option_map as_method e) = Ok rm ->
  exists h0 r, init_rad_max h gp b fv i e = (h0, Ok r) /\ (forall b', (b' < length h)%nat -> read_rows h0 b' = read_rows h b') /\
    let session := run (fun h t => call_rad_max inside tri find two_axes h r t) b h0 in
    (no_searcher i e \/ non_negative (read_rows h b) -> forall p, only_calls p ->
       s_seen (session p) = map (rad_max_call inside tri find two_axes rm) (targets p) /\ final (session p) = map content (s_seen (session p))) /\
    (no_searcher i e -> forall p, input_untouched p -> s_seen (session p) = map (rad_max_call inside tri find two_axes rm) (targets p)) /\
    (no_searcher i e -> active_fill (fill_val rm) = None -> grid_dim (rm_est rm) = 1%nat \/ all_eager i e -> forall p,
       s_seen (session p) = map (rad_max_call inside tri find two_axes rm) (targets p)).
Proof.
  intros Hb Hi. unfold rad_max_init in Hi. unfold init_rad_max.
  match type of Hi with rbind ?c _ = _ => destruct c as [est|x] eqn:Hest end; cbn [rbind] in Hi; [|discriminate]. cbv zeta in Hi.
  destruct (good_init inside (fun _ => True) h b gp i e est Hb Hest) as (h0 & b0 & o & E & F & L & C & Rb & N1 & N2 & G0). rewrite E.
  assert (G : forall P, P b0 \/ all_eager i e -> good_estimator inside P h0 b0 o est).
  { intros P HP. destruct (good_init inside P h b gp i e est Hb Hest) as (h0' & b0' & o' & E' & _ & _ & C' & _ & _ & _ & G').
    rewrite E in E'. injection E' as <- <-. assert (b0' = b0) by (destruct (Nat.eqb (grid_dim est) 1); congruence). subst b0'. auto. }
  assert (Rh : read_rows h0 b = read_rows h b) by (apply F; auto). rewrite Rh.
  set (f := match fv with FillNone => None | FillInfer => Some (list_max (concat (read_rows h b))) | FillValue v => Some v end) in *.
  assert (Nopt : match option_map as_method e with Some e => is_nearest e | None => false end = match e with Some e => is_nearest (as_method e) | None => false end) by (destruct e; auto).
  rewrite Nopt in Hi. set (ne := match e with Some e => is_nearest (as_method e) | None => false end) in *.
  set (r := mkRMO o b f (is_nearest (as_method i)) ne).
  exists h0, r.
  assert (D : eo_dim o = grid_dim est) by (eapply ge_dim; apply (G (fun _ => True)); auto).
  assert (Erm : rm = mkRM est (read_rows h b) f (is_nearest (as_method i)) ne /\
    match active_fill f with Some _ => if Nat.leb 3 (eo_dim o) then (h0, Err ValueError) else (h0, Ok r) | None => (h0, Ok r) end = (h0, Ok r)).
  { rewrite D. destruct (active_fill f); [destruct (Nat.leb 3 (grid_dim est)); [discriminate|]|]; injection Hi as <-; auto. }
  destruct Erm as [Erm Eini]. split; [exact Eini|]. split; [apply F|].
  assert (Nn : non_negative (read_rows h b) -> non_negative (read_rows h0 b0)).
  { intros Hn. rewrite Rb. intros l x Hl Hx. apply in_map_iff in Hl as ((c & l') & <- & Hl). cbn [snd] in *.
    assert (Hin : In (c, l') (combine (match base_init gp with Ok dp => snd dp | Err _ => [] end) (read_rows h b))).
    { unfold sort_points in Hl. destruct (Nat.eqb (grid_dim est) 1); auto. eapply Permutation.Permutation_in; [apply Permutation.Permutation_sym, isort_perm|exact Hl]. }
    apply in_combine_r in Hin. eapply Hn; eauto. }
  cbv zeta. subst rm. cbn [fill_val rm_est].
  assert (Good : forall P fresh, bounded P h0 -> P b0 \/ all_eager i e -> (active_fill f = None \/ P b) -> 
     no_searcher i e \/ (P b0 /\ non_negative (read_rows h b)) -> (fresh = true -> no_searcher i e) ->
     good_call P h0 (fun h t => call_rad_max inside tri find two_axes h r t)
       (rad_max_call inside tri find two_axes (mkRM est (read_rows h b) f (is_nearest (as_method i)) ne)) fresh).
  { intros P fresh Bd HPb Hf Hn Hfr. apply (rad_max_good inside tri find two_axes P h0 b0 r (mkRM est (read_rows h b) f (is_nearest (as_method i)) ne) i e fresh);
      cbn [rmo_est rm_est rmo_fill fill_val rmo_interp_nearest interp_nearest rmo_extrap_nearest extrap_nearest rmo_params rm_params r]; auto.
    - destruct Hf as [Hf|Hf]; auto.
    - destruct Hn as [Hn|[Hn1 Hn2]]; [left; eapply no_searcher_nearest; eauto|right; auto].
    - intros Hfr'. eapply no_searcher_nearest; eauto. }
  assert (Bd2 : bounded (fun x => x = b0 \/ x = b) h0) by (intros x [->| ->]; [auto|destruct F; lia]).
  split; [|split].
  - intros Hn p Hp. eapply (run_calls (fun x => x = b0 \/ x = b)); auto. apply (Good _ false); auto. destruct Hn; auto. discriminate.
  - intros Hn p Hp. apply (run_any (fun x => x = b0 \/ x = b)  h0); auto.
  - intros Hn Hf Hd p. destruct (Nat.eqb_spec (grid_dim est) 1) as [D1|D1].
    + assert (Bd1 : bounded (fun x => x = b0) h0) by (intros x ->; auto). apply (run_any (fun x => x = b0) h0); auto. right. lia.
    + destruct Hd as [Hd|Hd]; [contradiction|]. apply (run_any (fun x => False) h0); auto. apply Good; auto. intros x [].  intros x [].
Qed.
