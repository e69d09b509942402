(** * SensUnitsProofs3: calculate_sensitivity does not depend on units *)
From Coq Require Import String Ascii Reals List Bool ZArith Arith Lia Lra.
From Verif Require Import Num Numpy Lists Table Binning Utils Simulations Sensitivity Quantities SpectralUnits SimulationUnits IRFUnits SensitivityUnits
  SpecUnits SpecIRFUnits SpecSensUnits BinningProofs HistProofs SpectralUnitsProofs SpectralUnitsProofs2 SimulationUnitsProofs IRFUnitsProofs SensUnitsProofs SensUnitsProofs2.
Import ListNotations.
Open Scope R_scope.

Lemma np_zip_map {A B A' B' C} (f : A -> B -> C) (f' : A' -> B' -> C) (g : A -> A') (h : B -> B') a b : (forall x y, f' (g x) (h y) = f x y) -> np_zip f' (map g a) (map h b) = np_zip f a b.
Proof.
  intros H. unfold np_zip. rewrite !map_length. destruct (Nat.eqb _ _).
  - f_equal. revert b. induction a as [|x a IH]; intros [|y b]; try reflexivity. cbn [map zipwith]. rewrite H, IH. reflexivity.
  - assert (M : forall x, map (f' (g x)) (map h b) = map (f x) b) by (intros; rewrite map_map; apply map_ext; intros; apply H).
    assert (M' : forall y, map (fun x => f' x (h y)) (map g a) = map (fun x => f x y) a) by (intros; rewrite map_map; apply map_ext; intros; apply H).
    destruct a as [|x [|x' a]], b as [|y [|y' b]]; cbn [map] in *; try reflexivity; try (rewrite H; reflexivity); f_equal; rewrite <- ?M, <- ?M'; reflexivity.
Qed.
Lemma as_get t k : getitem (as_utable t) k = option_map (fun c => mkArr (col_nums c) None) (getitem t k).
Proof. unfold as_utable. induction t as [|[n c] t IH]; [reflexivity|]. cbn. destruct (String.eqb k n); [reflexivity|exact IH]. Qed.
Lemma check_rel c s s' b b' : 0 < c -> rel c s s' -> rel c b b' -> check_histograms (as_utable s) (as_utable b) "reco_energy" = check_histograms (as_utable s') (as_utable b') "reco_energy".
Proof.
  intros C (_ & S) (_ & B). unfold check_histograms.
  assert (G : forall ks, (forall k, In k ks -> In ("reco_energy" ++ "_" ++ k)%string edges3) -> check_keys (as_utable s) (as_utable b) "reco_energy" ks = check_keys (as_utable s') (as_utable b') "reco_energy" ks).
  { induction ks as [|k ks IH]; intros Hk; [reflexivity|]. cbn [check_keys]. unfold get_col. rewrite !as_get. specialize (Hk k (or_introl eq_refl)) as K. specialize (S ("reco_energy" ++ "_" ++ k)%string). specialize (B ("reco_energy" ++ "_" ++ k)%string).
    destruct (in_dec _ _ _); [|contradiction].
    destruct (getitem s _) as [[l| | |]|], (getitem s' _) as [[l'| | |]|]; try tauto; cbn [option_map rbind]; try reflexivity.
    destruct (getitem b _) as [[m| | |]|], (getitem b' _) as [[m'| | |]|]; try tauto; cbn [option_map rbind]; try reflexivity. subst l' m'.
    unfold col_eq. cbn [a_unit a_val col_nums]. rewrite (np_zip_map neqb neqb (sc c) (sc c)) by (intros; apply neqb_sc, C). destruct (np_zip neqb l m) as [e|e]; cbn [rbind]; [|reflexivity].
    rewrite IH; [reflexivity|]. intros k' Hk'. apply Hk. right. exact Hk'. }
  apply G. intros k [<- |[<- |[<- |[]]]]; cbn; tauto.
Qed.
Lemma copy_edges_rel c s s' ks t t' : rel c s s' -> (forall k, In k ks -> In ("reco_energy_" ++ k)%string edges3) -> rel c t t' -> rrel c (copy_edges s ks t) (copy_edges s' ks t').
Proof.
  intros (_ & S). revert t t'. induction ks as [|k ks IH]; intros t t' Hk R; [exact R|]. cbn [copy_edges]. unfold get_col. specialize (Hk k (or_introl eq_refl)) as K. specialize (S ("reco_energy_" ++ k)%string).
  destruct (in_dec _ _ _); [|contradiction]. destruct (getitem s _) as [[l| | |]|], (getitem s' _) as [[l'| | |]|]; try tauto; cbn [rbind]; try reflexivity. subst l'. apply IH; [intros; apply Hk; right; auto|].
  apply rel_set_edge; auto.
Qed.
Lemma copy_columns_rel c b b' names t t' : rel c b b' -> (forall k, In k names -> ~ In k edges3) -> rel c t t' -> rrel c (copy_columns b names t) (copy_columns b' names t').
Proof.
  intros B. revert t t'. induction names as [|k names IH]; intros t t' Hk R; [exact R|]. cbn [copy_columns]. rewrite (rel_get c b b' k) by (auto; apply Hk; left; auto).
  destruct (get_col b' k) as [x|e]; cbn [rbind]; [|reflexivity]. apply IH; [intros; apply Hk; right; auto|]. apply rel_set; [apply Hk; left; auto|exact R].
Qed.
Lemma n_prefix_edge k : starts_with "n_" k = true -> ~ In k edges3.
Proof.
  unfold starts_with. destruct k as [|a s]; [discriminate|]. cbn [prefix]. destruct (ascii_dec "n" a) as [<- |]; [|discriminate]. intros _. apply n_edge.
Qed.
Lemma rel_nil c : rel c [] [].
Proof. split; [reflexivity|]. intros name. destruct (in_dec _ _ _); cbn; auto. Qed.
Section Sens.
Variable brentq : (R -> num) -> R -> R -> res R.
Variable significance_function : num -> num -> num -> num.
Variable sa : list num -> list num -> num -> res (list num).
Lemma sens_rel c s s' b b' alpha ms me mx : 0 < c -> rel c s s' -> rel c b b' ->
  rrel c (calculate_sensitivity brentq significance_function sa s b alpha ms me mx) (calculate_sensitivity brentq significance_function sa s' b' alpha ms me mx).
Proof.
  intros C S B. unfold calculate_sensitivity. rewrite (check_rel c s s' b b' C S B). destruct (check_histograms _ _ _) as [[]|e]; cbn [rbind]; [|reflexivity].
  rewrite (rel_get c s s' "n_weighted"), (rel_get c b b' "n_weighted"), (rel_get c s s' "n"), (rel_get c b b' "n") by (auto; apply n_edge). rewrite (proj1 B).
  destruct (get_col s' "n_weighted") as [sw|e]; cbn [rbind]; [|reflexivity]. destruct (get_col b' "n_weighted") as [bw|e]; cbn [rbind]; [|reflexivity].
  destruct (np_zip nadd _ _) as [n_on|e]; cbn [rbind]; [|reflexivity]. destruct (relative_sensitivity _ _ _ _ _ _ _ _) as [rs|e]; cbn [rbind]; [|reflexivity].
  assert (E : rrel c (copy_edges s ["low"; "high"; "center"]%string []) (copy_edges s' ["low"; "high"; "center"]%string [])).
  { apply copy_edges_rel; [exact S|intros k [<- |[<- |[<- |[]]]]; cbn; tauto|apply rel_nil]. }
  destruct (copy_edges s _ []) as [t|e]; destruct (copy_edges s' _ []) as [t'|e']; cbn [rbind rrel] in E |- *; try contradiction; [rename E into T|exact E].
  destruct (get_col s' "n") as [sn|e]; cbn [rbind]; [|reflexivity]. destruct (np_zip nmul (col_nums sn) rs) as [ns|e]; cbn [rbind]; [|reflexivity]. destruct (np_zip nmul (col_nums sw) rs) as [nsw|e]; cbn [rbind]; [|reflexivity].
  destruct (get_col b' "n") as [bn|e]; cbn [rbind]; [|reflexivity].
  assert (T4 := rel_set c _ _ "n_background_weighted" bw (n_edge _) (rel_set c _ _ "n_background" bn (n_edge _) (rel_set c _ _ "n_signal_weighted" (CN nsw) (n_edge _) (rel_set c _ _ "n_signal" (CN ns) (n_edge _) T)))).
  match goal with |- rrel c (rbind (copy_columns b ?l ?x) _) (rbind (copy_columns b' _ ?y) _) => assert (E : rrel c (copy_columns b l x) (copy_columns b' l y));
    [apply copy_columns_rel; [exact B|intros k Hk; apply filter_In in Hk as [_ Hk]; apply andb_true_iff in Hk as [Hk _]; apply n_prefix_edge, Hk|exact T4]|];
    destruct (copy_columns b l x) as [r|e]; destruct (copy_columns b' l y) as [r'|e'] end; cbn [rbind rrel] in E |- *; try contradiction; [rename E into R|exact E].
  rewrite (rel_get c r r' "n_signal_weighted"), (rel_get c r r' "n_background_weighted") by (auto; apply n_edge).
  destruct (get_col r' "n_signal_weighted") as [x|e]; cbn [rbind]; [|reflexivity]. destruct (get_col r' "n_background_weighted") as [y|e]; cbn [rbind]; [|reflexivity].
  destruct (np_zip nadd _ _) as [z|e]; cbn [rbind]; [|reflexivity]. destruct (sa z (col_nums y) alpha) as [sig|e]; cbn [rbind]; [|reflexivity]. cbn [rrel].
  apply rel_set; [noedge|]. apply rel_set; [noedge|]. exact R.
Qed.
Lemma convert_get k t name : getitem (convert_edges k t) name = option_map (fun x => if is_edge name then match x with CN l => CN (map (sc k) l) | y => y end else x) (getitem t name).
Proof. unfold convert_edges. induction t as [|[n x] t IH]; [reflexivity|]. cbn. destruct (String.eqb_spec name n) as [->|D]; [destruct x; reflexivity|exact IH]. Qed.
Lemma convert_rel u v t t' : 0 < u -> 0 < v -> rel (v / tev) t t' -> rel (u / tev) (convert_edges (v / u) t) t'.
Proof.
  intros U V (N & H). pose proof tev_pos as TP. split.
  - rewrite <- N. unfold colnames, convert_edges. rewrite map_map. apply map_ext. intros [n x]. reflexivity.
  - intros name. specialize (H name). rewrite convert_get.
    assert (IE : is_edge name = true <-> In name edges3).
    { unfold is_edge. rewrite existsb_exists. split; [intros (x & I & E); apply String.eqb_eq in E; subst; exact I|intros I; exists name; split; [exact I|apply String.eqb_refl]]. }
    destruct (in_dec _ _ _) as [I|I].
    + rewrite (proj2 IE I). destruct (getitem t name) as [[l| | |]|], (getitem t' name) as [[l'| | |]|]; try tauto; cbn [option_map]. subst l'.
      rewrite map_sc_sc by (apply Rdiv_lt_0_compat; auto). f_equal. f_equal. field. lra.
    + destruct (is_edge name) eqn:Q; [exfalso; apply I, IE; auto|]. rewrite <- H. destruct (getitem t name); reflexivity.
Qed.
Theorem sensitivity_same s u s' b v b' alpha ms me mx : same_table u s s' -> same_table v b b' ->
  same_histogram (q_calculate_sensitivity brentq significance_function sa (s, u) (b, v) alpha ms me mx) (calculate_sensitivity brentq significance_function sa s' b' alpha ms me mx).
Proof.
  intros S B. apply same_rel in S as ((Du & Su) & S). apply same_rel in B as ((Dv & Sv) & B). pose proof tev_pos as TP. unfold q_calculate_sensitivity. rewrite Du, Dv, deqb_refl.
  pose proof (sens_rel (qu_scale u / tev) s s' _ b' alpha ms me mx ltac:(apply Rdiv_lt_0_compat; auto) S (convert_rel (qu_scale u) (qu_scale v) b b' Su Sv B)) as R.
  destruct (calculate_sensitivity _ _ _ s _ _ _ _ _) as [t|e]; destruct (calculate_sensitivity _ _ _ s' _ _ _ _ _) as [t'|e']; cbn [rbind rrel same_histogram] in *; try tauto.
  apply same_rel. split; [split; auto|exact R].
Qed.
End Sens.
(** ** the chain from events to the sensitivity *)
Theorem chain_same brentq sf sa ts evs (hws hps : bool) b v tb bevs (hw hp : bool) b2 v2 b' ce vc ce' cut w cut' alpha mn mx mn' mx' ms me mb :
  has_rows ts (List.length evs) -> has_column ts "reco_energy" energy_dim tev (map ev_x evs) ->
  qe_weight ts = (if hws then Some (map ev_w evs) else None) -> qe_ptype ts = (if hps then Some (map ev_p evs) else None) -> numbers energy_dim tev b v b' ->
  has_rows tb (List.length bevs) -> has_column tb "reco_energy" energy_dim tev (map (fun e => ev_x (bg_ev e)) bevs) -> has_column tb "reco_source_fov_offset" angle_dim 1 (map bg_offset bevs) ->
  qe_weight tb = (if hw then Some (map (fun e => ev_w (bg_ev e)) bevs) else None) -> qe_ptype tb = (if hp then Some (map (fun e => ev_p (bg_ev e)) bevs) else None) ->
  numbers energy_dim tev b2 v2 b' -> numbers energy_dim tev ce vc ce' -> numbers angle_dim 1 cut w cut' -> in_radian mn mn' -> in_radian mx mx' ->
  same_histogram
    (do s <- q_create_histogram_table ts (AQty (mkQA b v));
     do bg <- q_estimate_background tb (AQty (mkQA b2 v2)) (AQty (mkQA ce vc)) (AQty (mkQA cut w)) alpha mn mx;
     q_calculate_sensitivity brentq sf sa s bg alpha ms me mb)
    (do s <- create_histogram_table (mkEvents evs hws hps) b' "reco_energy";
     do bg <- estimate_background bevs hw hp b' ce' cut' alpha mn' mx';
     calculate_sensitivity brentq sf sa s bg alpha ms me mb).
Proof.
  intros H1 H2 H3 H4 H5 K1 K2 K3 K4 K5 K6 K7 K8 K9 K10.
  pose proof (q_create_same ts evs hws hps b v b' H1 H2 H3 H4 H5) as S. destruct (q_create_histogram_table _ _) as [[s u]|e]; destruct (create_histogram_table _ b' _) as [s'|e']; cbn [rbind same_histogram] in S |- *; try contradiction; [|exact S].
  pose proof (estimate_same tb bevs hw hp b2 v2 b' ce vc ce' cut w cut' alpha mn mx mn' mx' K1 K2 K3 K4 K5 K6 K7 K8 K9 K10) as B.
  destruct (q_estimate_background _ _ _ _ _ _ _) as [[bg u']|e]; destruct (estimate_background _ _ _ _ _ _ _ _ _) as [bg'|e']; cbn [rbind same_histogram] in B |- *; try contradiction; [|exact B].
  apply sensitivity_same; auto.
Qed.
(** ** dimensions *)
Lemma estimate_dims t bins ce cut alpha mn mx r : q_estimate_background t bins ce cut alpha mn mx = Ok r ->
  (exists l u, get_column t "reco_source_fov_offset" = Ok (AQty (mkQA l u)) /\ qu_dim u = angle_dim) /\ qu_dim (q_unit mn) = angle_dim /\ qu_dim (q_unit mx) = angle_dim /\
  qu_dim (snd (plain_unit ce)) = qu_dim (snd (plain_unit bins)) /\ (fst (plain_unit bins) <> [] -> tl (fst (plain_unit bins)) <> [] -> forall l u, cut = AQty (mkQA l u) -> qu_dim u = angle_dim).
Proof.
  unfold q_estimate_background. destruct (get_column t _) as [c|e]; cbn [rbind]; [|discriminate]. destruct c as [l|[l u]]; cbn [compare_column]; [discriminate|]. cbn [qa_unit qa_val].
  unfold to_value at 1. destruct (deqb (qu_dim (q_unit mn)) (qu_dim u)) eqn:D1; cbn [rbind]; [|discriminate].
  unfold to_value at 1. destruct (deqb (qu_dim (q_unit mx)) (qu_dim u)) eqn:D2; cbn [rbind]; [|discriminate].
  destruct (q_create_histogram_table _ _) as [bg|e]; cbn [rbind]; [|discriminate]. destruct (plain_unit bins) as [b v]. destruct (plain_unit ce) as [xc vc]. cbn [fst snd].
  unfold q_interp. cbn [fst snd]. destruct (deqb (qu_dim vc) (qu_dim v)) eqn:D3; [|discriminate]. destruct (Sensitivity.np_interp _ _ _) as [theta|e] eqn:Et; cbn [rbind]; [|discriminate].
  destruct (rmap _ theta) as [on|e] eqn:Eo; cbn [rbind]; [|discriminate].
  unfold q_cone_solid_angle at 1 2. destruct (deqb (qu_dim (q_unit mx)) (qu_dim rad)) eqn:D4; [|discriminate]. destruct (to_value mx rad) as [x|e]; cbn [rbind]; [|discriminate].
  destruct (deqb (qu_dim (q_unit mn)) (qu_dim rad)) eqn:D5; [|discriminate]. intros _.
  apply deqb_true in D1, D2, D3, D4, D5. change (qu_dim rad) with angle_dim in *. split; [exists l, u; split; [reflexivity|congruence]|]. split; [exact D5|]. split; [exact D4|]. split; [exact D3|].
  intros Hb Hb2 lc w ->. destruct theta as [|x0 theta].
  - exfalso. unfold Sensitivity.np_interp in Et. destruct b as [|b0 [|b1 b]]; [apply Hb; reflexivity|apply Hb2; reflexivity|]. unfold bin_center in Et. cbn in Et. destruct (map _ xc); [discriminate|]. destruct (Nat.eqb _ _); discriminate.
  - cbn [rmap] in Eo. unfold q_cone_solid_angle at 1 in Eo. cbn [entry qa_unit q_unit] in Eo. destruct (deqb (qu_dim w) (qu_dim rad)) eqn:D6; [|discriminate]. apply deqb_true in D6. exact D6.
Qed.
Lemma sens_dims brentq sf sa s u b v alpha ms me mb : qu_dim u <> qu_dim v -> (exists c, getitem s "reco_energy_low" = Some c) -> (exists c, getitem b "reco_energy_low" = Some c) ->
  q_calculate_sensitivity brentq sf sa (s, u) (b, v) alpha ms me mb = Err ValueError.
Proof.
  intros D (c & G) (c' & G'). unfold q_calculate_sensitivity. destruct (deqb (qu_dim u) (qu_dim v)) eqn:E; [apply deqb_true in E; contradiction|]. unfold get_col. rewrite G, G'. reflexivity.
Qed.
