(** * SensUnitsProofs: histogram tables and sensitivities do not depend on units *)
From Coq Require Import String Ascii Reals List Bool ZArith Arith Lia Lra.
From Verif Require Import Num Numpy Lists Table Binning Utils Sensitivity Quantities SpectralUnits SimulationUnits IRFUnits SensitivityUnits
  SpecUnits SpecIRFUnits SpecSensUnits BinningProofs HistProofs SpectralUnitsProofs SpectralUnitsProofs2 SimulationUnitsProofs IRFUnitsProofs.
From Verif Require CutUnitsProofs LocalProofs.
Import ListNotations.
Open Scope R_scope.

(** ** tables *)
Definition edges3 : list string := ["reco_energy_low"; "reco_energy_high"; "reco_energy_center"]%string.
Definition rel (c : R) (t t' : table) : Prop :=
  colnames t = colnames t' /\
  forall name, if in_dec string_dec name edges3
               then match getitem t name, getitem t' name with
                    | Some (CN l), Some (CN l') => l' = map (sc c) l
                    | None, None => True
                    | _, _ => False
                    end
               else getitem t name = getitem t' name.
Definition rrel (c : R) (r r' : res table) : Prop :=
  match r, r' with Ok t, Ok t' => rel c t t' | Err e, Err e' => e = e' | _, _ => False end.
Lemma same_rel u t t' : same_table u t t' <-> unit_of energy_dim u /\ rel (qu_scale u / tev) t t'.
Proof.
  unfold same_table, rel. fold edges3. split.
  - intros (U & N & H). split; [exact U|]. split; [exact N|]. intros name. specialize (H name). destruct (in_dec _ _ _); [|exact H].
    destruct (getitem t name) as [[]|], (getitem t' name) as [[]|]; try tauto. apply H.
  - intros (U & N & H). split; [exact U|]. split; [exact N|]. intros name. specialize (H name). destruct (in_dec _ _ _); [|exact H].
    destruct (getitem t name) as [[]|], (getitem t' name) as [[]|]; try tauto. split; [exact U|exact H].
Qed.
Lemma colnames_set {A} (t t' : list (string * A)) k c c' : colnames t = colnames t' -> colnames (setitem t k c) = colnames (setitem t' k c').
Proof.
  revert t'. induction t as [|[n a] t IH]; intros [|[n' a'] t'] H; try discriminate; [reflexivity|]. unfold colnames in *. cbn in H. injection H as -> H. cbn.
  destruct (String.eqb k n'); cbn; [congruence|]. f_equal. apply IH, H.
Qed.
Lemma rel_set c t t' k x : ~ In k edges3 -> rel c t t' -> rel c (setitem t k x) (setitem t' k x).
Proof.
  intros Hk (N & H). split; [apply colnames_set, N|]. intros name. specialize (H name). destruct (string_dec name k) as [->|D].
  - destruct (in_dec _ _ _); [contradiction|]. rewrite !getitem_setitem_eq. reflexivity.
  - destruct (in_dec _ _ _); rewrite !getitem_setitem_neq by auto; exact H.
Qed.
Lemma rel_set_edge c t t' k l : In k edges3 -> rel c t t' -> rel c (setitem t k (CN l)) (setitem t' k (CN (map (sc c) l))).
Proof.
  intros Hk (N & H). split; [apply colnames_set, N|]. intros name. specialize (H name). destruct (string_dec name k) as [->|D].
  - destruct (in_dec _ _ _); [|contradiction]. rewrite !getitem_setitem_eq. reflexivity.
  - destruct (in_dec _ _ _); rewrite !getitem_setitem_neq by auto; exact H.
Qed.
Lemma rel_get c t t' k : ~ In k edges3 -> rel c t t' -> get_col t k = get_col t' k.
Proof. intros Hk (_ & H). specialize (H k). unfold get_col. destruct (in_dec _ _ _); [contradiction|]. rewrite H. reflexivity. Qed.
Ltac noedge := cbn; intros [?|[?|[?|[]]]]; congruence.

(** ** histograms *)
Definition scev (c : R) (e : event) : event := mkEvent (sc c (ev_x e)) (ev_w e) (ev_p e).
Lemma cum_counts_ev c evs edges : 0 < c -> cum_counts ev_x (map (scev c) evs) (map (sc c) edges) = cum_counts ev_x evs edges.
Proof. intros H. rewrite (cum_counts_values ev_x), map_map. cbn [scev ev_x]. rewrite <- (map_map ev_x (sc c)), cum_counts_sc by auto. symmetry. apply cum_counts_values. Qed.
Lemma cum_weights_ev c evs edges : 0 < c -> cum_weights ev_x ev_w (map (scev c) evs) (map (sc c) edges) = cum_weights ev_x ev_w evs edges.
Proof.
  intros H. unfold cum_weights. rewrite but_last_map, map_map, last_sc. f_equal; [|f_equal]; [apply map_ext; intros e|]; rewrite wsum_map; apply wsum_ext; intros a _; (split; [reflexivity|]);
    cbn [scev ev_x]; rewrite np_lt_sc by auto; reflexivity.
Qed.
Lemma hist_columns_ev c evs hw edges : 0 < c -> hist_columns (map (scev c) evs) hw (map (sc c) edges) = hist_columns evs hw edges.
Proof.
  intros H. unfold hist_columns, np_histogram, np_histogram_w. rewrite decreases_sc, cum_counts_ev, cum_weights_ev by auto. reflexivity.
Qed.
Lemma group_ev c evs p : group (map (scev c) evs) p = map (scev c) (group evs p).
Proof. unfold group. induction evs as [|e evs IH]; [reflexivity|]. cbn [map filter]. cbn [scev ev_p]. destruct (String.eqb (ev_p e) p); cbn [map]; rewrite IH; reflexivity. Qed.
Lemma n_edge s : ~ In (String "n"%char s) edges3.
Proof. noedge. Qed.
Lemma groups_rel c k evs hw edges keys t t' : 0 < c -> rel k t t' -> rrel k (add_groups evs hw edges keys t) (add_groups (map (scev c) evs) hw (map (sc c) edges) keys t').
Proof.
  intros H. revert t t'. induction keys as [|p keys IH]; intros t t' R; [exact R|]. cbn [add_groups]. rewrite group_ev, hist_columns_ev by auto.
  destruct (hist_columns _ _ _) as [nc|e]; cbn [rbind]; [|reflexivity]. apply IH. apply rel_set; [apply n_edge|]. apply rel_set; [apply n_edge|exact R].
Qed.
Lemma edge_columns ev edges t : create_histogram_table ev edges "reco_energy" = Ok t ->
  getitem t "reco_energy_low" = Some (CN (but_last edges)) /\ getitem t "reco_energy_high" = Some (CN (tl edges)) /\ getitem t "reco_energy_center" = Some (CN (bin_center edges)).
Proof.
  rewrite create_histogram_gen. destruct (hist_error edges); [discriminate|]. intros E. injection E as <-.
  assert (B : forall name, getitem (hist_table ev edges "reco_energy") name = getitem (base_table (et_rows ev) (et_has_weight ev) edges "reco_energy") name \/ exists s, name = String "n"%char s).
  { intros name. unfold hist_table. destruct (et_has_ptype ev && _); [|left; reflexivity]. destruct name as [|a name]; [left; apply add_groups_other; intros p _ [Q|[Q|[]]]; discriminate|].
    destruct (Ascii.ascii_dec a "n"%char) as [->|D]; [right; eauto|left]. apply add_groups_other. intros p _ [Q|[Q|[]]]; cbn in Q; congruence. }
  split; [|split].
  - destruct (B "reco_energy_low"%string) as [->|[s Hs]]; [reflexivity|discriminate].
  - destruct (B "reco_energy_high"%string) as [->|[s Hs]]; [reflexivity|discriminate].
  - destruct (B "reco_energy_center"%string) as [->|[s Hs]]; [reflexivity|discriminate].
Qed.
Lemma nadd_sc c a b : 0 < c -> nadd (sc c a) (sc c b) = sc c (nadd a b).
Proof. intros H. unfold sc. rewrite !(nmul_comm_ _ (Fin c)). apply (CutUnitsProofs.sc_add c a b H). Qed.
Lemma center_sc c l : 0 < c -> bin_center (map (sc c) l) = map (sc c) (bin_center l).
Proof.
  intros H. unfold bin_center. rewrite but_last_map, tl_map. generalize (but_last l) (tl l). intros a. induction a as [|x a IH]; intros [|y b]; try reflexivity. cbn [map zipwith]. f_equal; [|apply IH].
  rewrite nadd_sc by auto. unfold sc. rewrite !(nmul_comm_ _ (Fin c)). rewrite !BinningProofs.nmul_assoc_fin by lra. f_equal. f_equal. ring.
Qed.
(** weights and types are only used if the table has these columns *)
Definition alike (hw hp : bool) (e e' : event) : Prop := ev_x e = ev_x e' /\ (hw = true -> ev_w e = ev_w e') /\ (hp = true -> ev_p e = ev_p e').
Lemma hist_columns_alike hw hp evs evs' edges : Forall2 (alike hw hp) evs evs' -> hist_columns evs hw edges = hist_columns evs' hw edges.
Proof.
  intros F. unfold hist_columns, np_histogram, np_histogram_w.
  assert (E : map ev_x evs = map ev_x evs') by (induction F as [|e e' l l' (H & _) _ IH]; [reflexivity|]; cbn [map]; congruence).
  rewrite (cum_counts_values ev_x evs), (cum_counts_values ev_x evs'), E. destruct (decreases edges); [reflexivity|]. cbn [rbind]. destruct hw; [|reflexivity].
  assert (W : forall p : num -> bool, wsum ev_w (fun v => p (ev_x v)) evs = wsum ev_w (fun v => p (ev_x v)) evs').
  { intros p. clear E. induction F as [|e e' l l' (H & Hw & _) _ IH]; [reflexivity|]. rewrite !wsum_cons, H, Hw, IH by reflexivity. reflexivity. }
  replace (cum_weights ev_x ev_w evs edges) with (cum_weights ev_x ev_w evs' edges); [reflexivity|]. unfold cum_weights. f_equal; [|f_equal].
  - apply map_ext. intros e. symmetry. apply (W (fun x => np_lt x e)).
  - symmetry. apply (W (fun x => negb (np_lt (last edges NaN) x))).
Qed.
Lemma group_alike hw evs evs' p : Forall2 (alike hw true) evs evs' -> Forall2 (alike hw true) (group evs p) (group evs' p).
Proof.
  unfold group. induction 1 as [|e e' l l' H _ IH]; [constructor|]. cbn [filter]. destruct H as (X & W & P). rewrite (P eq_refl). destruct (String.eqb (ev_p e') p); [|exact IH]. constructor; [split; auto|exact IH].
Qed.
Lemma create_alike hw hp evs evs' edges key : Forall2 (alike hw hp) evs evs' ->
  create_histogram_table (mkEvents evs hw hp) edges key = create_histogram_table (mkEvents evs' hw hp) edges key.
Proof.
  intros F. unfold create_histogram_table. cbn [et_rows et_has_weight et_has_ptype]. rewrite (hist_columns_alike hw hp evs evs' edges F). destruct (hist_columns evs' hw edges) as [nc|e]; cbn [rbind]; [|reflexivity].
  destruct hp; [|reflexivity]. cbn [andb]. rewrite (LocalProofs.Forall2_len _ _ _ F). destruct (negb _); [|reflexivity].
  assert (K : map ev_p evs = map ev_p evs') by (induction F as [|e e' l l' (_ & _ & P) _ IH]; [reflexivity|]; cbn [map]; rewrite P, IH by reflexivity; reflexivity). rewrite K.
  generalize (group_keys (map ev_p evs')). intros keys. match goal with |- add_groups _ _ _ _ ?t = _ => generalize t end. induction keys as [|p keys IH]; intros t; [reflexivity|].
  cbn [add_groups]. rewrite (hist_columns_alike hw true _ _ edges (group_alike hw _ _ p F)). destruct (hist_columns _ _ _); cbn [rbind]; [apply IH|reflexivity].
Qed.
Lemma create_rel c ev edges : 0 < c ->
  rrel c (create_histogram_table ev edges "reco_energy") (create_histogram_table (mkEvents (map (scev c) (et_rows ev)) (et_has_weight ev) (et_has_ptype ev)) (map (sc c) edges) "reco_energy").
Proof.
  intros H. unfold create_histogram_table. cbn [et_rows et_has_weight et_has_ptype]. rewrite hist_columns_ev by auto. destruct (hist_columns _ _ _) as [nc|e]; cbn [rbind]; [|reflexivity].
  change ("reco_energy" ++ "_low")%string with "reco_energy_low"%string. change ("reco_energy" ++ "_high")%string with "reco_energy_high"%string. change ("reco_energy" ++ "_center")%string with "reco_energy_center"%string.
  assert (R : rel c (setitem (setitem (setitem [] "reco_energy_low" (CN (but_last edges))) "reco_energy_high" (CN (tl edges))) "reco_energy_center" (CN (bin_center edges)))
    (setitem (setitem (setitem [] "reco_energy_low" (CN (but_last (map (sc c) edges)))) "reco_energy_high" (CN (tl (map (sc c) edges)))) "reco_energy_center" (CN (bin_center (map (sc c) edges))))).
  { rewrite center_sc, but_last_map, tl_map by auto. apply rel_set_edge; [cbn; tauto|]. apply rel_set_edge; [cbn; tauto|]. apply rel_set_edge; [cbn; tauto|]. split; [reflexivity|]. intros name. destruct (in_dec _ _ _); cbn; auto. }
  unfold bin_center in R. rewrite map_length. rewrite map_map. cbn [scev ev_p].
  assert (R2 := rel_set c _ _ "n_weighted" (snd nc) (n_edge _) (rel_set c _ _ "n" (CZ (fst nc)) (n_edge _) R)).
  destruct (et_has_ptype ev && _); [|exact R2]. replace (map (fun x => ev_p x) (et_rows ev)) with (map ev_p (et_rows ev)) by reflexivity. apply groups_rel; auto.
Qed.
(** ** create_histogram_table *)
Lemma get_reco n t l u : has_rows t n -> In ("reco_energy"%string, AQty (mkQA l u)) (qe_columns t) -> get_column t "reco_energy" = Ok (AQty (mkQA l u)).
Proof. intros H I. eapply get_column_ok; eauto. Qed.
Lemma q_create_same t evs (hw hp : bool) b v b' : has_rows t (List.length evs) -> has_column t "reco_energy" energy_dim tev (map ev_x evs) ->
  qe_weight t = (if hw then Some (map ev_w evs) else None) -> qe_ptype t = (if hp then Some (map ev_p evs) else None) -> numbers energy_dim tev b v b' ->
  same_histogram (q_create_histogram_table t (AQty (mkQA b v))) (create_histogram_table (mkEvents evs hw hp) b' "reco_energy").
Proof.
  intros Hr (l & u & I & [[Du Su] El]) Hw Hp [[Dv Sv] Eb]. pose proof tev_pos as TP. unfold q_create_histogram_table, q_histogram_table. rewrite (get_column_ok _ _ _ _ Hr I).
  cbn [rbind plain_unit qa_val qa_unit]. rewrite (proj2 (deqb_true _ _)) by congruence.
  set (rows := map _ (seq 0 (qe_rows t))). set (e1 := map (fun e => nmul e (Fin (qu_scale v / qu_scale u))) b).
  set (has_w := match qe_weight t with Some _ => true | None => false end). set (has_p := match qe_ptype t with Some _ => true | None => false end).
  assert (W : has_w = hw) by (unfold has_w; rewrite Hw; destruct hw; reflexivity). assert (P : has_p = hp) by (unfold has_p; rewrite Hp; destruct hp; reflexivity).
  rewrite W, P. set (c := qu_scale u / tev). assert (C : 0 < c) by (apply Rdiv_lt_0_compat; auto).
  assert (Ll : List.length l = List.length evs) by (rewrite <- (map_length ev_x evs), El, map_length; reflexivity).
  assert (E1 : b' = map (sc c) e1).
  { unfold e1. change (fun e => nmul e (Fin (qu_scale v / qu_scale u))) with (sc (qu_scale v / qu_scale u)). rewrite map_sc_sc by (auto; apply Rdiv_lt_0_compat; auto). rewrite Eb. unfold sc, c.
    replace (qu_scale v / qu_scale u * (qu_scale u / tev)) with (qu_scale v / tev) by (field; lra). reflexivity. }
  assert (A : Forall2 (alike hw hp) evs (map (scev c) rows)).
  { unfold rows. rewrite (proj1 Hr), map_map. clear Hr rows has_w has_p W P.
    match goal with |- Forall2 _ _ (map ?g _) => set (f := g) end.
    assert (G : forall i e, nth_error evs i = Some e -> alike hw hp e (f i)).
    { intros i e He. unfold f. pose proof (nth_some_lt _ _ _ He) as Hi. split; [|split].
      - cbn [scev ev_x]. assert (X : nth_error (map ev_x evs) i = Some (ev_x e)) by (apply map_nth_some, He). rewrite El in X. destruct (nth_some_ex l i) as [y Hy]; [lia|].
        rewrite (map_nth_error _ _ _ Hy) in X. injection X as <-. rewrite (nth_error_nth _ _ _ Hy). reflexivity.
      - intros ->. rewrite Hw. cbn [scev ev_w]. symmetry. apply nth_error_nth. apply map_nth_some, He.
      - intros ->. rewrite Hp. cbn [scev ev_p nth_string]. symmetry. apply nth_error_nth. apply map_nth_some, He. }
    clearbody f. revert f G. clear. induction evs as [|e evs IH]; intros f G; [constructor|]. cbn [List.length seq map]. constructor; [apply (G 0%nat), eq_refl|]. rewrite <- seq_shift, map_map. apply IH. intros i x Hx. apply (G (S i)), Hx. }
  rewrite (create_alike _ _ _ _ b' "reco_energy" A), E1.
  pose proof (create_rel c (mkEvents rows hw hp) e1 C) as R. cbn [et_rows et_has_weight et_has_ptype] in R.
  destruct (create_histogram_table (mkEvents rows hw hp) e1 _) as [h|e] eqn:Q; destruct (create_histogram_table _ (map (sc c) e1) _) as [h'|e'] eqn:Q'; cbn [rrel rbind same_histogram] in *; try tauto.
  apply same_rel. split; [split; auto|]. destruct R as (N & R). destruct (edge_columns _ _ _ Q) as (G1 & G2 & G3). destruct (edge_columns _ _ _ Q') as (G1' & G2' & G3').
  assert (Es : map (sc c) e1 = map (sc (qu_scale v / tev)) b) by (rewrite <- E1; exact Eb). rewrite Es in *.
  split.
  - rewrite <- N. clear - G1 G2 G3. assert (X : forall (t : table) k c d, getitem t k = Some d -> colnames (setitem t k c) = colnames t).
    { intros t k c d. induction t as [|[n a] t IH]; cbn; [discriminate|]. unfold colnames in *. destruct (String.eqb_spec k n) as [->|D]; cbn; [reflexivity|]. intros H. rewrite IH; auto. }
    rewrite (X _ _ _ (CN (bin_center e1))); [rewrite (X _ _ _ (CN (tl e1))); [rewrite (X _ _ _ (CN (but_last e1))); auto|]|]; rewrite !getitem_setitem_neq by discriminate; auto.
  - intros name. specialize (R name). destruct (in_dec _ _ _) as [I'|I'].
    + clear R. destruct I' as [<- |[<- |[<- |[]]]].
      * rewrite 2!getitem_setitem_neq by discriminate. rewrite getitem_setitem_eq, G1'. apply but_last_map.
      * rewrite getitem_setitem_neq by discriminate. rewrite getitem_setitem_eq, G2'. apply tl_map.
      * rewrite getitem_setitem_eq, G3'. apply center_sc. apply Rdiv_lt_0_compat; auto.
    + rewrite !getitem_setitem_neq; [exact R|..]; intros ->; apply I'; cbn; tauto.
Qed.
