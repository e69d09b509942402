(** * CutOptimizationProofs7: columns of sensitivity tables with particle types *)
From Coq Require Import String Reals List Bool ZArith Lia Lra Sorted Permutation Orders OrdersEx.
From Verif Require Import Num Numpy Sort Table Binning Utils Statistics SpecBinning BinningProofs HistProofs BinningProofs2 Percentile Cuts SpecCuts
  CutsProofs CutsProofs2 SpecSensitivity Sensitivity SensitivityProofs3 SensitivityProofs4 CutOptimization SpecCutOptimization
  CutOptimizationProofs CutOptimizationProofs2 CutOptimizationProofs3 CutOptimizationProofs4 CutOptimizationProofs5 CutOptimizationProofs6 SpecParticles.
Import ListNotations.
Open Scope R_scope.

(** ** strings *)
Definition slt (a b : string) : Prop := String.ltb a b = true.
Lemma cmp_refl a : String.compare a a = Eq.
Proof. pose proof (String.compare_antisym a a) as H. destruct (String.compare a a); auto; discriminate. Qed.
Lemma slt_irrefl a : ~ slt a a.
Proof. unfold slt, String.ltb. rewrite cmp_refl. discriminate. Qed.
Lemma slt_asym a b : slt a b -> slt b a -> False.
Proof.
  unfold slt, String.ltb. intros H1 H2. destruct (String.compare a b) eqn:E1; try discriminate.
  destruct (String.compare b a) eqn:E2; try discriminate. pose proof (str_lt_trans _ _ _ E1 E2) as H. 
  rewrite cmp_refl in H. discriminate.
Qed.
Lemma strict_unique l1 : forall l2, StronglySorted slt l1 -> StronglySorted slt l2 -> (forall p, In p l1 <-> In p l2) -> l1 = l2.
Proof.
  induction l1 as [|a l1 IH]; intros [|b l2] S1 S2 H; auto.
  - exfalso. apply (H b). left; auto.
  - exfalso. apply (H a). left; auto.
  - inversion S1 as [|? ? S1' F1]; inversion S2 as [|? ? S2' F2]; subst. rewrite Forall_forall in F1, F2.
    assert (a = b).
    { destruct (proj1 (H a) (or_introl eq_refl)) as [->|Ha]; auto. destruct (proj2 (H b) (or_introl eq_refl)) as [->|Hb]; auto.
      exfalso. eapply slt_asym; eauto. }
    subst b. f_equal. apply IH; auto. intros p. split; intros Hp.
    + destruct (proj1 (H p) (or_intror Hp)) as [<-|]; auto. exfalso. apply (slt_irrefl a). auto.
    + destruct (proj2 (H p) (or_intror Hp)) as [<-|]; auto. exfalso. apply (slt_irrefl a). auto.
Qed.
Lemma group_keys_sorted l : StronglySorted slt (group_keys l).
Proof.
  assert (H : StronglySorted (fun a b => String.leb a b = true) (group_keys l)) by (apply isort_sorted; [apply String.leb_total|apply str_leb_trans]).
  pose proof (nodup_group_keys l) as N. induction H as [|a l' Hs IH Hf]; constructor.
  - inversion N; auto.
  - inversion N; subst. rewrite Forall_forall in *. intros b Hb. specialize (Hf b Hb). cbn in Hf. unfold slt, String.ltb. unfold String.leb in Hf.
    destruct (String.compare a b) eqn:E; auto. apply String.compare_eq_iff in E. subst. contradiction.
Qed.

(** ** the columns of the histogram *)
Lemma add_groups_colnames evs hw edges keys : NoDup keys -> no_collision keys -> forall t,
  (forall p, In p keys -> forall n, In n (names_of p) -> ~ In n (colnames t)) ->
  colnames (add_groups_pure evs hw edges keys t) = colnames t ++ particle_columns keys.
Proof.
  induction keys as [|p keys IH]; intros Hn Hc t Hf; cbn [add_groups_pure particle_columns flat_map]; [rewrite app_nil_r; auto|].
  inversion Hn as [|? ? Hp Hn']; subst.
  assert (F1 : ~ In ("n_" ++ p)%string (colnames t)) by (apply (Hf p); [left; auto|left; auto]).
  assert (F2 : ~ In (("n_" ++ p) ++ "_weighted")%string (colnames t)) by (apply (Hf p); [left; auto|right; left; auto]).
  assert (E1 : forall c, colnames (setitem t ("n_" ++ p) c) = colnames t ++ [("n_" ++ p)%string]) by (intros; apply names_new; auto).
  assert (F3 : forall c, ~ In (("n_" ++ p) ++ "_weighted")%string (colnames (setitem t ("n_" ++ p) c))).
  { intros c. rewrite E1, in_app_iff. intros [H|[H|[]]]; auto. apply (f_equal String.length) in H. rewrite !string_length_app in H. cbn in H. lia. }
  rewrite IH; auto.
  - rewrite names_new by auto. rewrite E1, <- !app_assoc. reflexivity.
  - intros a b Ha Hb. apply Hc; right; auto.
  - intros r Hr n Hin. rewrite names_new by auto. rewrite E1, !in_app_iff. intros [[H|[H|[]]]|[H|[]]].
    + apply (Hf r (or_intror Hr) n Hin H).
    + subst n. destruct Hin as [Hin|[Hin|[]]].
      * cbn in Hin. injection Hin as ->. contradiction.
      * rewrite string_app_assoc in Hin. cbn in Hin. injection Hin as Hin. apply (Hc p r); [left; auto|right; auto|auto].
    + subst n. destruct Hin as [Hin|[Hin|[]]].
      * rewrite string_app_assoc in Hin. cbn in Hin. injection Hin as Hin. apply (Hc r p); [right; auto|left; auto|auto].
      * apply string_app_inj_r in Hin. cbn in Hin. injection Hin as ->. contradiction.
Qed.
Lemma calc_names br sf sa sig bkg a s m e t : NoDup (colnames bkg) -> (forall n, In n reserved -> ~ In n (colnames bkg)) ->
  calculate_sensitivity br sf sa sig bkg a s m e = Ok t ->
  colnames t = first_seven ++ filter (fun c => starts_with "n_" c && negb (String.eqb c "n_weighted")) (colnames bkg) ++ ["significance"; "relative_sensitivity"]%string.
Proof.
  intros Hnd Hres H. unfold calculate_sensitivity in H. unbind H. injection H as <-.
  set (names := filter _ (colnames bkg)) in *.
  assert (Hn : forall x, In x names -> In x (colnames bkg) /\ exists p, x = ("n_" ++ p)%string).
  { intros x Hx. apply filter_In in Hx as [Hx Ef]. apply andb_true_iff in Ef as [Ef _]. split; auto. apply starts_n; auto. }
  assert (Hc : forall x, In x names -> ~ In x core_columns).
  { intros x Hx. destruct (Hn x Hx) as [Hi [p ->]]. intros Hcc. unfold core_columns in Hcc.
    cbn [In] in Hcc. 
    repeat (destruct Hcc as [Hcc|Hcc]; [first [discriminate Hcc | rewrite <- Hcc in Hi; revert Hi; apply Hres; unfold reserved; cbn [In]; tauto]|]).
    destruct Hcc. }
  match goal with E : copy_columns bkg names ?s0 = Ok _ |- _ => rename E into Ecp; set (sbase := s0) in * end.
  assert (Eb : colnames sbase = first_seven).
  { unfold sbase. match goal with E : copy_edges _ _ _ = Ok _ |- _ => cbn [copy_edges] in E; rename E into Eed end.
    unbind Eed. injection Eed as <-. reflexivity. }
  assert (Ecn : colnames v9 = first_seven ++ names).
  { rewrite <- Eb. eapply copy_columns_names; [| |exact Ecp].
    - apply NoDup_filter; auto.
    - intros x Hx. rewrite Eb. intros Hx'. apply (Hc x Hx). unfold first_seven, core_columns in *. cbn [In] in *. tauto. }
  assert (N1 : ~ In "significance"%string (colnames v9)).
  { rewrite Ecn, in_app_iff. intros [Hi|Hi]; [cbn in Hi; repeat (destruct Hi as [Hi|Hi]; [discriminate|]); destruct Hi|].
    apply (Hc _ Hi). unfold core_columns; cbn [In]; tauto. }
  assert (N2 : ~ In "relative_sensitivity"%string (colnames (setitem v9 "significance" (CN v13)))).
  { rewrite names_new by auto. rewrite Ecn, !in_app_iff. intros [[Hi|Hi]|[Hi|[]]]; [cbn in Hi; repeat (destruct Hi as [Hi|Hi]; [discriminate|]); destruct Hi| |discriminate].
    apply (Hc _ Hi). unfold core_columns; cbn [In]; tauto. }
  rewrite (names_new _ _ _ N2), (names_new _ _ _ N1), Ecn, <- !app_assoc. reflexivity.
Qed.
Lemma particle_filter ps : ~ In "weighted"%string ps ->
  filter (fun c => starts_with "n_" c && negb (String.eqb c "n_weighted")) (particle_columns ps) = particle_columns ps.
Proof.
  induction ps as [|p ps IH]; intros H; auto. cbn [particle_columns flat_map]. rewrite filter_app.
  fold (particle_columns ps). rewrite IH by (intros Hi; apply H; right; auto). f_equal.
  cbn [filter]. assert (P : forall x, starts_with "n_" ("n_" ++ x) = true).
  { intros x. cbn. destruct x; reflexivity. }
  rewrite P. assert (E1 : String.eqb ("n_" ++ p) "n_weighted" = false).
  { apply String.eqb_neq. intros E. cbn in E. injection E as ->. apply H; left; auto. }
  rewrite E1. cbn [negb andb]. rewrite string_app_assoc. rewrite P.
  assert (E2 : String.eqb ("n_" ++ p ++ "_weighted") "n_weighted" = false).
  { apply String.eqb_neq. intros E. apply (f_equal String.length) in E. rewrite !string_length_app in E. cbn in E. lia. }
  rewrite E2. reflexivity.
Qed.
Lemma particle_columns_length ps : length (particle_columns ps) = (2 * length ps)%nat.
Proof. induction ps; cbn [particle_columns flat_map app length] in *; auto. fold (particle_columns ps). unfold particle_columns in *. lia. Qed.

Section Names.
Variables (br : (R -> num) -> R -> R -> res R) (sf : num -> num -> num -> num)
  (sa : list num -> list num -> num -> res (list num)) (sw sp bw : bool)
  (bins : list num) (alpha mn mx ms mse mex : num).
Hypotheses (Hnd : nondecreasing bins) (Hlen : (2 <= length bins)%nat).

Lemma ring_types B ps : particle_types mn mx B ps -> group_keys (map ev_p (ring mn mx B)) = ps.
Proof.
  intros [S H]. apply strict_unique; auto. { apply group_keys_sorted. }
  intros p. rewrite in_group_keys, H. unfold ring. rewrite map_map, in_map_iff. split.
  - intros (e & <- & He). apply filter_In in He as [He Hq]. unfold q in Hq. apply andb_true_iff in Hq as [Q1 Q2]. exists e. repeat split; auto.
  - intros (e & He & [Q1 Q2] & <-). exists e. split; auto. apply filter_In. split; auto. unfold q, nge. rewrite Q1, Q2. auto.
Qed.
Lemma types_exist B : exists ps, particle_types mn mx B ps.
Proof.
  exists (group_keys (map ev_p (ring mn mx B))). split; [apply group_keys_sorted|].
  intros p. rewrite in_group_keys. unfold ring. rewrite map_map, in_map_iff. split.
  - intros (e & <- & He). apply filter_In in He as [He Hq]. unfold q in Hq. apply andb_true_iff in Hq as [Q1 Q2]. exists e. repeat split; auto.
  - intros (e & He & [Q1 Q2] & <-). exists e. split; auto. apply filter_In. split; auto. unfold q, nge. rewrite Q1, Q2. auto.
Qed.
Lemma hist_names evs hw : (forall e, In e evs -> ev_p e <> "weighted"%string) -> no_collision (map ev_p evs) ->
  colnames (hist_table (mkEvents evs hw true) bins "reco_energy") =
    ["reco_energy_low"; "reco_energy_high"; "reco_energy_center"; "n"; "n_weighted"]%string ++ particle_columns (group_keys (map ev_p evs)).
Proof.
  intros Hw Hc. unfold hist_table. cbn [et_has_ptype et_rows et_has_weight andb]. destruct evs as [|e evs]; [reflexivity|]. cbn [length Nat.eqb negb].
  set (l := e :: evs) in *. rewrite add_groups_colnames; auto.
  - apply nodup_group_keys.
  - intros a b Ha Hb. apply Hc; apply in_group_keys; auto.
  - intros p Hp n Hn. apply (proj1 (in_group_keys _ _)) in Hp. apply in_map_iff in Hp as (x & <- & Hx). specialize (Hw x Hx).
    change (colnames (base_table l hw bins "reco_energy")) with ["reco_energy_low"; "reco_energy_high"; "reco_energy_center"; "n"; "n_weighted"]%string.
    destruct Hn as [<-|[<-|[]]]; cbn [In]; intros H.
    + do 4 (destruct H as [H|H]; [discriminate H|]). destruct H as [H|[]]. cbn in H. injection H as H. congruence.
    + do 4 (destruct H as [H|H]; [discriminate H|]). destruct H as [H|[]]. apply (f_equal String.length) in H. rewrite !string_length_app in H. cbn in H. lia.
Qed.

Lemma selected_columns S B thc thcut ps s : good_labels B -> particle_types mn mx B ps ->
  selected_sensitivity br sf sa sw sp bw true bins alpha mn mx ms mse mex S B thc thcut = Ok s ->
  colnames s = sensitivity_columns ps.
Proof.
  intros [Hcl Hco] Hps H. unfold selected_sensitivity in H. apply rbind_ok in H as (sh & _ & H). apply rbind_ok in H as (bh & Hb & H).
  assert (Hbne : bins <> []) by (intros E; rewrite E in Hlen; cbn in Hlen; lia).
  assert (Hin : forall e, In e (ring mn mx B) -> exists o, In o B /\ o_ev o = e).
  { intros e Hi. unfold ring in Hi. apply in_map_iff in Hi as (o & <- & Ho). apply filter_In in Ho as [Ho _]. eauto. }
  assert (Hlab : forall e, In e (ring mn mx B) -> ~ In (ev_p e) ["weighted"; "signal"; "signal_weighted"; "background"; "background_weighted"]%string).
  { intros e Hi. destruct (Hin e Hi) as (o & Ho & <-). apply (Hcl eq_refl o Ho). }
  assert (Hwn : forall e, In e (ring mn mx B) -> ev_p e <> "weighted"%string) by (intros e Hi E; apply (Hlab e Hi); rewrite E; left; auto).
  assert (Ecb : colnames bh = ["reco_energy_low"; "reco_energy_high"; "reco_energy_center"; "n"; "n_weighted"]%string ++ particle_columns ps).
  { unfold estimate_background in Hb. rewrite ring_eq, create_histogram_table_ok in Hb by auto.
    cbn [rbind] in Hb. apply rbind_ok in Hb as (ti & _ & Hb). apply scale_names in Hb; [|intros k Hk; apply filter_In in Hk; tauto].
    rewrite Hb. rewrite hist_names; auto.
    - f_equal. f_equal. apply ring_types; auto.
    - intros a b Ha Hb'. apply in_map_iff in Ha as (x & <- & Hx). apply in_map_iff in Hb' as (y & <- & Hy).
      destruct (Hin x Hx) as (o & Ho & <-). destruct (Hin y Hy) as (o' & Ho' & <-). apply Hco; [exact (in_map (fun e => ev_p (o_ev e)) _ _ Ho)|exact (in_map (fun e => ev_p (o_ev e)) _ _ Ho')]. }
  assert (Nb : NoDup (colnames bh)).
  { assert (H' := Hb). unfold estimate_background in H'. rewrite create_histogram_table_ok in H' by auto.
    cbn [rbind] in H'. apply rbind_ok in H' as (ti & _ & H'). apply scale_names in H'; [|intros k Hk; apply filter_In in Hk; tauto].
    rewrite H'. apply hist_table_nodup. }
  assert (Res : forall n, In n reserved -> ~ In n (colnames bh)).
  { intros n Hr Hi. rewrite Ecb, in_app_iff in Hi. destruct Hi as [Hi|Hi].
    - unfold reserved in Hr. cbn [In] in Hr, Hi. intuition congruence.
    - unfold particle_columns in Hi. apply in_flat_map in Hi as (p & Hp & Hi). apply (proj2 Hps) in Hp as (e & He & _ & <-).
      apply (Hcl eq_refl e He). eapply res_group; try exact Hr; exact Hi. }
  rewrite (calc_names _ _ _ _ _ _ _ _ _ _ Nb Res H), Ecb.
  unfold sensitivity_columns, first_seven. f_equal. f_equal. rewrite filter_app, particle_filter.
  - reflexivity.
  - intros Hi. apply (proj2 Hps) in Hi as (e & He & _ & E). apply (Hcl eq_refl e He). rewrite E. left; auto.
Qed.
End Names.
