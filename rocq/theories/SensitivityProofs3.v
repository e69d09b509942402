(** * SensitivityProofs3: the sensitivity table *)
From Coq Require Import String Reals List Bool ZArith Lia Lra Psatz.
From Verif Require Import Num Numpy Table Binning SpecBinning BinningProofs HistProofs CutsProofs Utils UtilsProofs Statistics SpecStatistics StatisticsProofs
  Sensitivity SpecSensitivity SensitivityProofs SensitivityProofs2.
Import ListNotations.
Open Scope R_scope.

Lemma getitem_as_utable t k : getitem (as_utable t) k = option_map (fun c => mkArr (col_nums c) None) (getitem t k).
Proof.
  unfold as_utable. induction t as [|[k' c] t IH]; simpl; auto. destruct (String.eqb k k'); auto.
Qed.
Lemma forallb_self l : (forall x, In x l -> is_nan x = false) -> forallb (fun b => b) (zipwith neqb l l) = true.
Proof.
  intros H. apply zipwith_forallb; auto. intros i x y Hx Hy. rewrite Hx in Hy. injection Hy as <-.
  apply neqb_eq. split; auto. apply H. eapply nth_error_In; eauto.
Qed.
Definition edge_names : list string := ["reco_energy_low"; "reco_energy_center"; "reco_energy_high"]%string.
Lemma check_ok sig bkg : same_binning sig bkg -> check_histograms (as_utable sig) (as_utable bkg) "reco_energy" = Ok tt.
Proof.
  intros H. unfold check_histograms.
  assert (forall ks, incl ks ["low"; "center"; "high"]%string -> check_keys (as_utable sig) (as_utable bkg) "reco_energy" ks = Ok tt).
  { induction ks as [|k ks IH]; intros Hi; auto. cbn [check_keys].
    destruct (H ("reco_energy" ++ "_" ++ k)%string) as (l & H1 & H2 & H3).
    { specialize (Hi k (or_introl eq_refl)). simpl in Hi. destruct Hi as [<-|[<-|[<-|[]]]]; simpl; auto. }
    unfold get_col. rewrite !getitem_as_utable, H1, H2. cbn [option_map rbind col_nums].
    unfold col_eq. cbn [a_unit a_val]. rewrite np_zip_eq by auto. cbn [rbind]. rewrite forallb_self by auto.
    apply IH. intros x Hx; apply Hi; right; auto. }
  apply H0. apply incl_refl.
Qed.

Lemma copy_columns_get bkg names s t : copy_columns bkg names s = Ok t -> forall k,
  (In k names -> getitem t k = getitem bkg k) /\ (~ In k names -> getitem t k = getitem s k).
Proof.
  revert s; induction names as [|n names IH]; intros s H k; cbn [copy_columns] in H.
  - injection H as <-. split; [intros []|auto].
  - unfold get_col in H. destruct (getitem bkg n) as [c|] eqn:E; cbn [rbind] in H; [|discriminate].
    destruct (IH _ H k) as [IH1 IH2]. split.
    + intros Hk. destruct (in_dec string_dec k names) as [Hi|Hi]; [auto|].
      destruct Hk as [->|Hk]; [|contradiction]. rewrite IH2 by auto. rewrite getitem_setitem_eq. auto.
    + intros Hk. rewrite IH2 by (intros ?; apply Hk; right; auto).
      apply getitem_setitem_neq. intros ->. apply Hk; left; auto.
Qed.
Lemma copy_columns_ok bkg names s : (forall k, In k names -> In k (colnames bkg)) -> exists t, copy_columns bkg names s = Ok t.
Proof.
  revert s; induction names as [|n names IH]; intros s H; cbn [copy_columns]; [eauto|].
  unfold get_col. destruct (getitem bkg n) eqn:E.
  - cbn [rbind]. apply IH. intros; apply H; right; auto.
  - apply getitem_None_notin in E. exfalso. apply E, H. left; auto.
Qed.
Lemma relative_sensitivity_ok br sf on off a s m e :
  length on = length off -> on <> [] ->
  (forall i x y, nth_error on i = Some x -> nth_error off i = Some y -> exists r,
     relative_sensitivity1 br sf x y a s m e = Ok r) ->
  exists rel, relative_sensitivity br sf on off a s m e = Ok rel /\ length rel = length on /\
    forall i x y r, nth_error on i = Some x -> nth_error off i = Some y -> nth_error rel i = Some r ->
      relative_sensitivity1 br sf x y a s m e = Ok r.
Proof.
  intros Hl Hne H. unfold relative_sensitivity. rewrite np_zip_eq by auto. cbn [rbind].
  set (f := fun p : num * num => relative_sensitivity1 br sf (fst p) (snd p) a s m e).
  assert (Hz : forall i x y, nth_error on i = Some x -> nth_error off i = Some y ->
     nth_error (zipwith (fun a b => (a, b)) on off) i = Some (x, y)) by (intros; apply (zipwith_nth (fun a b => (a,b))); auto).
  assert (Hzl : length (zipwith (fun a b => (a, b)) on off) = length on) by (rewrite zipwith_length; lia).
  destruct (zipwith (fun a b => (a, b)) on off) as [|p ps] eqn:Ez.
  { destruct on; [congruence|discriminate]. }
  rewrite <- Ez in *. 
  destruct (rmap_all_ok f (zipwith (fun a b => (a, b)) on off)) as [rel Hrel].
  { intros q Hq. apply In_nth_error in Hq. destruct Hq as [i Hi].
    assert (i < length on)%nat. { rewrite <- Hzl. apply nth_error_Some. rewrite Hi. discriminate. }
    destruct (nth_error on i) as [x|] eqn:Ex; [|apply nth_error_None in Ex; lia].
    destruct (nth_error off i) as [y|] eqn:Ey; [|apply nth_error_None in Ey; lia].
    rewrite (Hz _ _ _ Ex Ey) in Hi. injection Hi as <-. apply (H _ _ _ Ex Ey). }
  exists rel. split; [exact Hrel|]. destruct (rmap_nth _ _ _ Hrel) as [Hlen Hn]. split; [lia|].
  intros i x y r Hx Hy Hr. destruct (Hn i (x, y) (Hz _ _ _ Hx Hy)) as (c & Hc & Ec).
  rewrite Hc in Hr. injection Hr as <-. exact Ec.
Qed.

Lemma column_nums t name l : column t name l -> exists c, getitem t name = Some c /\ col_nums c = l.
Proof. intros [H|(z & H & ->)]; eauto. Qed.
Lemma prefix_app a b : String.prefix a (a ++ b) = true.
Proof. induction a as [|x a IH]; simpl; [destruct b; auto|]. destruct (Ascii.ascii_dec x x); auto; congruence. Qed.
Lemma prefix_spec a s : String.prefix a s = true <-> exists b, s = (a ++ b)%string.
Proof.
  split.
  - revert s; induction a as [|x a IH]; intros s H; [exists s; auto|].
    destruct s as [|y s]; simpl in H; [discriminate|]. destruct (Ascii.ascii_dec x y) as [->|]; [|discriminate].
    destruct (IH _ H) as [b ->]. exists b; auto.
  - intros [b ->]; apply prefix_app.
Qed.
Lemma column_of_nums t name c : getitem t name = Some c -> (exists l, column t name l) -> column t name (col_nums c).
Proof. intros H [l [Hl|(z & Hl & ->)]]; rewrite H in Hl; injection Hl as ->; [left|right]; simpl; eauto. Qed.

Lemma c25_table br sf sa sig bkg a s m e ns sw bn bw :
  same_binning sig bkg ->
  column sig "n" ns -> column sig "n_weighted" sw -> column bkg "n" bn -> column bkg "n_weighted" bw ->
  length sw = length ns -> length bw = length ns -> length bn = length ns -> ns <> [] ->
  (forall name, In name reserved -> ~ In name (colnames bkg)) ->
  (forall on off, length on = length off -> sa on off a = Ok (zipwith (fun x y => sf x y a) on off)) ->
  (forall i x y, nth_error sw i = Some x -> nth_error bw i = Some y -> exists r,
     relative_sensitivity1 br sf (nadd x (nmul a y)) y a s m e = Ok r) ->
  exists t n_signal n_signal_weighted significance rel,
    calculate_sensitivity br sf sa sig bkg a s m e = Ok t /\
    (forall name, In name ["reco_energy_low"; "reco_energy_center"; "reco_energy_high"]%string ->
       getitem t name = getitem sig name) /\
    column t "n_signal" n_signal /\ column t "n_signal_weighted" n_signal_weighted /\
    column t "n_background" bn /\ column t "n_background_weighted" bw /\
    column t "significance" significance /\ column t "relative_sensitivity" rel /\
    length rel = length ns /\ length n_signal = length ns /\ length n_signal_weighted = length ns /\
    length significance = length ns /\
    (forall p, In ("n_" ++ p)%string (colnames bkg) -> p <> "weighted"%string ->
       getitem t ("n_" ++ p)%string = getitem bkg ("n_" ++ p)%string) /\
    forall i n w b, nth_error ns i = Some n -> nth_error sw i = Some w -> nth_error bw i = Some b ->
      exists r, nth_error rel i = Some r /\
        relative_sensitivity1 br sf (nadd w (nmul a b)) b a s m e = Ok r /\
        nth_error n_signal i = Some (nmul n r) /\
        nth_error n_signal_weighted i = Some (nmul w r) /\
        nth_error significance i = Some (sf (nadd (nmul w r) (nmul a b)) b a).
Proof.
  intros Hb Hns Hsw Hbn Hbw L1 L2 L3 Hne Hres Hsa Hrow.
  destruct (column_nums _ _ _ Hns) as (cns & Gns & Ens). destruct (column_nums _ _ _ Hsw) as (csw & Gsw & Esw).
  destruct (column_nums _ _ _ Hbn) as (cbn_ & Gbn & Ebn). destruct (column_nums _ _ _ Hbw) as (cbw & Gbw & Ebw).
  set (on := zipwith nadd sw (map (nmul a) bw)).
  assert (Hon : np_zip nadd sw (map (nmul a) bw) = Ok on) by (apply np_zip_eq; rewrite map_length; lia).
  assert (Lon : length on = length ns) by (unfold on; rewrite zipwith_length, map_length; lia).
  assert (Non : forall i w b, nth_error sw i = Some w -> nth_error bw i = Some b -> nth_error on i = Some (nadd w (nmul a b))).
  { intros i w b Hw Hb'. unfold on. apply zipwith_nth; auto. apply map_nth_error; auto. }
  destruct (relative_sensitivity_ok br sf on bw a s m e) as (rel & Hrel & Lrel & Prel).
  { lia. } { intros E. apply (f_equal (@length num)) in E. rewrite Lon in E. destruct ns; [congruence|discriminate]. }
  { intros i x y Hx Hy. destruct (nth_error sw i) as [w|] eqn:Ew.
    - rewrite (Non _ _ _ Ew Hy) in Hx. injection Hx as <-. eauto.
    - apply nth_error_None in Ew. assert (i < length bw)%nat by (apply nth_error_Some; rewrite Hy; discriminate). lia. }
  rewrite Lon in Lrel.
  set (n_signal := zipwith nmul ns rel). set (n_signal_w := zipwith nmul sw rel).
  assert (Z1 : np_zip nmul ns rel = Ok n_signal) by (apply np_zip_eq; lia).
  assert (Z2 : np_zip nmul sw rel = Ok n_signal_w) by (apply np_zip_eq; lia).
  destruct (Hb "reco_energy_low"%string) as (lo & Slo & _); [simpl; auto|].
  destruct (Hb "reco_energy_center"%string) as (ce & Sce & _); [simpl; auto|].
  destruct (Hb "reco_energy_high"%string) as (hi & Shi & _); [simpl; auto|].
  set (names := filter (fun c => starts_with "n_" c && negb (String.eqb c "n_weighted")) (colnames bkg)).
  set (s0 := [("reco_energy_low", CN lo); ("reco_energy_high", CN hi); ("reco_energy_center", CN ce)]%string).
  set (s1 := setitem (setitem (setitem (setitem s0 "n_signal" (CN n_signal)) "n_signal_weighted" (CN n_signal_w))
          "n_background" cbn_) "n_background_weighted" cbw).
  destruct (copy_columns_ok bkg names s1) as [s2 Hs2].
  { intros k Hk. apply filter_In in Hk. tauto. }
  pose proof (copy_columns_get _ _ _ _ Hs2) as Hget.
  assert (Hresn : forall k, In k reserved -> ~ In k names).
  { intros k Hk Hi. apply filter_In in Hi. apply (Hres k Hk). tauto. }
  assert (G2a : getitem s2 "n_signal_weighted" = Some (CN n_signal_w)).
  { rewrite (proj2 (Hget _)) by (apply Hresn; simpl; auto). reflexivity. }
  assert (G2b : getitem s2 "n_background_weighted" = Some cbw).
  { rewrite (proj2 (Hget _)) by (apply Hresn; simpl; auto 6). reflexivity. }
  assert (G2c : getitem s2 "n_signal" = Some (CN n_signal)).
  { rewrite (proj2 (Hget _)) by (apply Hresn; simpl; auto). reflexivity. }
  assert (G2d : getitem s2 "n_background" = Some cbn_).
  { rewrite (proj2 (Hget _)) by (apply Hresn; simpl; auto 6). reflexivity. }
  set (on2 := zipwith nadd n_signal_w (map (nmul a) bw)).
  assert (L4 : length n_signal_w = length ns) by (unfold n_signal_w; rewrite zipwith_length; lia).
  assert (Z3 : np_zip nadd n_signal_w (map (nmul a) bw) = Ok on2) by (apply np_zip_eq; rewrite map_length; lia).
  assert (L5 : length on2 = length ns) by (unfold on2; rewrite zipwith_length, map_length; lia).
  set (signif := zipwith (fun x y => sf x y a) on2 bw).
  assert (Z4 : sa on2 bw a = Ok signif) by (apply Hsa; lia).
  exists (setitem (setitem s2 "significance" (CN signif)) "relative_sensitivity" (CN rel)), n_signal, n_signal_w, signif, rel.
  split.
  { unfold calculate_sensitivity. rewrite check_ok by auto. cbn [rbind].
    unfold get_col at 1. rewrite Gsw. cbn [rbind]. unfold get_col at 1. rewrite Gbw. cbn [rbind].
    rewrite Esw, Ebw, Hon. cbn [rbind]. rewrite Hrel. cbn [rbind].
    unfold copy_edges, get_col at 1 2 3. cbn [append].
    rewrite Slo, Shi, Sce. cbn [rbind]. unfold get_col at 1. rewrite Gns. cbn [rbind].
    rewrite Ens, Z1. cbn [rbind]. rewrite Z2. cbn [rbind]. unfold get_col at 1. rewrite Gbn. cbn [rbind].
    change (setitem (setitem (setitem [] "reco_energy_low" (CN lo)) "reco_energy_high" (CN hi)) "reco_energy_center" (CN ce)) with s0.
    fold names. fold s1. rewrite Hs2. cbn [rbind].
    unfold get_col. rewrite G2a, G2b. cbn [rbind col_nums]. rewrite Ebw, Z3. cbn [rbind]. rewrite Z4. reflexivity. }
  assert (Gout : forall k, k <> "significance"%string -> k <> "relative_sensitivity"%string ->
     getitem (setitem (setitem s2 "significance" (CN signif)) "relative_sensitivity" (CN rel)) k = getitem s2 k).
  { intros k K1 K2. rewrite !getitem_setitem_neq by auto. auto. }
  split.
  { intros k Hk. rewrite Gout by (simpl in Hk; destruct Hk as [<-|[<-|[<-|[]]]]; discriminate).
    rewrite (proj2 (Hget k)).
    - simpl in Hk. destruct Hk as [<-|[<-|[<-|[]]]]; [rewrite Slo|rewrite Sce|rewrite Shi]; reflexivity.
    - intros Hi. apply filter_In in Hi. destruct Hi as [_ Hi]. simpl in Hk. destruct Hk as [<-|[<-|[<-|[]]]]; discriminate. }
  split; [left; rewrite Gout by discriminate; auto|]. split; [left; rewrite Gout by discriminate; auto|].
  assert (CC : forall t k c l, getitem t k = Some c -> column bkg "n" l \/ column bkg "n_weighted" l -> col_nums c = l ->
     (getitem bkg "n" = Some c \/ getitem bkg "n_weighted" = Some c) -> column t k l).
  { intros t k c l Ht _ Hc Hg. destruct Hg as [Hg|Hg]; [pose proof Hbn as Hh|pose proof Hbw as Hh];
      destruct Hh as [Hh|(z & Hh & _)]; rewrite Hg in Hh; injection Hh as ->; simpl in Hc; subst l; [left|right|left|right]; eauto. }
  split; [apply (CC _ _ cbn_); auto; rewrite Gout by discriminate; auto|].
  split; [apply (CC _ _ cbw); auto; rewrite Gout by discriminate; auto|].
  split; [left; rewrite getitem_setitem_neq by discriminate; apply getitem_setitem_eq|].
  split; [left; apply getitem_setitem_eq|].
  split; [auto|]. split; [unfold n_signal; rewrite zipwith_length; lia|]. split; [auto|].
  split; [unfold signif; rewrite zipwith_length; lia|].
  split.
  { intros p Hp Hw. rewrite Gout; [| discriminate | discriminate].
    apply Hget. apply filter_In. split; auto.
    unfold starts_with. rewrite prefix_app. cbn [andb]. apply negb_true_iff, String.eqb_neq.
    intros E. apply Hw. apply (string_app_inj_l "n_"). exact E. }
  intros i n w b Hn Hw Hb'.
  destruct (nth_error_ex rel i) as [r Hr]. { rewrite Lrel. apply nth_error_Some. rewrite Hn. discriminate. }
  exists r. split; auto. split; [apply (Prel i); auto|]. split; [apply zipwith_nth; auto|]. split; [apply zipwith_nth; auto|].
  apply (zipwith_nth (fun x y => sf x y a)); auto. unfold on2. apply zipwith_nth; [apply zipwith_nth; auto|apply map_nth_error; auto].
Qed.
(** a row error is an error of the whole call; so is an empty table *)
Lemma c25_mismatch br sf sa sig bkg a s m e name l1 l2 :
  In name ["reco_energy_low"; "reco_energy_center"; "reco_energy_high"]%string ->
  (forall n, In n ["reco_energy_low"; "reco_energy_center"; "reco_energy_high"]%string ->
     exists l1 l2, getitem sig n = Some (CN l1) /\ getitem bkg n = Some (CN l2) /\ length l1 = length l2) ->
  getitem sig name = Some (CN l1) -> getitem bkg name = Some (CN l2) -> 
  (l1 <> l2 \/ In NaN l1) ->
  calculate_sensitivity br sf sa sig bkg a s m e = Err ValueError.
Proof.
  intros Hin Hall G1 G2 Hd. unfold calculate_sensitivity.
  assert (E : check_histograms (as_utable sig) (as_utable bkg) "reco_energy" = Err ValueError); [|rewrite E; reflexivity].
  unfold check_histograms.
  assert (forall ks, incl ks ["low"; "center"; "high"]%string -> In name (map (fun k => "reco_energy" ++ "_" ++ k) ks)%string ->
     check_keys (as_utable sig) (as_utable bkg) "reco_energy" ks = Err ValueError).
  { induction ks as [|k ks IH]; intros Hi Hk; [destruct Hk|]. cbn [check_keys].
    destruct (Hall ("reco_energy" ++ "_" ++ k)%string) as (m1 & m2 & E1 & E2 & E3).
    { specialize (Hi k (or_introl eq_refl)). simpl in Hi. destruct Hi as [<-|[<-|[<-|[]]]]; simpl; auto. }
    unfold get_col. rewrite !getitem_as_utable, E1, E2. cbn [option_map rbind col_nums].
    unfold col_eq. cbn [a_unit a_val]. rewrite np_zip_eq by auto. cbn [rbind].
    destruct (forallb (fun b => b) (zipwith neqb m1 m2)) eqn:Ef; [|auto].
    destruct Hk as [Hk|Hk].
    - exfalso. subst name. rewrite E1 in G1; injection G1 as <-. rewrite E2 in G2; injection G2 as <-.
      rewrite zipwith_forallb in Ef by auto. destruct Hd as [Hd|Hd].
      + apply Hd. apply list_eq_nth; auto. intros i x y X1 X2. apply (neqb_eq x y). apply (Ef i); auto.
      + apply In_nth_error in Hd. destruct Hd as [i X1]. destruct (nth_error_ex m2 i) as [y X2].
        { rewrite <- E3. apply nth_error_Some. rewrite X1; discriminate. }
        specialize (Ef i NaN y X1 X2). discriminate.
    - apply IH; auto. intros x Hx; apply Hi; right; auto. }
  apply H; [apply incl_refl|]. simpl in Hin |- *. tauto.
Qed.

Lemma rbind_ok {A B} (x : res A) (f : A -> res B) b : rbind x f = Ok b -> exists a, x = Ok a /\ f a = Ok b.
Proof. destruct x; simpl; intros H; [eauto|discriminate]. Qed.
Ltac unbind H := repeat (let x := fresh "v" in let E := fresh "E" in let H' := fresh "H" in
  apply rbind_ok in H; destruct H as (x & E & H); cbn beta in H).
(** a per-particle background column called like an output column replaces it *)
Lemma c25_collision br sf sa sig bkg a s m e t name :
  calculate_sensitivity br sf sa sig bkg a s m e = Ok t ->
  In name reserved -> In name (colnames bkg) -> getitem t name = getitem bkg name.
Proof.
  intros H Hr Hc. unfold calculate_sensitivity in H. unbind H.
  injection H as <-.
  rewrite !getitem_setitem_neq by (simpl in Hr; destruct Hr as [<-|[<-|[<-|[<-|[]]]]]; discriminate).
  apply (copy_columns_get _ _ _ _ E9). apply filter_In. split; auto.
  simpl in Hr; destruct Hr as [<-|[<-|[<-|[<-|[]]]]]; reflexivity.
Qed.
(** one bad bin makes the whole call fail *)
Lemma rmap_err {A B} (f : A -> res B) l x ex : In x l -> f x = Err ex -> exists ex', rmap f l = Err ex'.
Proof.
  induction l as [|a l IH]; intros Hi Hf; [destruct Hi|]. simpl. destruct (f a) as [b|e'] eqn:E; [|simpl; eauto].
  cbn [rbind]. destruct Hi as [->|Hi]; [congruence|]. destruct (IH Hi Hf) as [e' ->]. simpl; eauto.
Qed.
Lemma c25_bad_bin br sf sa sig bkg a s m e sw bw i w b ex :
  column sig "n_weighted" sw -> column bkg "n_weighted" bw -> length sw = length bw ->
  nth_error sw i = Some w -> nth_error bw i = Some b ->
  relative_sensitivity1 br sf (nadd w (nmul a b)) b a s m e = Err ex ->
  forall t, calculate_sensitivity br sf sa sig bkg a s m e <> Ok t.
Proof.
  intros Hsw Hbw L Hw Hb Hrow t H.
  destruct (column_nums _ _ _ Hsw) as (csw & Gsw & Esw). destruct (column_nums _ _ _ Hbw) as (cbw & Gbw & Ebw).
  unfold calculate_sensitivity in H. unbind H.
  unfold get_col in E0, E1. rewrite Gsw in E0. rewrite Gbw in E1. injection E0 as <-. injection E1 as <-.
  rewrite Esw, Ebw in *. rewrite np_zip_eq in E2 by (rewrite map_length; auto). injection E2 as <-.
  unfold relative_sensitivity in E3. rewrite np_zip_eq in E3 by (rewrite zipwith_length, map_length; lia). cbn [rbind] in E3.
  set (ps := zipwith (fun a b => (a, b)) (zipwith nadd sw (map (nmul a) bw)) bw) in *.
  assert (Hin : In (nadd w (nmul a b), b) ps).
  { eapply nth_error_In. apply (zipwith_nth (fun a b => (a, b))); eauto. apply zipwith_nth; eauto. apply map_nth_error; auto. }
  destruct ps as [|p ps'] eqn:Ep; [destruct Hin|]. rewrite <- Ep in *.
  destruct (rmap_err (fun p => relative_sensitivity1 br sf (fst p) (snd p) a s m e) ps _ ex Hin Hrow) as [ex' Hex].
  assert (E3' : rmap (fun p => relative_sensitivity1 br sf (fst p) (snd p) a s m e) ps = Ok v3) by (first [exact E3 | rewrite Ep; exact E3]).
  congruence.
Qed.
Lemma li_ma_array_elementwise a on off : length on = length off ->
  li_ma_array on off a = Ok (zipwith (fun x y => li_ma1 x y a) on off).
Proof.
  intros H. unfold li_ma_array, li_ma_significance. cbn [atleast_1d is_scalar]. rewrite H, Nat.eqb_refl. reflexivity.
Qed.
