(** * CutOptimizationProofs3: the sensitivity of a selection, bin by bin (C29) *)
From Coq Require Import String Reals List Bool ZArith Lia Lra.
From Verif Require Import Num Numpy Table Binning SpecBinning BinningProofs HistProofs BinningProofs2 Percentile Cuts SpecCuts
  CutsProofs CutsProofs2 SpecSensitivity Sensitivity SensitivityProofs3 SensitivityProofs4 CutOptimization SpecCutOptimization
  CutOptimizationProofs CutOptimizationProofs2.
Import ListNotations.
Open Scope R_scope.

(** ** layout of sensitivity tables *)
Lemma names_new {A} (t : list (string * A)) k c : ~ In k (colnames t) -> colnames (setitem t k c) = colnames t ++ [k].
Proof.
  unfold colnames. induction t as [|[k' c'] t IH]; cbn [setitem map fst app In]; intros H; auto.
  destruct (String.eqb_spec k k') as [->|]; [exfalso; auto|]. cbn [map fst]. f_equal. auto.
Qed.
Definition first_seven : list string :=
  ["reco_energy_low"; "reco_energy_high"; "reco_energy_center"; "n_signal"; "n_signal_weighted"; "n_background"; "n_background_weighted"]%string.
Definition layout (t : table) : Prop := exists ps, colnames t = first_seven ++ ps ++ ["significance"; "relative_sensitivity"]%string /\
  forall x, In x ps -> ~ In x core_columns.
Lemma copy_columns_names bkg names : forall s t, NoDup names -> (forall x, In x names -> ~ In x (colnames s)) ->
  copy_columns bkg names s = Ok t -> colnames t = colnames s ++ names.
Proof.
  induction names as [|n names IH]; intros s t Hnd Hni H; cbn [copy_columns] in H.
  - injection H as <-. rewrite app_nil_r. auto.
  - inversion Hnd; subst. apply rbind_ok in H as (c & _ & H). apply IH in H; auto.
    + rewrite H, names_new by (apply Hni; left; auto). rewrite <- app_assoc. auto.
    + intros x Hx. rewrite names_new by (apply Hni; left; auto). rewrite in_app_iff. intros [Hi|[<-|[]]]; auto.
      apply (Hni x); auto. right; auto.
Qed.
Lemma starts_n x : starts_with "n_" x = true -> exists p, x = ("n_" ++ p)%string.
Proof. apply prefix_spec. Qed.
Lemma string_app_inj_r a : forall b c, (a ++ c)%string = (b ++ c)%string -> a = b.
Proof.
  induction a as [|x a IH]; intros [|y b] c H; auto.
  - apply (f_equal String.length) in H. rewrite !string_length_app in H. cbn in H. lia.
  - apply (f_equal String.length) in H. rewrite !string_length_app in H. cbn in H. lia.
  - cbn in H. injection H as -> H. f_equal. eauto.
Qed.
Lemma calc_layout br sf sa sig bkg a s m e t : NoDup (colnames bkg) -> (forall n, In n reserved -> ~ In n (colnames bkg)) ->
  calculate_sensitivity br sf sa sig bkg a s m e = Ok t -> layout t.
Proof.
  intros Hnd Hres H. unfold calculate_sensitivity in H. unbind H. injection H as <-.
  set (names := filter _ (colnames bkg)) in *.
  exists names.
  assert (Hn : forall x, In x names -> In x (colnames bkg) /\ exists p, x = ("n_" ++ p)%string).
  { intros x Hx. apply filter_In in Hx as [Hx Ef]. apply andb_true_iff in Ef as [Ef _]. split; auto. apply starts_n; auto. }
  assert (Hc : forall x, In x names -> ~ In x core_columns).
  { intros x Hx. destruct (Hn x Hx) as [Hi [p ->]]. intros Hcc. unfold core_columns in Hcc.
    cbn [In] in Hcc. 
    repeat (destruct Hcc as [Hcc|Hcc]; [first [discriminate Hcc | rewrite <- Hcc in Hi; revert Hi; apply Hres; unfold reserved; cbn [In]; tauto]|]).
    destruct Hcc. }
  split; auto.
  match goal with E : copy_columns bkg names ?s0 = Ok _ |- _ => rename E into Ecp; set (sbase := s0) in * end.
  assert (Eb : colnames sbase = first_seven).
  { unfold sbase. match goal with E : copy_edges _ _ _ = Ok _ |- _ => cbn [copy_edges] in E; rename E into Eed end.
    unbind Eed. injection Eed as <-. reflexivity. }
  assert (Ecn : colnames v9 = first_seven ++ names).
  { rewrite <- Eb. eapply copy_columns_names; [| |exact Ecp].
    - apply NoDup_filter; auto.
    - intros x Hx. rewrite Eb. intros Hx'. apply (Hc x Hx). unfold first_seven, core_columns in *. cbn [In] in *. tauto. }
  assert (N1 : ~ In "significance"%string (colnames v9)).
  { rewrite Ecn, in_app_iff. intros [Hi|Hi]; [cbn in Hi; repeat (destruct Hi as [Hi|Hi]; [discriminate|]); destruct Hi|].
    apply (Hc _ Hi). unfold core_columns; cbn [In]; tauto. }
  assert (N2 : ~ In "relative_sensitivity"%string (colnames (setitem v9 "significance" (CN v13)))).
  { rewrite names_new by auto. rewrite Ecn, !in_app_iff. intros [[Hi|Hi]|[Hi|[]]]; [cbn in Hi; repeat (destruct Hi as [Hi|Hi]; [discriminate|]); destruct Hi| |discriminate].
    apply (Hc _ Hi). unfold core_columns; cbn [In]; tauto. }
  rewrite (names_new _ _ _ N2), (names_new _ _ _ N1), Ecn, <- !app_assoc. reflexivity.
Qed.

Lemma getitem_at (t : table) pre name post : colnames t = pre ++ name :: post -> ~ In name pre ->
  exists c, getitem t name = Some c /\ nth_error t (length pre) = Some (name, c).
Proof.
  revert pre; induction t as [|[k c] t IH]; intros pre E Hn; [destruct pre; discriminate|].
  destruct pre as [|x pre]; cbn in E; injection E as -> E.
  - exists c. cbn. rewrite String.eqb_refl. auto.
  - cbn [getitem nth_error length]. destruct (String.eqb_spec name x) as [->|]; [exfalso; apply Hn; left; auto|].
    apply IH; auto. intros Hi; apply Hn; right; auto.
Qed.
Lemma core_position name : In name core_columns ->
  (exists pre post, first_seven = pre ++ name :: post /\ ~ In name pre) \/
  (name = "significance"%string) \/ (name = "relative_sensitivity"%string).
Proof.
  unfold core_columns, first_seven. cbn [In]. intros H.
  repeat (destruct H as [<-|H]; [first [right; left; reflexivity | right; right; reflexivity | left] |]); try destruct H.
  - exists [], ["reco_energy_high"; "reco_energy_center"; "n_signal"; "n_signal_weighted"; "n_background"; "n_background_weighted"]%string.
    split; auto.
  - exists ["reco_energy_low"]%string, ["reco_energy_center"; "n_signal"; "n_signal_weighted"; "n_background"; "n_background_weighted"]%string.
    split; [auto|cbn; intuition discriminate].
  - exists ["reco_energy_low"; "reco_energy_high"]%string, ["n_signal"; "n_signal_weighted"; "n_background"; "n_background_weighted"]%string.
    split; [auto|cbn; intuition discriminate].
  - exists ["reco_energy_low"; "reco_energy_high"; "reco_energy_center"]%string, ["n_signal_weighted"; "n_background"; "n_background_weighted"]%string.
    split; [auto|cbn; intuition discriminate].
  - exists ["reco_energy_low"; "reco_energy_high"; "reco_energy_center"; "n_signal"]%string, ["n_background"; "n_background_weighted"]%string.
    split; [auto|cbn; intuition discriminate].
  - exists ["reco_energy_low"; "reco_energy_high"; "reco_energy_center"; "n_signal"; "n_signal_weighted"]%string, ["n_background_weighted"]%string.
    split; [auto|cbn; intuition discriminate].
  - exists ["reco_energy_low"; "reco_energy_high"; "reco_energy_center"; "n_signal"; "n_signal_weighted"; "n_background"]%string, (@nil string).
    split; [auto|cbn; intuition discriminate].
Qed.
Lemma layout_at t1 t2 name : layout t1 -> layout t2 -> length t1 = length t2 -> In name core_columns ->
  exists i c1 c2, getitem t1 name = Some c1 /\ nth_error t1 i = Some (name, c1) /\
    getitem t2 name = Some c2 /\ nth_error t2 i = Some (name, c2).
Proof.
  intros (p1 & E1 & H1) (p2 & E2 & H2) L Hn.
  assert (Lp : length p1 = length p2).
  { rewrite <- (map_length fst t1), <- (map_length fst t2) in L. unfold colnames in *. rewrite E1, E2, !app_length in L. lia. }
  assert (Hp : forall pre1 pre2 post1 post2, colnames t1 = pre1 ++ name :: post1 -> colnames t2 = pre2 ++ name :: post2 ->
    ~ In name pre1 -> ~ In name pre2 -> length pre1 = length pre2 -> 
    exists i c1 c2, getitem t1 name = Some c1 /\ nth_error t1 i = Some (name, c1) /\
    getitem t2 name = Some c2 /\ nth_error t2 i = Some (name, c2)).
  { intros pre1 pre2 post1 post2 F1 F2 N1 N2 Lpre. destruct (getitem_at _ _ _ _ F1 N1) as (c1 & G1 & A1).
    destruct (getitem_at _ _ _ _ F2 N2) as (c2 & G2 & A2). exists (length pre1), c1, c2. rewrite Lpre at 2. auto. }
  destruct (core_position name Hn) as [(pre & post & E & Np)|[->| ->]].
  - rewrite E in E1, E2. rewrite <- !app_assoc in E1, E2. cbn [app] in E1, E2. eapply Hp; eauto.
  - eapply (Hp (first_seven ++ p1) (first_seven ++ p2)); [rewrite E1, <- app_assoc; reflexivity|rewrite E2, <- app_assoc; reflexivity| | |].
    + rewrite in_app_iff. intros [Hi|Hi]; [cbn in Hi; intuition discriminate|exact (H1 _ Hi Hn)].
    + rewrite in_app_iff. intros [Hi|Hi]; [cbn in Hi; intuition discriminate|exact (H2 _ Hi Hn)].
    + rewrite !app_length. lia.
  - eapply (Hp (first_seven ++ p1 ++ ["significance"%string]) (first_seven ++ p2 ++ ["significance"%string]));
      [rewrite E1, <- !app_assoc; reflexivity|rewrite E2, <- !app_assoc; reflexivity| | |].
    + rewrite !in_app_iff. intros [Hi|[Hi|Hi]]; [cbn in Hi; intuition discriminate|exact (H1 _ Hi Hn)|cbn in Hi; intuition discriminate].
    + rewrite !in_app_iff. intros [Hi|[Hi|Hi]]; [cbn in Hi; intuition discriminate|exact (H2 _ Hi Hn)|cbn in Hi; intuition discriminate].
    + rewrite !app_length. lia.
Qed.
Lemma entry_fun c k v w : entry c k v -> entry c k w -> v = w.
Proof.
  destruct c; cbn; try tauto; try congruence.
  intros (z & H1 & ->) (z' & H2 & ->). rewrite H1 in H2. injection H2 as <-. auto.
Qed.
Lemma layout_cell t1 t2 k name v : layout t1 -> layout t2 -> same_row k t1 t2 -> In name core_columns ->
  cell t1 name k v -> cell t2 name k v.
Proof.
  intros L1 L2 Hs Hn (c & Hc & He). assert (Ll : length t1 = length t2) by (clear -Hs; induction Hs; cbn; auto).
  destruct (layout_at t1 t2 name L1 L2 Ll Hn) as (i & c1 & c2 & G1 & A1 & G2 & A2).
  rewrite Hc in G1. injection G1 as <-.
  assert (Hi : exists v, entry c k v /\ entry c2 k v).
  { clear -Hs A1 A2. revert i A1 A2. induction Hs as [|p q t1 t2 H Hs IH]; intros [|i] A1 A2; cbn in *; try discriminate.
    - injection A1 as ->. injection A2 as ->. exact H.
    - eauto. }
  destruct Hi as (v' & V1 & V2). rewrite (entry_fun _ _ _ _ He V1). exists c2. auto.
Qed.

(** ** filters *)
Lemma filter_map_comm {A B} (f : A -> B) p l : filter p (map f l) = map f (filter (fun a => p (f a)) l).
Proof. induction l as [|a l IH]; cbn; auto. destruct (p (f a)); cbn; f_equal; auto. Qed.
Lemma select_cons {A} b m (a : A) l : select (b :: m) (a :: l) = (if b then [a] else []) ++ select m l.
Proof. unfold select. cbn [combine filter snd]. destruct b; reflexivity. Qed.
Lemma select_local {A} (p : A -> bool) (l : list A) : forall m1 m2, length m1 = length l -> length m2 = length l ->
  (forall i a, nth_error l i = Some a -> p a = true -> nth_error m1 i = nth_error m2 i) ->
  filter p (select m1 l) = filter p (select m2 l).
Proof.
  induction l as [|a l IH]; intros [|b1 m1] [|b2 m2] L1 L2 H; try discriminate; auto.
  rewrite !select_cons, !filter_app. rewrite (IH m1 m2); auto. 2:{ intros i x Hi Hp. apply (H (S i) x); auto. }
  f_equal. destruct (p a) eqn:E.
  - specialize (H 0%nat a eq_refl E). injection H as ->. auto.
  - destruct b1, b2; cbn; rewrite ?E; auto.
Qed.

Lemma res_group p n : In n reserved -> In n (names_of p) ->
  In p ["weighted"; "signal"; "signal_weighted"; "background"; "background_weighted"]%string.
Proof.
  intros Hr [H|[H|[]]]; unfold reserved in Hr; cbn [In] in Hr.
  - repeat (destruct Hr as [<-|Hr]; [injection H as ->; cbn [In]; tauto|]). destruct Hr.
  - rewrite string_app_assoc in H.
    assert (G : forall q, (p ++ "_weighted")%string = q -> In q ["signal"; "signal_weighted"; "background"; "background_weighted"]%string ->
      In p ["weighted"; "signal"; "signal_weighted"; "background"; "background_weighted"]%string).
    { intros q0 E Hq. cbn [In] in Hq.
      destruct Hq as [<-|[<-|[<-|[<-|[]]]]].
      - exfalso. apply (f_equal String.length) in E. rewrite string_length_app in E. cbn in E. lia.
      - change "signal_weighted"%string with ("signal" ++ "_weighted")%string in E. apply string_app_inj_r in E. subst. cbn; tauto.
      - exfalso. destruct p as [|x [|y p]]; [discriminate E|cbn in E; injection E; discriminate|].
        apply (f_equal String.length) in E. rewrite string_length_app in E. cbn in E. lia.
      - change "background_weighted"%string with ("background" ++ "_weighted")%string in E. apply string_app_inj_r in E. subst. cbn; tauto. }
    destruct Hr as [<-|[<-|[<-|[<-|[]]]]]; (change ("n_signal")%string with ("n_" ++ "signal")%string in H || idtac).
    all: cbn [append] in H; injection H as H; eapply G; [exact H|cbn [In]; tauto].
Qed.

Section Bins.
Variables (br : (R -> num) -> R -> R -> res R) (sf : num -> num -> num -> num)
  (sa : list num -> list num -> num -> res (list num)) (sw sp bw bp : bool) (bins : list num)
  (alpha mn mx ms mse mex : num).
Hypotheses (Hnd : nondecreasing bins) (Hlen : (2 <= length bins)%nat)
  (Hfin : forall k lo hi, nth_error bins k = Some lo -> nth_error bins (S k) = Some hi -> exists r, lo = Fin r \/ hi = Fin r)
  (Hsa : forall on off, length on = length off -> sa on off alpha = Ok (zipwith (fun x y => sf x y alpha) on off)).

Definition inb (k : nat) (x : num) : bool :=
  match nth_error bins k, nth_error bins (S k) with
  | Some lo, Some hi => hist_binb lo hi (Nat.eqb (S (S k)) (length bins)) x
  | _, _ => false
  end.
Lemma inb_spec k x : (k < length bins - 1)%nat -> (inb k x = true <-> in_hist_bin bins k x).
Proof.
  intros Hk. destruct (nth_error_ex bins k) as [lo Hlo]; [lia|]. destruct (nth_error_ex bins (S k)) as [hi Hhi]; [lia|].
  unfold inb. rewrite Hlo, Hhi. apply hist_binb_spec; auto.
Qed.
Definition cnt (k : nat) (evs : list event) : num := Fin (IZR (Z.of_nat (count (fun v => inb k (ev_x v)) evs))).
Definition wgt (hw : bool) (k : nat) (evs : list event) : num :=
  if hw then Fin (wsum ev_w (fun v => inb k (ev_x v)) evs) else cnt k evs.
Lemma cnt_filter k e1 e2 : filter (fun v => inb k (ev_x v)) e1 = filter (fun v => inb k (ev_x v)) e2 -> cnt k e1 = cnt k e2.
Proof. unfold cnt, count. intros ->. auto. Qed.
Lemma wgt_filter hw k e1 e2 : filter (fun v => inb k (ev_x v)) e1 = filter (fun v => inb k (ev_x v)) e2 -> wgt hw k e1 = wgt hw k e2.
Proof. intros H. unfold wgt. destruct hw; [|apply cnt_filter; auto]. unfold wsum. rewrite H. auto. Qed.

Lemma bins_ne : bins <> [].
Proof using Hlen. intros E. rewrite E in Hlen. cbn in Hlen. lia. Qed.
Lemma counts_nth k evs : (k < length bins - 1)%nat ->
  nth_error (col_nums (CZ (diffZ (cum_counts ev_x evs bins)))) k = Some (cnt k evs).
Proof.
  intros Hk. destruct (nth_error_ex bins k) as [lo Hlo]; [lia|]. destruct (nth_error_ex bins (S k)) as [hi Hhi]; [lia|].
  cbn [col_nums]. rewrite nth_error_map, (hist_entry ev_x evs bins k lo hi); auto. cbn [option_map]. unfold cnt, inb. rewrite Hlo, Hhi. auto.
Qed.
Lemma weights_nth hw k evs : (k < length bins - 1)%nat ->
  nth_error (col_nums (weighted_col evs hw bins)) k = Some (wgt hw k evs).
Proof.
  intros Hk. unfold weighted_col, wgt. destruct hw; [|apply counts_nth; auto].
  destruct (nth_error_ex bins k) as [lo Hlo]; [lia|]. destruct (nth_error_ex bins (S k)) as [hi Hhi]; [lia|].
  cbn [col_nums]. rewrite nth_error_map, (hist_entry_w ev_x ev_w evs bins k lo hi); auto. cbn [option_map].
  unfold inb. rewrite Hlo, Hhi. auto.
Qed.

Definition q (e : opt_event) : bool := nge (o_offset e) mn && nlt (o_offset e) mx.
Definition ring (B : list opt_event) : list event := map o_ev (filter q B).
Definition size_ratio (thc thcut : list num) (c : num) : num :=
  ndiv (ncone (np_interp1 c thc thcut)) (nsub (ncone mx) (ncone mn)).
Definition center (k : nat) : num := nth k (bin_center bins) NaN.
Definition scaled (thc thcut : list num) (k : nat) (x : num) : num := ndiv (nmul x (size_ratio thc thcut (center k))) alpha.
Lemma ring_eq B : map bg_ev (filter (fun e => nge (bg_offset e) mn && nlt (bg_offset e) mx) (map (fun e => mkBg (o_ev e) (o_offset e)) B)) = ring B.
Proof. rewrite filter_map_comm, map_map. cbn. auto. Qed.

Lemma center_len : length (bin_center bins) = (length bins - 1)%nat.
Proof. clear. unfold bin_center. rewrite zipwith_length, but_last_length, tl_length'. lia. Qed.
Lemma center_at k : (k < length bins - 1)%nat -> nth_error (bin_center bins) k = Some (center k).
Proof. intros Hk. unfold center. destruct (nth_error_ex (bin_center bins) k) as [c Hc]; [rewrite center_len; auto|].
  rewrite Hc. f_equal. symmetry. apply nth_error_nth; auto. Qed.

(** labels that do not clash with the columns of the sensitivity table *)
Definition clean (B : list opt_event) : Prop := bp = true -> forall e, In e B ->
  ~ In (ev_p (o_ev e)) ["weighted"; "signal"; "signal_weighted"; "background"; "background_weighted"]%string.

Lemma hist_reserved hw hp evs n : In n reserved -> (hp = true -> forall e, In e evs -> ~ In (ev_p e) ["weighted"; "signal"; "signal_weighted"; "background"; "background_weighted"]%string) ->
  getitem (hist_table (mkEvents evs hw hp) bins "reco_energy") n = None.
Proof.
  intros Hr Hc. assert (Hb : getitem (base_table evs hw bins "reco_energy") n = None).
  { unfold reserved in Hr. cbn [In] in Hr. repeat (destruct Hr as [<-|Hr]; [reflexivity|]). destruct Hr. }
  unfold hist_table. cbn [et_rows et_has_weight et_has_ptype]. destruct hp; cbn [andb]; auto. destruct (negb _); auto.
  rewrite add_groups_other; auto. intros p Hp Hn. apply (proj1 (in_group_keys _ _)) in Hp. apply in_map_iff in Hp as (e & <- & He).
  apply (Hc eq_refl e He). eapply res_group; eauto.
Qed.
Lemma hist_edges ev : exists l h c,
  getitem (hist_table ev bins "reco_energy") "reco_energy_low" = Some (CN l) /\
  getitem (hist_table ev bins "reco_energy") "reco_energy_high" = Some (CN h) /\
  getitem (hist_table ev bins "reco_energy") "reco_energy_center" = Some (CN c) /\
  l = but_last bins /\ h = tl bins /\ c = bin_center bins.
Proof.
  exists (but_last bins), (tl bins), (bin_center bins).
  assert (G : forall name c, In name ["reco_energy_low"; "reco_energy_high"; "reco_energy_center"]%string ->
     getitem (base_table (et_rows ev) (et_has_weight ev) bins "reco_energy") name = Some c ->
     getitem (hist_table ev bins "reco_energy") name = Some c).
  { intros name c Hn Hb. unfold hist_table. destruct (_ && _); auto. rewrite add_groups_other; auto.
    intros p _ [H|[H|[]]]; rewrite <- H in Hn; cbn in Hn; intuition discriminate. }
  repeat split; apply G; cbn [In]; auto; reflexivity.
Qed.

Lemma scale_names names ratio a : forall t t', scale_columns names ratio a t = Ok t' ->
  (forall k, In k names -> In k (colnames t)) -> colnames t' = colnames t.
Proof.
  induction names as [|n names IH]; intros t t' H Hin; cbn [scale_columns] in H; [injection H as <-; auto|].
  unbind H. assert (En : forall c, colnames (setitem t n c) = colnames t).
  { intros c. pose proof (Hin n (or_introl eq_refl)) as Hn. clear -Hn. unfold colnames in *.
    induction t as [|[k x] t IH]; cbn [setitem map fst] in *; [destruct Hn|].
    destruct (String.eqb_spec n k) as [->|Hk]; cbn [map fst]; auto. f_equal. destruct Hn as [->|Hn]; [congruence|auto]. }
  rewrite (IH _ _ H); rewrite En; auto. intros k Hk. apply Hin. right; auto.
Qed.

(** the background table *)
Lemma bkg_ok B thc thcut : clean B -> thc <> [] -> length thc = length thcut -> exists t bn bwl,
  estimate_background (map (fun e => mkBg (o_ev e) (o_offset e)) B) bw bp bins thc thcut alpha mn mx = Ok t /\
  column t "n" bn /\ column t "n_weighted" bwl /\ length bn = (length bins - 1)%nat /\ length bwl = (length bins - 1)%nat /\
  (forall k, (k < length bins - 1)%nat -> nth_error bn k = Some (scaled thc thcut k (cnt k (ring B))) /\
     nth_error bwl k = Some (scaled thc thcut k (wgt bw k (ring B)))) /\
  (forall n, In n reserved -> ~ In n (colnames t)) /\ NoDup (colnames t) /\
  getitem t "reco_energy_low" = Some (CN (but_last bins)) /\ getitem t "reco_energy_high" = Some (CN (tl bins)) /\
  getitem t "reco_energy_center" = Some (CN (bin_center bins)).
Proof.
  intros Hcl Hne Hl. pose proof bins_ne as Hbne.
  unfold estimate_background. rewrite ring_eq. rewrite create_histogram_table_ok by auto. cbn [rbind].
  assert (Ei : np_interp (bin_center bins) thc thcut = Ok (map (fun x => np_interp1 x thc thcut) (bin_center bins))).
  { unfold np_interp. rewrite Hl, Nat.eqb_refl. destruct thc; [congruence|reflexivity]. }
  rewrite Ei. cbn [rbind]. rewrite !map_map.
  set (ratio := map (fun x => ndiv (ncone (np_interp1 x thc thcut)) (nsub (ncone mx) (ncone mn))) (bin_center bins)).
  set (h := hist_table (mkEvents (ring B) bw bp) bins "reco_energy").
  assert (Lr : length ratio = (length bins - 1)%nat) by (unfold ratio; rewrite map_length, center_len; auto).
  destruct (scale_columns_ok (filter (starts_with "n") (colnames h)) ratio alpha h) as (t & Ht & Hk).
  { apply NoDup_filter. apply hist_table_nodup. }
  { intros k Hk. apply filter_In in Hk. tauto. }
  { rewrite Lr. apply hist_table_length; auto. }
  assert (Hcol : colnames t = colnames h).
  { eapply scale_names; [exact Ht|]. intros k Hi. apply filter_In in Hi. tauto. }
  assert (Hrat : forall k, (k < length bins - 1)%nat -> nth_error ratio k = Some (size_ratio thc thcut (center k))).
  { intros k Hk'. unfold ratio. rewrite nth_error_map, (center_at k Hk'). auto. }
  assert (Hn : forall name c, starts_with "n" name = true -> getitem h name = Some c ->
    getitem t name = Some (CN (zipwith (fun x s => ndiv (nmul x s) alpha) (col_nums c) ratio))).
  { intros name c Es Hc. apply (proj2 (Hk name)); auto. apply filter_In. split; auto. apply getitem_in. eauto. }
  assert (He : forall name c, starts_with "n" name = false -> getitem h name = Some c -> getitem t name = Some c).
  { intros name c Es Hc. rewrite (proj1 (Hk name)); auto. intros Hi. apply filter_In in Hi as [_ Hi]. congruence. }
  assert (Gn : getitem h "n" = Some (CZ (diffZ (cum_counts ev_x (ring B) bins)))) by apply hist_n.
  assert (Hlab : bp = true -> forall e, In e (ring B) -> ~ In (ev_p e) ["weighted"; "signal"; "signal_weighted"; "background"; "background_weighted"]%string).
  { intros E e Hi. unfold ring in Hi. apply in_map_iff in Hi as (o & <- & Ho). apply filter_In in Ho as [Ho _]. apply Hcl; auto. }
  assert (Gw : getitem h "n_weighted" = Some (weighted_col (ring B) bw bins)).
  { apply (hist_nw (mkEvents (ring B) bw bp)). cbn [et_has_ptype et_rows]. intros E e Hi Ew. apply (Hlab E e Hi). rewrite Ew. cbn; auto. }
  eexists t, _, _. split; [exact Ht|]. split; [left; apply Hn; [reflexivity|exact Gn]|]. split; [left; apply Hn; [reflexivity|exact Gw]|].
  assert (Lc : length (col_nums (CZ (diffZ (cum_counts ev_x (ring B) bins)))) = (length bins - 1)%nat).
  { cbn [col_nums]. rewrite map_length. apply counts_length; auto. }
  split; [rewrite zipwith_length, Lc; lia|]. split; [rewrite zipwith_length, weighted_length by auto; lia|].
  split. { intros k Hk'. split; (erewrite zipwith_nth; [reflexivity| |apply Hrat; auto]); [apply counts_nth; auto|apply weights_nth; auto]. }
  split. { intros n Hr Hi. rewrite Hcol in Hi. apply getitem_in in Hi as [c Hc]. unfold h in Hc. rewrite hist_reserved in Hc; auto. discriminate. }
  split. { rewrite Hcol. apply hist_table_nodup. }
  destruct (hist_edges (mkEvents (ring B) bw bp)) as (l & hh & c & G1 & G2 & G3 & -> & -> & ->).
  split; [apply He; auto|]. split; apply He; auto.
Qed.
(** the signal table *)
Lemma sig_ok S : (sp = true -> forall e, In e S -> ev_p (o_ev e) <> "weighted"%string) -> exists t ns swl,
  create_histogram_table (mkEvents (map o_ev S) sw sp) bins "reco_energy" = Ok t /\
  column t "n" ns /\ column t "n_weighted" swl /\ length ns = (length bins - 1)%nat /\ length swl = (length bins - 1)%nat /\
  (forall k, (k < length bins - 1)%nat -> nth_error ns k = Some (cnt k (map o_ev S)) /\ nth_error swl k = Some (wgt sw k (map o_ev S))) /\
  getitem t "reco_energy_low" = Some (CN (but_last bins)) /\ getitem t "reco_energy_high" = Some (CN (tl bins)) /\
  getitem t "reco_energy_center" = Some (CN (bin_center bins)).
Proof.
  intros Hl. pose proof bins_ne as Hbne. rewrite create_histogram_table_ok by auto.
  eexists _, (col_nums (CZ (diffZ (cum_counts ev_x (map o_ev S) bins)))), (col_nums (weighted_col (map o_ev S) sw bins)).
  split; [reflexivity|]. split; [right; eexists; split; [apply hist_n|reflexivity]|].
  split. { assert (G : getitem (hist_table (mkEvents (map o_ev S) sw sp) bins "reco_energy") "n_weighted" = Some (weighted_col (map o_ev S) sw bins)).
    { apply (hist_nw (mkEvents (map o_ev S) sw sp)). cbn [et_has_ptype et_rows]. intros E e Hi. apply in_map_iff in Hi as (o & <- & Ho). auto. }
    unfold column. rewrite G. unfold weighted_col. destruct sw; [left; auto|right; eexists; split; reflexivity]. }
  split; [cbn [col_nums]; rewrite map_length; apply counts_length; auto|]. split; [apply weighted_length; auto|].
  split. { intros k Hk. split; [apply counts_nth; auto|apply weights_nth; auto]. }
  destruct (hist_edges (mkEvents (map o_ev S) sw sp)) as (l & hh & c & G1 & G2 & G3 & -> & -> & ->). auto.
Qed.

Definition rel1 (S B : list opt_event) (thc thcut : list num) (k : nat) : res num :=
  relative_sensitivity1 br sf
    (nadd (wgt sw k (map o_ev S)) (nmul alpha (scaled thc thcut k (wgt bw k (ring B)))))
    (scaled thc thcut k (wgt bw k (ring B))) alpha ms mse mex.

Lemma column_cell t name l k v : column t name l -> nth_error l k = Some v -> cell t name k v.
Proof.
  intros [G|(z & G & ->)] H; [exists (CN l); auto|]. exists (CZ z). split; auto. cbn. rewrite nth_error_map in H.
  destruct (nth_error z k) as [x|]; [|discriminate]. injection H as <-. eauto.
Qed.
Definition core_values (S B : list opt_event) (thc thcut : list num) (k : nat) (r : num) (name : string) : num :=
  let w := wgt sw k (map o_ev S) in let b := scaled thc thcut k (wgt bw k (ring B)) in
  if String.eqb name "reco_energy_low" then nth k bins NaN
  else if String.eqb name "reco_energy_high" then nth (Datatypes.S k) bins NaN
  else if String.eqb name "reco_energy_center" then center k
  else if String.eqb name "n_signal" then nmul (cnt k (map o_ev S)) r
  else if String.eqb name "n_signal_weighted" then nmul w r
  else if String.eqb name "n_background" then scaled thc thcut k (cnt k (ring B))
  else if String.eqb name "n_background_weighted" then b
  else if String.eqb name "significance" then sf (nadd (nmul w r) (nmul alpha b)) b alpha
  else r.

Lemma bins_edges k : (k < length bins - 1)%nat ->
  nth_error (but_last bins) k = Some (nth k bins NaN) /\ nth_error (tl bins) k = Some (nth (S k) bins NaN).
Proof.
  intros Hk. destruct (nth_error_ex bins k) as [lo Hlo]; [lia|]. destruct (nth_error_ex bins (S k)) as [hi Hhi]; [lia|].
  split. - rewrite (nth_but_last bins k lo Hlo) by lia. f_equal. symmetry. apply nth_error_nth; auto.
  - rewrite nth_tl, Hhi. f_equal. symmetry. apply nth_error_nth; auto.
Qed.
Lemma edges_not_nan l : l = but_last bins \/ l = tl bins \/ l = bin_center bins -> forall x, In x l -> is_nan x = false.
Proof.
  intros Hl x Hx. destruct Hl as [->|[->| ->]].
  - apply (proj1 Hnd). apply in_but_last; auto.
  - apply (proj1 Hnd). destruct bins; [destruct Hx|right; auto].
  - apply In_nth_error in Hx as [k Hk]. pose proof (nth_lt _ _ _ Hk) as Hkl. rewrite center_len in Hkl.
    destruct (nth_error_ex bins k) as [lo Hlo]; [lia|]. destruct (nth_error_ex bins (S k)) as [hi Hhi]; [lia|].
    rewrite (center_nth bins k lo hi Hlo Hhi) in Hk. assert (Hx : x = nmul (Fin (1/2)) (nadd lo hi)) by congruence. clear Hk. subst x.
    pose proof (proj2 Hnd k lo hi Hlo Hhi) as Hle. destruct (Hfin k lo hi Hlo Hhi) as [r Hr].
    destruct lo, hi; try discriminate Hle; try (destruct Hr; discriminate).
    all: first [rewrite center_num; reflexivity | rewrite center_inf; reflexivity | rewrite center_ninf; reflexivity].
Qed.

Lemma sens_ok S B thc thcut : (sp = true -> forall e, In e S -> ev_p (o_ev e) <> "weighted"%string) -> clean B ->
  thc <> [] -> length thc = length thcut ->
  (forall k, (k < length bins - 1)%nat -> exists r, rel1 S B thc thcut k = Ok r) ->
  exists s, selected_sensitivity br sf sa sw sp bw bp bins alpha mn mx ms mse mex S B thc thcut = Ok s /\ layout s /\
    forall k, (k < length bins - 1)%nat -> exists r, rel1 S B thc thcut k = Ok r /\
      forall name, In name core_columns -> cell s name k (core_values S B thc thcut k r name).
Proof.
  intros Hs Hb Hne Hl Hr.
  destruct (sig_ok S Hs) as (sh & ns & swl & Hsh & C1 & C2 & L1 & L2 & N1 & E1 & E2 & E3).
  destruct (bkg_ok B thc thcut Hb Hne Hl) as (bh & bn & bwl & Hbh & C3 & C4 & L3 & L4 & N2 & Res & Nod & F1 & F2 & F3).
  unfold selected_sensitivity. rewrite Hsh. cbn [rbind]. rewrite Hbh. cbn [rbind].
  destruct (c25_table br sf sa sh bh alpha ms mse mex ns swl bn bwl) as (t & nsig & nsw & sg & rel & Ht & Hed & T1 & T2 & T3 & T4 & T5 & T6 & R1 & R2 & R3 & R4 & _ & Hrow); auto; try lia.
  { intros name Hn. cbn [In] in Hn. destruct Hn as [<-|[<-|[<-|[]]]]; eexists; repeat split; eauto; apply edges_not_nan; auto. }
  { intros ->. cbn in L1. lia. }
  { intros i x y Hx Hy. assert (Hi : (i < length bins - 1)%nat) by (apply nth_lt in Hx; lia).
    destruct (N1 i Hi) as [_ M1]. destruct (N2 i Hi) as [_ M2]. rewrite Hx in M1. rewrite Hy in M2. injection M1 as ->. injection M2 as ->.
    apply (Hr i Hi). }
  exists t. split; auto. split. { eapply calc_layout; eauto. }
  intros k Hk. destruct (N1 k Hk) as [M1 M2]. destruct (N2 k Hk) as [M3 M4].
  destruct (Hrow k _ _ _ M1 M2 M4) as (r & Hrl & Er & V1 & V2 & V3). exists r. split; [exact Er|].
  destruct (bins_edges k Hk) as [B1 B2].
  intros name Hn. unfold core_columns in Hn. cbn [In] in Hn.
  destruct Hn as [<-|[<-|[<-|[<-|[<-|[<-|[<-|[<-|[<-|[]]]]]]]]]]; cbn [core_values String.eqb Ascii.eqb Bool.eqb].
  - exists (CN (but_last bins)). split; [rewrite Hed by (cbn; auto); auto|exact B1].
  - exists (CN (tl bins)). split; [rewrite Hed by (cbn; auto); auto|exact B2].
  - exists (CN (bin_center bins)). split; [rewrite Hed by (cbn; auto); auto|exact (center_at k Hk)].
  - eapply column_cell; eauto.
  - eapply column_cell; eauto.
  - eapply column_cell; eauto.
  - eapply column_cell; eauto.
  - eapply column_cell; eauto.
  - eapply column_cell; eauto.
Qed.
Lemma sens_inv S B thc thcut s : (sp = true -> forall e, In e S -> ev_p (o_ev e) <> "weighted"%string) -> clean B ->
  selected_sensitivity br sf sa sw sp bw bp bins alpha mn mx ms mse mex S B thc thcut = Ok s ->
  thc <> [] /\ length thc = length thcut /\ layout s /\
    forall k, (k < length bins - 1)%nat -> exists r, rel1 S B thc thcut k = Ok r /\
      forall name, In name core_columns -> cell s name k (core_values S B thc thcut k r name).
Proof.
  intros Hs Hb H.
  assert (Hth : thc <> [] /\ length thc = length thcut).
  { unfold selected_sensitivity in H. unbind H. unfold estimate_background in E0. unbind E0.
    match goal with E : np_interp _ _ _ = Ok _ |- _ => unfold np_interp in E; destruct thc; [discriminate|] ; split; [discriminate|];
      destruct (Nat.eqb_spec (length (n :: thc)) (length thcut)); [auto|discriminate] end. }
  destruct Hth as [Hne Hl]. split; auto. split; auto.
  assert (Hr : forall k, (k < length bins - 1)%nat -> exists r, rel1 S B thc thcut k = Ok r).
  { intros k Hk. destruct (rel1 S B thc thcut k) as [r|ex] eqn:E; [eauto|exfalso].
    destruct (sig_ok S Hs) as (sh & ns & swl & Hsh & C1 & C2 & L1 & L2 & N1 & _).
    destruct (bkg_ok B thc thcut Hb Hne Hl) as (bh & bn & bwl & Hbh & C3 & C4 & L3 & L4 & N2 & _).
    unfold selected_sensitivity in H. rewrite Hsh in H. cbn [rbind] in H. rewrite Hbh in H. cbn [rbind] in H.
    destruct (N1 k Hk) as [_ M1]. destruct (N2 k Hk) as [_ M2].
    eapply (c25_bad_bin br sf sa sh bh alpha ms mse mex swl bwl k _ _ ex); eauto; lia. }
  destruct (sens_ok S B thc thcut Hs Hb Hne Hl Hr) as (s' & Hs' & HH). rewrite H in Hs'. injection Hs' as <-. exact HH.
Qed.
End Bins.
