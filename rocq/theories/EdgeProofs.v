(** * EdgeProofs: edge columns, further results in double precision *)
From Coq Require Import String Ascii Reals List Bool ZArith Arith Lia Lra.
From Verif Require Gadf Eventdisplay.
From Verif Require Import Num Numpy Lists Table Binning SpecBinning BinningProofs BinningProofs2 HistProofs SpecEdges Statistics Double SpecDouble DoubleProofs LiMaDoubleProofs LiMaDouble2Proofs IRFDouble2Proofs
  HistDouble BinsDouble SpecBinsDouble BinsDoubleProofs.
Import ListNotations.
Notation length := List.length.
Open Scope R_scope.

Fixpoint lastc (s : string) (d : ascii) : ascii := match s with EmptyString => d | String c s' => lastc s' c end.
Lemma lastc_app k s d : lastc (k ++ s) d = lastc s (lastc k d).
Proof. revert d. induction k; cbn; auto. Qed.
Lemma end_neq a b : lastc a "000" <> lastc b "000" -> a <> b.
Proof. intros H ->. auto. Qed.
Definition edge_names (key : string) : list string := map (fun s => key ++ s)%string ["_low"; "_high"; "_center"]%string.
Lemma edge_not_n key name : In name (edge_names key) -> name <> "n"%string /\ name <> "n_weighted"%string.
Proof. intros [<-|[<-|[<-|[]]]]; split; apply end_neq; rewrite lastc_app; cbn; discriminate. Qed.
Lemma edge_not_group key labels p name : key_free key labels -> In p labels -> In name (edge_names key) -> ~ In name (names_of p).
Proof.
  intros K I N [H|[H|[]]].
  - apply in_map_iff in N as (s & E & N). apply (K p I s N). rewrite H. auto.
  - revert H. destruct N as [<-|[<-|[<-|[]]]]; apply end_neq; rewrite !lastc_app; cbn; discriminate.
Qed.
Lemma but_last_nth {A} (l : list A) k : (S k < length l)%nat -> nth_error (but_last l) k = nth_error l k.
Proof. revert k. induction l as [|x [|y l] IH]; intros [|k] H; cbn in *; try lia; auto. apply IH. cbn. lia. Qed.
Lemma edges_of_bins bins : edges_of bins (but_last bins) (tl bins).
Proof.
  split; [apply but_last_length|]. split; [destruct bins; cbn; lia|]. intros i a b Ha Hb. split.
  - rewrite but_last_nth; auto. assert (S i < List.length bins)%nat by (apply nth_error_Some; congruence). auto.
  - destruct bins; [destruct i; discriminate|]. auto.
Qed.
Lemma centres_gen (f : num -> num -> num) bins i a b : nth_error bins i = Some a -> nth_error bins (S i) = Some b -> nth_error (zipwith f (but_last bins) (tl bins)) i = Some (f a b).
Proof.
  revert i a b. induction bins as [|x [|y l] IH]; intros [|i] a b Ha Hb; try discriminate.
  - cbn in *. congruence.
  - cbn in Ha, Hb. cbn. apply IH; auto.
Qed.
Lemma centres_length (f : num -> num -> num) bins : List.length (zipwith f (but_last bins) (tl bins)) = (List.length bins - 1)%nat.
Proof. induction bins as [|x [|y l] IH]; auto. cbn in *. rewrite IH. lia. Qed.
Lemma add_groups_keeps evs hw bins keys hist t name : add_groups evs hw bins keys hist = Ok t -> (forall p, In p keys -> ~ In name (names_of p)) -> getitem t name = getitem hist name.
Proof.
  revert hist. induction keys as [|p keys IH]; intros hist; cbn [add_groups]; [intros [= <-]; auto|]. destruct (hist_columns _ _ _) as [nc|]; cbn [rbind]; [|discriminate]. intros E N.
  apply IH in E; [|intros q Hq; apply N; right; auto]. rewrite E. specialize (N p (or_introl eq_refl)). rewrite !getitem_setitem_neq; auto; intros Q; apply N; unfold names_of; rewrite Q; cbn; auto.
Qed.
Lemma add_groups_double_keeps argsort evs hw bins keys hist t name : add_groups_double argsort evs hw bins keys hist = Ok t -> (forall p, In p keys -> ~ In name (names_of p)) -> getitem t name = getitem hist name.
Proof.
  revert hist. induction keys as [|p keys IH]; intros hist; cbn [add_groups_double]; [intros [= <-]; auto|]. destruct (hist_columns_double _ _ _ _) as [nc|]; cbn [rbind]; [|discriminate]. intros E N.
  apply IH in E; [|intros q Hq; apply N; right; auto]. rewrite E. specialize (N p (or_introl eq_refl)). rewrite !getitem_setitem_neq; auto; intros Q; apply N; unfold names_of; rewrite Q; cbn; auto.
Qed.
Lemma three key : (key ++ "_low")%string <> (key ++ "_high")%string /\ (key ++ "_low")%string <> (key ++ "_center")%string /\ (key ++ "_high")%string <> (key ++ "_center")%string.
Proof. repeat split; apply end_neq; rewrite !lastc_app; cbn; discriminate. Qed.
Lemma base_columns key (lo hi c n w : col) : let t := setitem (setitem (setitem (setitem (setitem [] (key ++ "_low") lo) (key ++ "_high") hi) (key ++ "_center") c) "n" n) "n_weighted" w in
  getitem t (key ++ "_low") = Some lo /\ getitem t (key ++ "_high") = Some hi /\ getitem t (key ++ "_center") = Some c.
Proof.
  cbv zeta. destruct (three key) as (T1 & T2 & T3).
  destruct (edge_not_n key (key ++ "_low")) as [A1 A2]; [cbn; auto|]. destruct (edge_not_n key (key ++ "_high")) as [B1 B2]; [cbn; auto|]. destruct (edge_not_n key (key ++ "_center")) as [C1 C2]; [cbn; auto|].
  split; [|split].
  - rewrite (getitem_setitem_neq _ "n_weighted"), (getitem_setitem_neq _ "n"), (getitem_setitem_neq _ (key ++ "_center")), (getitem_setitem_neq _ (key ++ "_high")), getitem_setitem_eq; auto.
  - rewrite (getitem_setitem_neq _ "n_weighted"), (getitem_setitem_neq _ "n"), (getitem_setitem_neq _ (key ++ "_center")), getitem_setitem_eq; auto.
  - rewrite (getitem_setitem_neq _ "n_weighted"), (getitem_setitem_neq _ "n"), getitem_setitem_eq; auto.
Qed.
Lemma c05_edges ev bins key t : key_free key (map ev_p (et_rows ev)) -> create_histogram_table ev bins key = Ok t ->
  exists lo hi c, getitem t (key ++ "_low") = Some (CN lo) /\ getitem t (key ++ "_high") = Some (CN hi) /\ getitem t (key ++ "_center") = Some (CN c) /\
    edges_of bins lo hi /\ centres_of bins c.
Proof.
  intros K. unfold create_histogram_table. cbv zeta. destruct (hist_columns _ _ _) as [nc|]; cbn [rbind]; [|discriminate]. intros E.
  exists (but_last bins), (tl bins), (bin_center bins).
  assert (G : forall name, In name (edge_names key) -> getitem t name = getitem (setitem (setitem (setitem (setitem (setitem [] (key ++ "_low") (CN (but_last bins))) (key ++ "_high") (CN (tl bins))) (key ++ "_center") (CN (bin_center bins))) "n" (CZ (fst nc))) "n_weighted" (snd nc)) name).
  { intros name I. destruct (et_has_ptype ev && _)%bool; [|injection E as <-; reflexivity]. eapply add_groups_keeps; [exact E|]. intros p Hp. apply (proj1 (in_group_keys _ _)) in Hp. exact (edge_not_group key _ p name K Hp I). }
  destruct (base_columns key (CN (but_last bins)) (CN (tl bins)) (CN (bin_center bins)) (CZ (fst nc)) (snd nc)) as (H1 & H2 & H3).
  rewrite !G by (cbn; auto). split; [auto|]. split; [auto|]. split; [auto|]. split; [apply edges_of_bins|]. split; [apply centres_length|].
  intros i a b Ha Hb. unfold bin_center. rewrite (centres_gen _ bins i a b Ha Hb). destruct a as [x| | |], b as [y| | |]; auto; cbn.
  - f_equal. f_equal. field.
  - unfold inf_signed. repeat first [rewrite (proj2 (Rltb_true 0 (1/2))) by lra | destruct (Reqb (1 / 2) 0) eqn:Q; [apply Reqb_true in Q; lra|]]. auto.
  - unfold inf_signed. repeat first [rewrite (proj2 (Rltb_true 0 (1/2))) by lra | destruct (Reqb (1 / 2) 0) eqn:Q; [apply Reqb_true in Q; lra|]]. auto.
Qed.
Lemma c76_edges argsort ev edges key t : key_free key (map ev_p (et_rows ev)) -> create_histogram_table_double argsort ev (map Fin edges) key = Ok t ->
  exists lo hi c, getitem t (key ++ "_low") = Some (CN lo) /\ getitem t (key ++ "_high") = Some (CN hi) /\ getitem t (key ++ "_center") = Some (CN c) /\
    edges_of (map Fin edges) lo hi /\ c = bin_center_double (map Fin edges).
Proof.
  intros K. unfold create_histogram_table_double. cbv zeta. set (bins := map Fin edges). destruct (hist_columns_double _ _ _ _) as [nc|]; cbn [rbind]; [|discriminate]. intros E.
  exists (but_last bins), (tl bins), (bin_center_double bins).
  assert (G : forall name, In name (edge_names key) -> getitem t name = getitem (setitem (setitem (setitem (setitem (setitem [] (key ++ "_low") (CN (but_last bins))) (key ++ "_high") (CN (tl bins))) (key ++ "_center") (CN (bin_center_double bins))) "n" (CZ (fst nc))) "n_weighted" (snd nc)) name).
  { intros name I. destruct (et_has_ptype ev && _)%bool; [|injection E as <-; reflexivity]. eapply add_groups_double_keeps; [exact E|]. intros p Hp. apply (proj1 (in_group_keys _ _)) in Hp. exact (edge_not_group key _ p name K Hp I). }
  destruct (base_columns key (CN (but_last bins)) (CN (tl bins)) (CN (bin_center_double bins)) (CZ (fst nc)) (snd nc)) as (H1 & H2 & H3).
  rewrite !G by (cbn; auto). split; [auto|]. split; [auto|]. split; [auto|]. split; [apply edges_of_bins|auto].
Qed.
(** ** percentiles outside of 0..100 *)
Lemma double_m : double (-1 / 128).
Proof. exists (-1)%Z, (-7)%Z. split; [lia|]. split; [lia|]. unfold powerRZ. assert (E : 2 ^ Pos.to_nat 7 = 128) by (simpl; ring). rewrite E. lra. Qed.
Lemma double_p : double (1025 / 1024).
Proof. exists 1025%Z, (-10)%Z. split; [lia|]. split; [lia|]. unfold powerRZ. assert (E : 2 ^ Pos.to_nat 10 = 1024) by (simpl; ring). rewrite E. lra. Qed.
Lemma c77_percentile_range l p : p <= -1 \/ 101 <= p -> nanpercentile_double l (Fin p) = Err ValueError.
Proof.
  intros H. unfold nanpercentile_double, percentile_double. rewrite fdiv_fin by lra.
  assert (E : (nle (Fin 0) (fl (p / 100)) && nle (fl (p / 100)) (Fin 1))%bool = false); [|cbv zeta; rewrite E; auto].
  destruct (fl (p / 100)) as [r| | |] eqn:E; auto. cbn [nle]. apply andb_false_iff. rewrite !Rleb_false. destruct H as [H|H].
  - left. pose proof (fl_le _ _ _ E double_m). lra.
  - right. pose proof (fl_ge _ _ _ E double_p). lra.
Qed.
Lemma c74_shape log x b alpha : exists s,
  li_ma_significance_double log (Sc x) (Sc b) alpha = Ok (Sc s) /\ li_ma_significance_double log (Sc x) (Ar [b]) alpha = Ok (Sc s) /\
  li_ma_significance_double log (Ar [x]) (Sc b) alpha = Ok (Ar [s]) /\ li_ma_significance_double log (Ar [x]) (Ar [b]) alpha = Ok (Ar [s]).
Proof. exists (li_ma_double log x b alpha). repeat split; reflexivity. Qed.
Lemma c74_lengths log on off alpha : length on <> length off ->
  li_ma_significance_double log (Ar on) (Ar off) alpha = Err (if (Nat.eqb (length on) 1 || Nat.eqb (length off) 1)%bool then IndexError else ValueError).
Proof. intros H. unfold li_ma_significance_double. cbn [atleast_1d]. apply Nat.eqb_neq in H. rewrite H. destruct (_ || _)%bool; auto. Qed.
Lemma edges_overwritten : exists t, create_histogram_table (mkEvents [mkEvent (Fin 1) 1 "low"] false true) [Fin 0; Fin 2] "n" = Ok t /\
  getitem t "n_low" = Some (CZ [1%Z]).
Proof.
  assert (Hnd : nondecreasing [Fin 0; Fin 2]).
  { split; [intros e [<-|[<-|[]]]; reflexivity|]. intros [|[|i]] a b Ha Hb; simpl in *; try discriminate;
      try (destruct i; discriminate).
    injection Ha as <-; injection Hb as <-. simpl. rsolve; auto. }
  eexists. split; [apply create_histogram_table_ok; auto; discriminate|].
  unfold hist_table. cbn -[diffZ].
  assert (E : nth_error (diffZ (cum_counts ev_x [mkEvent (Fin 1) 1 "low"] [Fin 0; Fin 2])) 0 = Some 1%Z).
  { erewrite hist_entry; [|exact Hnd|reflexivity|reflexivity].
    unfold hist_binb. simpl. rewrite count_cons. simpl. rsolve. reflexivity. }
  pose proof (hist_length ev_x [mkEvent (Fin 1) 1 "low"] [Fin 0; Fin 2] ltac:(discriminate)) as L.
  destruct (diffZ (cum_counts ev_x [mkEvent (Fin 1) 1 "low"] [Fin 0; Fin 2])) as [|z [|]] eqn:Ez;
    simpl in L; try discriminate. simpl in E. inversion E; subst.
  unfold group. simpl. unfold np_lt. simpl. rsolve. reflexivity.
Qed.
Lemma c62_units_apart : NoDup (map u_dim [one_unit; Gadf.u_TeV; Gadf.u_deg; Gadf.u_m2; Gadf.u_per_sr; Gadf.u_background; Eventdisplay.u_m]) /\
  u_dim Gadf.u_TeV = Binning.energy_dim /\
  Forall (fun u => u_scale u = 1) [one_unit; Gadf.u_TeV; Gadf.u_deg; Gadf.u_m2; Gadf.u_per_sr; Gadf.u_background; Eventdisplay.u_m].
Proof. split; [repeat constructor; cbn; intuition discriminate|]. split; [reflexivity|]. repeat constructor. Qed.
From Verif Require Estimators Aliasing.
Import Estimators Aliasing.
Lemma c67_wrong_class (h : heap) gp b dim points i e : base_init gp = Ok (dim, points) -> length points = length (read_rows h b) ->
  class_with false true i \/ (class_with true false i /\ (forall ps ts, exists g, create (as_method i) ps ts = Ok g) /\ exists e', e = Some e' /\ class_with true false e') ->
  exists h', init_obj h gp b i e = (h', Err TypeError).
Proof.
  intros B L C. unfold init_obj. rewrite B, L, Nat.eqb_refl. destruct (if Nat.eqb dim 1 then _ else _) as (h1, b1).
  destruct C as [C|(C & K & e' & -> & C')].
  - exists h1. destruct C as [(f & ->)|[(pick & o & f & ->)|(f & ->)]]; reflexivity.
  - exists h1. assert (I : is_interpolator (as_method i) = true) by (destruct C as [(f & ->)|[(pick & o & f & ->)|(f & ->)]]; reflexivity). rewrite I.
    assert (X : exists oi, construct h1 i (map fst (sort_points dim points (read_rows h b))) b1 = Ok oi).
    { unfold construct. destruct C as [(f & ->)|[(pick & o & f & ->)|(f & ->)]]; eauto.
      destruct (K (map fst (sort_points dim points (read_rows h b))) (read_rows h1 b1)) as (g & Hg). cbn in Hg. rewrite Hg. cbn. eauto. }
    destruct X as (oi & ->). destruct C' as [(f & ->)|[(pick & o & f & ->)|(f & ->)]]; reflexivity.
Qed.
