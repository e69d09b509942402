(** * SensUnitsProofs2: estimate_background does not depend on units *)
From Coq Require Import String Ascii Reals List Bool ZArith Arith Lia Lra.
From Verif Require Import Num Numpy Lists Table Binning Utils Simulations Sensitivity Quantities SpectralUnits SimulationUnits IRFUnits SensitivityUnits
  SpecUnits SpecIRFUnits SpecSensUnits BinningProofs HistProofs SpectralUnitsProofs SpectralUnitsProofs2 SimulationUnitsProofs IRFUnitsProofs SensUnitsProofs.
From Verif Require CutUnitsProofs.
Import ListNotations.
Open Scope R_scope.

(** ** scaling *)
Lemma sc_cut c x : sc c x = CutUnitsProofs.sc c x.
Proof. apply nmul_comm_. Qed.
Lemma nlt_sc c x y : 0 < c -> nlt (sc c x) (sc c y) = nlt x y.
Proof. rewrite !sc_cut. apply CutUnitsProofs.nlt_sc. Qed.
Lemma nle_sc c x y : 0 < c -> nle (sc c x) (sc c y) = nle x y.
Proof. rewrite !sc_cut. apply CutUnitsProofs.nle_sc. Qed.
Lemma neqb_sc c x y : 0 < c -> neqb (sc c x) (sc c y) = neqb x y.
Proof. rewrite !sc_cut. apply neqb_scale. Qed.
Lemma div_sc c d x y : 0 < c -> 0 < d -> ndiv (sc c x) (sc d y) = sc (c / d) (ndiv x y).
Proof. rewrite !sc_cut. apply CutUnitsProofs.div_sc. Qed.
Lemma mul_sc c d x y : 0 < c -> 0 < d -> nmul (sc c x) (sc d y) = sc (c * d) (nmul x y).
Proof.
  intros C D. assert (0 < c * d) by (apply Rmult_lt_0_compat; auto). unfold sc.
  destruct x as [a| | |], y as [b| | |]; cbn [nmul]; rewrite ?inf_signed_pos by auto; cbn [nmul]; rewrite ?inf_signed_pos by auto; auto; [f_equal; ring|..];
    unfold inf_signed; repeat match goal with |- context [Reqb ?p ?q] => destruct (Reqb_spec p q) end; repeat match goal with |- context [Rltb ?p ?q] => destruct (Rltb_spec p q) end; auto; try nra; cbn [nmul]; rewrite ?inf_signed_pos by auto; auto.
Qed.
Lemma sc_sc c d x : 0 < c -> 0 < d -> sc d (sc c x) = sc (c * d) x.
Proof. intros. unfold sc. apply SpectralUnitsProofs.nmul_assoc_fin; auto. Qed.
Lemma interp_seg_sc c d x xp fp : 0 < c -> 0 < d -> np_interp_seg (sc c x) (map (sc c) xp) (map (sc d) fp) = sc d (np_interp_seg x xp fp).
Proof.
  intros C D. revert fp. induction xp as [|x0 xp IH]; intros fp; [reflexivity|]. destruct fp as [|f0 fp]; [destruct xp; reflexivity|].
  destruct xp as [|x1 xp]; [reflexivity|]. destruct fp as [|f1 fp]; [reflexivity|]. specialize (IH (f1 :: fp)).
  cbn [map np_interp_seg] in *. rewrite nlt_sc, neqb_sc by auto. destruct (nlt x x1); [|exact IH]. destruct (neqb x0 x); [reflexivity|].
  rewrite !nsub_sc by auto. rewrite div_sc by auto. rewrite !mul_sc by (auto; apply Rdiv_lt_0_compat; auto). replace (d / c * c) with d by (field; lra).
  rewrite !nadd_sc, !IRFUnitsProofs.is_nan_sc, neqb_sc by auto. destruct (is_nan _); [|reflexivity]. destruct (_ && _); reflexivity.
Qed.
Lemma interp_sc c d xs xp fp : 0 < c -> 0 < d ->
  Sensitivity.np_interp (map (sc c) xs) (map (sc c) xp) (map (sc d) fp) = (do r <- Sensitivity.np_interp xs xp fp; Ok (map (sc d) r)).
Proof.
  intros C D. unfold Sensitivity.np_interp. destruct xp as [|x0 xp]; [reflexivity|]. change (map (sc c) (x0 :: xp)) with (sc c x0 :: map (sc c) xp). cbv iota.
  change (sc c x0 :: map (sc c) xp) with (map (sc c) (x0 :: xp)). rewrite !map_length. destruct (Nat.eqb _ _); [|reflexivity]. cbn [rbind]. f_equal. rewrite !map_map. apply map_ext. intros x.
  unfold np_interp1. destruct fp as [|f0 fp]; [reflexivity|]. cbn [map]. rewrite IRFUnitsProofs.is_nan_sc, nlt_sc by auto. destruct (is_nan x); [reflexivity|]. destruct (nlt x x0); [reflexivity|].
  apply (interp_seg_sc c d x (x0 :: xp) (f0 :: fp)); auto.
Qed.

(** ** selecting rows *)
Lemma mask_map {A B} (f : A -> B) mask l : mask_rows mask (map f l) = map f (mask_rows mask l).
Proof.
  unfold mask_rows. revert l. induction mask as [|b mask IH]; intros [|a l]; try reflexivity. cbn [map combine filter fst]. destruct b; cbn [map snd]; rewrite IH; reflexivity.
Qed.
Lemma mask_filter {A} (p : A -> bool) l : mask_rows (map p l) l = filter p l.
Proof. unfold mask_rows. induction l as [|a l IH]; [reflexivity|]. cbn [map combine filter fst]. destruct (p a); cbn [map snd]; rewrite IH; reflexivity. Qed.
Lemma mask_length {A} mask (l : list A) : List.length l = List.length mask -> List.length (mask_rows mask l) = List.length (filter (fun b => b) mask).
Proof.
  unfold mask_rows. revert l. induction mask as [|b mask IH]; intros [|a l] H; try discriminate; [reflexivity|]. cbn [combine filter fst]. injection H as H. destruct b; cbn [map List.length]; rewrite IH; auto.
Qed.
Lemma rows_where t (evs : list bg_event) p : has_rows t (List.length evs) -> has_rows (q_rows_where t (map p evs)) (List.length (filter p evs)).
Proof.
  intros (H1 & H2 & H3 & H4 & H5 & H6). assert (L : List.length (filter p evs) = List.length (filter (fun b => b) (map p evs))).
  { rewrite <- (mask_filter p evs). apply mask_length. rewrite map_length. reflexivity. }
  unfold q_rows_where. split; [|split; [|split; [|split; [|split]]]]; cbn [qe_rows qe_columns qe_weight qe_ptype].
  - symmetry. exact L.
  - rewrite map_map. cbn [fst]. exact H2.
  - intros name l I. apply in_map_iff in I as ([n c] & E & I). cbn [fst snd] in E. destruct c as [l0|a]; [|discriminate]. injection E as <- <-. rewrite L. apply mask_length. rewrite map_length. eauto.
  - intros name l u I. apply in_map_iff in I as ([n c] & E & I). cbn [fst snd] in E. destruct c as [l0|[a v]]; [discriminate|]. injection E as <- <- <-. rewrite L. apply mask_length. rewrite map_length. cbn [qa_val]. eauto.
  - intros w E. destruct (qe_weight t) as [w0|]; [|discriminate]. injection E as <-. rewrite L. apply mask_length. rewrite map_length. eauto.
  - intros w E. destruct (qe_ptype t) as [w0|]; [|discriminate]. injection E as <-. rewrite L. apply mask_length. rewrite map_length. eauto.
Qed.
Lemma column_where t (evs : list bg_event) p name d k (f : bg_event -> num) : has_column t name d k (map f evs) -> has_column (q_rows_where t (map p evs)) name d k (map f (filter p evs)).
Proof.
  intros (l & u & I & U & E). exists (mask_rows (map p evs) l), u. split.
  - unfold q_rows_where. cbn [qe_columns]. apply in_map_iff. exists (name, AQty (mkQA l u)). split; [reflexivity|exact I].
  - split; [exact U|]. rewrite <- mask_map, <- E, mask_map, mask_filter. reflexivity.
Qed.
(** ** solid angles *)
Lemma ncone_val x : match x with Fin r => Fin (cone_solid_angle r) | _ => NaN end = ncone x.
Proof. destruct x; reflexivity. Qed.
Lemma cone_entry w x : unit_of angle_dim w -> q_cone_solid_angle (Qty (mkQ x w)) = Ok (mkQ (ncone (sc (qu_scale w) x)) sr).
Proof.
  intros [D S]. unfold q_cone_solid_angle, to_value. cbn [q_unit q_val]. rewrite D. change (qu_dim rad) with angle_dim. rewrite deqb_refl. cbn [rbind]. rewrite ncone_val.
  unfold sc. cbn [rad qu_scale]. replace (qu_scale w / 1) with (qu_scale w) by field. reflexivity.
Qed.
Lemma rmap_ok {A B C} (f : A -> res B) (g : C -> A) (h : C -> B) l : (forall x, f (g x) = Ok (h x)) -> rmap f (map g l) = Ok (map h l).
Proof. intros H. induction l as [|a l IH]; [reflexivity|]. cbn [map rmap]. rewrite H. cbn [rbind]. rewrite IH. reflexivity. Qed.
Lemma ratio_one x y : to_value (qdiv (mkQ x sr) (mkQ y sr)) one_ = Ok (ndiv x y).
Proof.
  unfold qdiv, to_value. cbn [q_unit q_val]. replace (deqb (qu_dim (udiv sr sr)) (qu_dim one_)) with true.
  2:{ symmetry. apply deqb_true. unfold udiv. cbn. unfold dmul, dpow, dnone. cbn. f_equal; lra. }
  replace (qu_scale (udiv sr sr) / qu_scale one_) with 1 by (cbn; field). rewrite IRFUnitsProofs.nmul_1. reflexivity.
Qed.
Lemma sub_sr' x y : qsub (mkQ x sr) (mkQ y sr) = Ok (mkQ (nsub x y) sr).
Proof.
  unfold qsub, to_value. cbn [q_unit q_val]. rewrite deqb_refl. cbn [rbind]. replace (qu_scale sr / qu_scale sr) with 1 by (cbn; field). rewrite IRFUnitsProofs.nmul_1. reflexivity.
Qed.
(** ** scaling of the columns *)
Lemma n_prefix k : starts_with "n" k = true -> exists s, k = String "n"%char s.
Proof. unfold starts_with. destruct k as [|a s]; [discriminate|]. cbn [prefix]. destruct (ascii_dec "n" a) as [<- |]; [eauto|discriminate]. Qed.
Lemma scale_rel c names ratio alpha t t' : (forall k, In k names -> ~ In k edges3) -> rel c t t' -> rrel c (scale_columns names ratio alpha t) (scale_columns names ratio alpha t').
Proof.
  revert t t'. induction names as [|k names IH]; intros t t' Hn R; [exact R|]. cbn [scale_columns]. rewrite (rel_get c t t' k) by (auto; apply Hn; left; auto).
  destruct (get_col t' k) as [x|e]; cbn [rbind]; [|reflexivity]. destruct (np_zip _ _ _) as [m|e]; cbn [rbind]; [|reflexivity]. apply IH; [intros; apply Hn; right; auto|]. apply rel_set; [apply Hn; left; auto|exact R].
Qed.
(** ** the ring *)
Lemma compare_ok f l u (vals : list num) q y : (forall c x y, 0 < c -> f (sc c x) (sc c y) = f x y) -> numbers angle_dim 1 l u vals -> in_radian q y ->
  compare_column f (AQty (mkQA l u)) q = Ok (map (fun x => f x y) vals).
Proof.
  intros Hf [[D S] ->] [[Dq Sq] ->]. unfold compare_column, to_value. cbn [qa_unit qa_val]. rewrite Dq, D, deqb_refl. cbn [rbind]. f_equal. rewrite map_map. apply map_ext. intros x.
  change (nmul x (Fin (qu_scale u / 1))) with (sc (qu_scale u / 1) x). replace (qu_scale u / 1) with (qu_scale u) by field.
  rewrite <- (Hf (qu_scale u)) by auto. f_equal. change (sc (qu_scale u) (sc (qu_scale (q_unit q) / qu_scale u) (q_val q)) = sc (qu_scale (q_unit q)) (q_val q)).
  rewrite sc_sc by (auto; apply Rdiv_lt_0_compat; auto). f_equal. field. lra.
Qed.
Lemma zip_and {A} (f g : A -> bool) l : zipwith andb (map f l) (map g l) = map (fun x => f x && g x) l.
Proof. induction l as [|a l IH]; [reflexivity|]. cbn [map zipwith]. rewrite IH. reflexivity. Qed.
Theorem estimate_same t (evs : list bg_event) (hw hp : bool) b v b' ce vc ce' cut w cut' alpha mn mx mn' mx' :
  has_rows t (List.length evs) -> has_column t "reco_energy" energy_dim tev (map (fun e => ev_x (bg_ev e)) evs) -> has_column t "reco_source_fov_offset" angle_dim 1 (map bg_offset evs) ->
  qe_weight t = (if hw then Some (map (fun e => ev_w (bg_ev e)) evs) else None) -> qe_ptype t = (if hp then Some (map (fun e => ev_p (bg_ev e)) evs) else None) ->
  numbers energy_dim tev b v b' -> numbers energy_dim tev ce vc ce' -> numbers angle_dim 1 cut w cut' -> in_radian mn mn' -> in_radian mx mx' ->
  same_histogram (q_estimate_background t (AQty (mkQA b v)) (AQty (mkQA ce vc)) (AQty (mkQA cut w)) alpha mn mx)
    (estimate_background evs hw hp b' ce' cut' alpha mn' mx').
Proof.
  intros Hr He Ho Hw Hp Hb Hc Ht Hmn Hmx. pose proof tev_pos as TP. unfold q_estimate_background, estimate_background.
  destruct Ho as (l & u & I & Ho). rewrite (get_column_ok _ _ _ _ Hr I). cbn [rbind].
  rewrite (compare_ok nge l u _ _ _) with (3 := Hmn) by (exact Ho || (intros; unfold nge; apply nle_sc; auto)). cbn [rbind].
  rewrite (compare_ok nlt l u _ _ _) with (3 := Hmx) by (exact Ho || (intros; apply nlt_sc; auto)). cbn [rbind]. rewrite zip_and, map_map.
  set (ring := fun e => nge (bg_offset e) mn' && nlt (bg_offset e) mx').
  pose proof (rows_where t evs ring Hr) as Hr'. pose proof (column_where t evs ring _ _ _ _ He) as He'.
  assert (Q : same_histogram (q_create_histogram_table (q_rows_where t (map ring evs)) (AQty (mkQA b v))) (create_histogram_table (mkEvents (map bg_ev (filter ring evs)) hw hp) b' "reco_energy")).
  { apply q_create_same; auto.
    - rewrite map_length. exact Hr'.
    - rewrite map_map. exact He'.
    - unfold q_rows_where. cbn [qe_weight]. rewrite Hw. destruct hw; [|reflexivity]. cbn [option_map]. rewrite mask_map, mask_filter, map_map. reflexivity.
    - unfold q_rows_where. cbn [qe_ptype]. rewrite Hp. destruct hp; [|reflexivity]. cbn [option_map]. rewrite mask_map, mask_filter, map_map. reflexivity. }
  destruct (q_create_histogram_table _ _) as [[h uh]|e] eqn:Eh; destruct (create_histogram_table _ b' _) as [h'|e'] eqn:Eh'; cbn [same_histogram rbind] in *; try tauto.
  apply same_rel in Q as (U & R). cbn [fst snd].
  cbn [plain_unit qa_val qa_unit fst snd].
  destruct Hb as ((Dv & Sv) & ->). destruct Hc as ((Dc & Sc) & ->). destruct Ht as ((Dw & Sw) & ->).
  assert (X : Sensitivity.np_interp (bin_center (map (sc (qu_scale v / tev)) b)) (map (sc (qu_scale vc / tev)) ce) (map (sc (qu_scale w / 1)) cut) =
    do r <- q_interp (bin_center b, v) (ce, vc) cut; Ok (map (sc (qu_scale w)) r)).
  { assert (0 < qu_scale v / tev) by (apply Rdiv_lt_0_compat; auto). rewrite center_sc by auto. unfold q_interp. cbn [fst snd]. rewrite Dc, Dv, deqb_refl.
    replace (qu_scale w / 1) with (qu_scale w) by field. rewrite <- (interp_sc (qu_scale v / tev)) by auto. f_equal.
    change (fun e => nmul e (Fin (qu_scale vc / qu_scale v))) with (sc (qu_scale vc / qu_scale v)). rewrite map_sc_sc by (auto; apply Rdiv_lt_0_compat; auto).
    f_equal. f_equal. field. lra. }
  unfold sc in X at 1 2 3. rewrite X. destruct (q_interp _ _ _) as [theta|e]; cbn [rbind same_histogram]; [|reflexivity].
  replace theta with (map (fun x : num => x) theta) at 1 by apply map_id. rewrite (rmap_ok _ (fun x => x) (fun x => mkQ (ncone (sc (qu_scale w) x)) sr)).
  2:{ intros x. apply cone_entry. split; auto. }
  cbn [rbind]. destruct Hmn as [Umn ->], Hmx as [Umx ->]. destruct mn as [mn un], mx as [mx ux]. cbn [q_unit q_val] in *. rewrite (cone_entry ux mx Umx). cbn [rbind]. rewrite (cone_entry un mn Umn). cbn [rbind].
  rewrite sub_sr'. cbn [rbind]. rewrite (rmap_ok _ (fun x => mkQ (ncone (sc (qu_scale w) x)) sr) (fun x => ndiv (ncone (sc (qu_scale w) x)) (nsub (ncone (sc (qu_scale ux) mx)) (ncone (sc (qu_scale un) mn))))).
  2:{ intros x. apply ratio_one. }
  cbn [rbind]. rewrite !map_map.
  assert (S := scale_rel (qu_scale uh / tev) (filter (starts_with "n") (colnames h)) (map (fun x => ndiv (ncone (sc (qu_scale w) x)) (nsub (ncone (sc (qu_scale ux) mx)) (ncone (sc (qu_scale un) mn)))) theta) alpha h h').
  rewrite <- (proj1 R). fold (sc (qu_scale ux) mx) (sc (qu_scale un) mn).
  destruct (scale_columns _ _ _ h) as [r|e]; destruct (scale_columns _ _ _ h') as [r'|e']; cbn [rbind rrel same_histogram] in *; try (apply S; auto; intros k Hk; apply filter_In in Hk as [_ Hk]; apply n_prefix in Hk as [s ->]; apply n_edge).
  apply same_rel. split; [exact U|]. apply S; auto. intros k Hk; apply filter_In in Hk as [_ Hk]; apply n_prefix in Hk as [s ->]; apply n_edge.
Qed.
