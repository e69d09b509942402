(** * CutListsProofs: a Python list of theta efficiencies *)
From Coq Require Import String Reals List Bool ZArith Lia Lra.
From Verif Require Import Num Numpy Table Binning Percentile Cuts Utils Sensitivity CutOptimization CutOptimizationLists.
Import ListNotations.
Open Scope R_scope.

Lemma rbind_ext {A B} (r : res A) (f g : A -> res B) : (forall a, r = Ok a -> f a = g a) -> rbind r f = rbind r g.
Proof. destruct r; cbn; auto. Qed.
Lemma rmap_app_res {A B} (f : A -> res B) l m : rmap f (l ++ m) = (do a <- rmap f l; do b <- rmap f m; Ok (a ++ b)).
Proof.
  induction l as [|x l IH]; cbn; [destruct (rmap f m); reflexivity|]. destruct (f x); cbn; [|reflexivity]. rewrite IH.
  destruct (rmap f l); cbn; [|reflexivity]. destruct (rmap f m); reflexivity.
Qed.
Lemma rmap_times {A B} (f : A -> res B) l n : rmap f (list_times (S n) l) = (do a <- rmap f l; Ok (list_times (S n) a)).
Proof.
  unfold list_times. induction n as [|n IH].
  - cbn. rewrite rmap_app_res. cbn. destruct (rmap f l); cbn; reflexivity.
  - change (concat (repeat l (S (S n)))) with (l ++ concat (repeat l (S n))). rewrite rmap_app_res, IH.
    destruct (rmap f l); cbn; reflexivity.
Qed.
Lemma rmap_len {A B} (f : A -> res B) l m : rmap f l = Ok m -> length m = length l.
Proof.
  revert m. induction l as [|x l IH]; cbn; intros m E; [inversion E; reflexivity|]. destruct (f x); cbn in E; [|discriminate].
  destruct (rmap f l); cbn in E; [|discriminate]. inversion E. cbn. now rewrite (IH _ eq_refl).
Qed.
Lemma times_length {A} n (l : list A) : length (list_times n l) = (n * length l)%nat.
Proof. unfold list_times. induction n; cbn; [reflexivity|]. rewrite app_length, IHn. reflexivity. Qed.
Lemma nth_times {A} n (l : list A) j d : (j < length l)%nat -> nth j (list_times (S n) l) d = nth j l d.
Proof. intros H. unfold list_times. cbn. now rewrite app_nth1. Qed.
Lemma repeat_times {A} n k (x : A) : list_times n (repeat x k) = repeat x (n * k)%nat.
Proof. unfold list_times. induction n; cbn; [reflexivity|]. now rewrite IHn, repeat_app. Qed.
Lemma list_set_map {A B} (f : A -> B) l i x : map f (list_set l i x) = list_set (map f l) i (f x).
Proof. revert i. induction l; destruct i; cbn; auto. now rewrite IHl. Qed.
Lemma list_set_Forall {A} (P : A -> Prop) l i x : Forall P l -> P x -> Forall P (list_set l i x).
Proof. intros H Hx. revert i. induction H; destruct i; cbn; constructor; auto. Qed.

Definition many (l : list num) : list num := list_times 100 l.
Lemma group_cut_many lo hi fill me ps g : group_cut false fill lo hi me (list_times 100 ps) g =
  (do c <- group_cut false fill lo hi me ps g; Ok (many c)).
Proof. unfold group_cut, many. destruct (Z.ltb _ _); apply rmap_times. Qed.
Lemma group_cut_len b lo hi fill me ps g c : group_cut b fill lo hi me ps g = Ok c -> length c = length ps.
Proof. unfold group_cut. destruct (Z.ltb _ _); apply rmap_len. Qed.
Lemma cut_loop_many lo hi fill me ps values idx valid keys : forall n rows,
  cut_loop false fill lo hi me (list_times 100 ps) values idx valid keys (n, map many rows) =
  (do a <- cut_loop false fill lo hi me ps values idx valid keys (n, rows); Ok (fst a, map many (snd a))).
Proof.
  induction keys as [|k keys IH]; intros n rows; [reflexivity|]. cbn [cut_loop]. rewrite group_cut_many.
  destruct (group_cut false fill lo hi me ps _) as [c|e]; cbn [rbind]; [|reflexivity].
  cbn [fst snd]. rewrite <- list_set_map. apply IH.
Qed.
Lemma cut_loop_rows b lo hi fill me ps values idx valid keys : forall acc a,
  Forall (fun r => length r = length ps) (snd acc) ->
  cut_loop b fill lo hi me ps values idx valid keys acc = Ok a -> Forall (fun r => length r = length ps) (snd a).
Proof.
  induction keys as [|k keys IH]; intros acc a H E; cbn in E; [inversion E; subst; auto|].
  destruct (group_cut b fill lo hi me ps _) as [c|e] eqn:G; cbn in E; [|discriminate].
  apply (IH _ _) in E; [exact E|]. cbn. apply list_set_Forall; auto. eapply group_cut_len; eauto.
Qed.
(** the table for the repeated percentiles *)
Definition many_cuts (t : cut_table) : cut_table :=
  mkCutTable (ct_low t) (ct_high t) (ct_center t) (ct_edge_unit t) (ct_n_events t) (Cut2 (map many (cut_rows t))) (ct_cut_unit t).
Definition rows_ok (n : nat) (t : cut_table) : Prop := exists rows, ct_cut t = Cut2 rows /\ Forall (fun r => length r = n) rows.
Lemma percentile_many values bv bins fill ps lo hi me :
  calculate_percentile_cut false values bv bins fill (PList (list_times 100 ps)) lo hi None me =
  (do t <- calculate_percentile_cut false values bv bins fill (PList ps) lo hi None me; Ok (many_cuts t)).
Proof.
  unfold calculate_percentile_cut.
  match goal with |- rbind ?r _ = _ => destruct r as [f|e]; cbn [rbind]; [|reflexivity] end.
  destruct (bound_to _ lo) as [l|e]; cbn [rbind]; [|reflexivity].
  destruct (bound_to _ hi) as [h|e]; cbn [rbind]; [|reflexivity].
  destruct (calculate_bin_indices bv bins) as [iv|e]; cbn [rbind]; [|reflexivity].
  destruct (negb _); [reflexivity|]. destruct (negb _); [reflexivity|].
  unfold cast. cbn [rbind].
  rewrite times_length, <- repeat_times.
  replace (repeat (list_times 100 (repeat (fst f) (length ps))) (length (a_val bins) - 1)) with
    (map many (repeat (repeat (fst f) (length ps)) (length (a_val bins) - 1))).
  2:{ generalize (length (a_val bins) - 1)%nat. intros n. induction n; cbn [repeat map]; [reflexivity|]. now rewrite IHn. }
  rewrite cut_loop_many.
  match goal with |- rbind (rbind ?r _) _ = _ => destruct r as [a|e]; cbn [rbind]; [|reflexivity] end.
  reflexivity.
Qed.
Lemma percentile_rows values bv bins fill ps lo hi me t :
  calculate_percentile_cut false values bv bins fill (PList ps) lo hi None me = Ok t -> rows_ok (length ps) t.
Proof.
  unfold calculate_percentile_cut.
  match goal with |- rbind ?r _ = _ -> _ => destruct r as [f|e]; cbn [rbind]; [|discriminate] end.
  destruct (bound_to _ lo) as [l|e]; cbn [rbind]; [|discriminate].
  destruct (bound_to _ hi) as [h|e]; cbn [rbind]; [|discriminate].
  destruct (calculate_bin_indices bv bins) as [iv|e]; cbn [rbind]; [|discriminate].
  destruct (negb _); [discriminate|]. destruct (negb _); [discriminate|].
  unfold cast at 1. cbn [rbind].
  match goal with |- rbind ?r _ = _ -> _ => destruct r as [a|e] eqn:E; cbn [rbind]; [|discriminate] end.
  cbn. intros H. inversion H. exists (snd a). split; [reflexivity|].
  apply (cut_loop_rows _ _ _ _ _ _ _ _ _ _ _ _) in E; [exact E|]. cbn. generalize (length (a_val bins) - 1)%nat. intros n.
  induction n; cbn; constructor; auto. apply repeat_length.
Qed.
Lemma many_col n t j : rows_ok n t -> (j < n)%nat -> cut_col (cut_rows (many_cuts t)) j = cut_col (cut_rows t) j.
Proof.
  intros (rows & E & H) Hj. unfold cut_col, many_cuts, cut_rows. cbn. rewrite E, map_map. apply map_ext_in. intros r Hr.
  apply nth_times. rewrite Forall_forall in H. now rewrite (H r Hr).
Qed.
Lemma nth_rows_len n k t : rows_ok n t -> (k < length (cut_rows t))%nat -> length (nth k (cut_rows t) []) = n.
Proof.
  intros (rows & E & H) Hk. unfold cut_rows in *. rewrite E in *. rewrite Forall_forall in H. apply H, nth_In, Hk.
Qed.
Lemma many_nth n t k j : rows_ok n t -> (j < n)%nat ->
  nth j (nth k (cut_rows (many_cuts t)) []) NaN = nth j (nth k (cut_rows t) []) NaN.
Proof.
  intros (rows & E & H) Hj. unfold many_cuts, cut_rows. cbn. rewrite E.
  destruct (Nat.lt_ge_cases k (length rows)) as [Hk|Hk].
  - rewrite (nth_indep _ [] (many [])) by (now rewrite map_length). rewrite map_nth. apply nth_times.
    rewrite Forall_forall in H. now rewrite (H _ (nth_In rows [] Hk)).
  - rewrite !(nth_overflow _ []) by (rewrite ?map_length; auto). reflexivity.
Qed.

Lemma rmap_in {A B} (f : A -> res B) l m b : rmap f l = Ok m -> In b m -> exists a, In a l /\ f a = Ok b.
Proof.
  revert m. induction l as [|x l IH]; cbn; intros m E I; [inversion E; subst; destruct I|].
  destruct (f x) eqn:F; cbn in E; [|discriminate]. destruct (rmap f l) eqn:G; cbn in E; [|discriminate].
  inversion E; subst. destruct I as [-> |I]; [now exists x; split; [left|]|]. destruct (IH _ eq_refl I) as (a1 & I' & E'). exists a1. split; [now right|auto].
Qed.
Lemma pairs_in n m p : In p (gh_theta_pairs n m) -> (snd p < m)%nat.
Proof.
  unfold gh_theta_pairs. rewrite in_flat_map. intros (g & _ & I). apply in_map_iff in I. destruct I as (t & <- & I).
  apply in_seq in I. cbn. lia.
Qed.
Lemma rmap_ext' {A B} (f g : A -> res B) l : (forall a, In a l -> f a = g a) -> rmap f l = rmap g l.
Proof. induction l; cbn; intros H; [reflexivity|]. rewrite H by now left. rewrite IHl; auto. Qed.
Lemma np_index_in {A} (l : list A) z a : np_index l z = Ok a -> In a l.
Proof.
  unfold np_index. destruct (_ || _)%bool; [discriminate|]. destruct (nth_error _ _) eqn:E; [|discriminate].
  intros H. inversion H; subst. eapply nth_error_In; eauto.
Qed.
Lemma np_index_map {A B} (f : A -> B) l z : np_index (map f l) z = (do a <- np_index l z; Ok (f a)).
Proof.
  unfold np_index. rewrite map_length. destruct (_ || _)%bool; [reflexivity|]. rewrite nth_error_map.
  destruct (nth_error _ _); reflexivity.
Qed.
Lemma rmap_bind_map {A B C} (f : A -> res B) (g : B -> C) l : rmap (fun a => do b <- f a; Ok (g b)) l = (do bs <- rmap f l; Ok (map g bs)).
Proof.
  induction l; cbn; [reflexivity|]. destruct (f a); cbn; [|reflexivity]. rewrite IHl. destruct (rmap f l); reflexivity.
Qed.

Section Lists.
Variables (brentq : (R -> num) -> R -> R -> res R) (sf : num -> num -> num -> num) (sa : list num -> list num -> num -> res (list num))
  (sw sp bw bp : bool) (signal background : list opt_event) (bins : list num) (alpha mn mx ms mse mex : num).
Notation scan := (cuts_scan brentq sf sa sw sp bw bp signal background bins alpha mn mx ms mse mex).
Notation mult := (mult_scan brentq sf sa sw sp bw bp signal background bins alpha mn mx ms mse mex).
Notation multl := (mult_scan_list brentq sf sa sw sp bw bp signal background bins alpha mn mx ms mse mex).
Notation opt := (optimize_cuts brentq sf sa sw sp bw bp signal background bins alpha mn mx ms mse mex).
Notation optl := (optimize_cuts_list brentq sf sa sw sp bw bp signal background bins alpha mn mx ms mse mex).
Notation grid := (cut_table * cut_table * list (scan_point * table))%type.
Definition many_grid (g : grid) : grid := (fst (fst g), many_cuts (snd (fst g)), snd g).

Lemma percent (l : list R) : map (fun e => 100 * e) (map (fun e => e / 100) l) = l.
Proof. rewrite map_map. rewrite <- (map_id l) at 2. apply map_ext. intros; field. Qed.
Lemma mult_many is ib fill gh th tmin tmax mi mc :
  multl is ib fill gh th tmin tmax mi mc = (do g <- mult is ib fill gh (map (fun e => e / 100) th) tmin tmax mi mc; Ok (many_grid g)).
Proof.
  unfold mult_scan_list, mult_scan. rewrite percent, percentile_many.
  match goal with |- rbind ?r _ = _ => destruct r as [f|e]; cbn [rbind]; [|reflexivity] end.
  match goal with |- rbind (rbind ?r _) _ = _ => destruct r as [t|e] eqn:E; cbn [rbind]; [|reflexivity] end.
  apply percentile_rows in E. rewrite map_length.
  rewrite (rmap_ext' _ (fun p => do t0 <- scan is ib mc f t (fst p) (snd p); Ok (mkPoint mi (snd p) (fst p), t0))).
  - match goal with |- rbind ?r _ = _ => destruct r as [s|e]; reflexivity end.
  - intros p I. apply pairs_in in I. apply f_equal2; [|reflexivity]. unfold cuts_scan. cbn [many_cuts ct_center].
    rewrite (many_col _ _ _ E I). reflexivity.
Qed.
Lemma grid_points is ib fill gh th tmin tmax mi mc g p :
  mult is ib fill gh th tmin tmax mi mc = Ok g -> In p (snd g) -> (p_theta (fst p) < length th)%nat.
Proof.
  unfold mult_scan. match goal with |- rbind ?r _ = _ -> _ => destruct r as [f|e]; cbn [rbind]; [|discriminate] end.
  match goal with |- rbind ?r _ = _ -> _ => destruct r as [t|e] eqn:E; cbn [rbind]; [|discriminate] end.
  match goal with |- rbind ?r _ = _ -> _ => destruct r as [s|e] eqn:S; cbn [rbind]; [|discriminate] end.
  intros H I. inversion H; subst; clear H. cbn in I. destruct (rmap_in _ _ _ _ S I) as (q & Iq & Eq).
  destruct (scan _ _ _ _ _ _ _); cbn in Eq; [|discriminate]. inversion Eq; subst. cbn. now apply pairs_in in Iq.
Qed.
Lemma grid_rows is ib fill gh th tmin tmax mi mc g :
  mult is ib fill gh th tmin tmax mi mc = Ok g -> rows_ok (length th) (snd (fst g)).
Proof.
  unfold mult_scan. match goal with |- rbind ?r _ = _ -> _ => destruct r as [f|e]; cbn [rbind]; [|discriminate] end.
  match goal with |- rbind ?r _ = _ -> _ => destruct r as [t|e] eqn:E; cbn [rbind]; [|discriminate] end.
  match goal with |- rbind ?r _ = _ -> _ => destruct r as [s|e] eqn:S; cbn [rbind]; [|discriminate] end.
  intros H. inversion H; subst; clear H. cbn. apply percentile_rows in E. now rewrite map_length in E.
Qed.
Lemma zip_ext {A B C} (f g : A -> B -> C) l m : (forall a b, In a l -> In b m -> f a b = g a b) -> zipwith f l m = zipwith g l m.
Proof. revert m. induction l; destruct m; cbn; intros H; auto. f_equal; auto. Qed.
Lemma zip_map_r {A B C D} (f : A -> B -> C) (h : D -> B) l m : zipwith f l (map h m) = zipwith (fun a b => f a (h b)) l m.
Proof. revert m. induction l; destruct m; cbn; auto. now rewrite IHl. Qed.
Lemma combine_map_r {A B C} (f : B -> C) (l : list A) m : combine l (map f m) = map (fun p => (fst p, f (snd p))) (combine l m).
Proof. revert m. induction l; destruct m; cbn; auto. now rewrite IHl. Qed.

(** the list is taken in percent, and reported as the efficiency *)
Lemma python_list mults gh th tmin tmax :
  optl mults gh th tmin tmax =
  (do r <- opt mults gh (map (fun e => e / 100) th) tmin tmax;
   let '(best, mult, tc, gc) := r in
   Ok (best, mult, mkOptCut (oc_low tc) (oc_center tc) (oc_high tc) (oc_cut tc) (map (fun e => 100 * e) (oc_efficiency tc)), gc)).
Proof.
  unfold optimize_cuts_list, optimize_cuts.
  destruct (np_max _) as [fill|e]; cbn [rbind]; [|reflexivity].
  destruct (calculate_bin_indices _ _) as [is|e]; cbn [rbind]; [|reflexivity].
  destruct (calculate_bin_indices (mkArr (map o_energy background) None) _) as [ib|e]; cbn [rbind]; [|reflexivity].
  rewrite (rmap_ext' _ (fun p => do g <- mult is ib fill gh (map (fun e => e / 100) th) tmin tmax (fst p) (snd p); Ok (many_grid g)))
    by (intros; apply mult_many).
  rewrite rmap_bind_map.
  destruct (rmap (fun p => mult is ib fill gh _ tmin tmax (fst p) (snd p)) _) as [grids|e] eqn:G; cbn [rbind]; [|reflexivity].
  assert (Gp : forall g, In g grids -> rows_ok (length th) (snd (fst g)) /\ forall p, In p (snd g) -> (p_theta (fst p) < length th)%nat).
  { intros g I. destruct (rmap_in _ _ _ _ G I) as (q & _ & E). split.
    - apply grid_rows in E. now rewrite map_length in E.
    - intros p Ip. apply (grid_points _ _ _ _ _ _ _ _ _ _ _ E) in Ip. now rewrite map_length in Ip. }
  replace (flat_map (fun g : grid => snd g) (map many_grid grids)) with (flat_map (fun g : grid => snd g) grids).
  2:{ clear. induction grids; cbn; [reflexivity|]. now rewrite IHgrids. }
  destruct (map snd (flat_map (fun g : grid => snd g) grids)) as [|s0 ss]; [reflexivity|].
  destruct (rmap (best_of_bin _) _) as [best|e]; cbn [rbind]; [|reflexivity].
  destruct (assemble _ _ _ _) as [bs|e]; cbn [rbind]; [|reflexivity].
  destruct (rmap (fun b => np_index (map fst _) _) best) as [points|e] eqn:P; cbn [rbind]; [|reflexivity].
  replace (map (fun g : grid => fst (fst g)) (map many_grid grids)) with (map (fun g : grid => fst (fst g)) grids)
    by (rewrite map_map; reflexivity).
  destruct (rmap (fun p => np_index (map (fun g : grid => fst (fst g)) grids) _) points) as [ght|e]; cbn [rbind]; [|reflexivity].
  replace (map (fun g : grid => snd (fst g)) (map many_grid grids)) with (map many_cuts (map (fun g : grid => snd (fst g)) grids))
    by (rewrite !map_map; reflexivity).
  rewrite (rmap_ext' (fun p => np_index (map many_cuts _) _)
    (fun p => do a <- np_index (map (fun g : grid => snd (fst g)) grids) (Z.of_nat (p_mult p)); Ok (many_cuts a))) by (intros; apply np_index_map).
  rewrite rmap_bind_map.
  destruct (rmap (fun p => np_index (map (fun g : grid => snd (fst g)) grids) _) points) as [tht|e] eqn:T; cbn [rbind]; [|reflexivity].
  cbn [oc_low oc_center oc_high oc_cut oc_efficiency].
  assert (Pp : forall p, In p points -> (p_theta p < length th)%nat).
  { intros p I. destruct (rmap_in _ _ _ _ P I) as (b & _ & E). apply np_index_in, in_map_iff in E. destruct E as (q & <- & E).
    apply in_flat_map in E. destruct E as (g & Ig & Iq). now apply (Gp g Ig). }
  assert (Tp : forall t, In t tht -> rows_ok (length th) t).
  { intros t I. destruct (rmap_in _ _ _ _ T I) as (b & _ & E). apply np_index_in, in_map_iff in E. destruct E as (g & <- & E). now apply Gp. }
  rewrite combine_map_r, zip_map_r.
  rewrite (zip_ext _ (fun p kt => nth (p_theta p) (nth (fst kt) (cut_rows (snd kt)) []) NaN)).
  2:{ intros p kt Ip Ik. cbn [fst snd]. destruct kt as [k t]. apply in_combine_r in Ik. cbn [fst snd]. apply (many_nth (length th)); auto. }
  rewrite map_map.
  rewrite (map_ext_in (fun p => nth (p_theta p) th 0) (fun x => 100 * nth (p_theta x) (map (fun e => e / 100) th) 0)); [reflexivity|].
  intros p Ip. specialize (Pp p Ip). rewrite (nth_indep (map (fun e => e / 100) th) 0 (0 / 100)) by (now rewrite map_length).
  pose proof (map_nth (fun e => e / 100) th 0 (p_theta p)) as E. cbn beta in E. rewrite E. field.
Qed.
End Lists.
