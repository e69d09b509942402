(** * AliasingProofs3: where the arrays are shared: what then happens *)
From Coq Require Import Reals List Bool ZArith Arith Lia Lra.
From Verif Require Import Num Numpy Sort Table Binning Utils Morph Geometry Quantile Estimators Aliasing SpecHistory AliasingProofs AliasingProofs2 QuantileProofs.
Import ListNotations.
Open Scope R_scope.

(** ** results of searchers are the templates *)
Lemma call_searcher_again inside h o t w v c : used_nearest o w = true -> call_obj inside h o t = (h, Ok (w, v)) ->
  call_obj inside (write_view h v c) o t = (write_view h v c, Ok (w, v)).
Proof.
  intros U. unfold call_obj. destruct (check_target (eo_dim o) t) as [t'|x]; [|discriminate].
  assert (K : forall ob, nearest_object ob = true -> call_object h ob t' = (h, Ok v) -> call_object (write_view h v c) ob t' = (write_view h v c, Ok v)).
  { intros ob Hn. unfold nearest_object in Hn. unfold call_object. destruct (o_cls ob); try discriminate. intros H. f_equal.
    injection H as H. destruct (nn_index (o_points ob) norm_ord t') as [i|x]; cbn [rbind] in *; [|discriminate].
    destruct (Nat.ltb i (length (read_rows h (o_array ob)))) eqn:L; [|discriminate]. injection H as <-.
    unfold write_view. cbn [v_buf v_row]. apply Nat.ltb_lt in L.
    assert (Hl : (o_array ob < length h)%nat).
    { destruct (Nat.lt_ge_cases (o_array ob) (length h)) as [|G]; auto. unfold read_rows in L. rewrite nth_overflow in L by auto. simpl in L. lia. }
    unfold read_rows at 1. rewrite set_nth_same by auto. rewrite set_nth_length. apply Nat.ltb_lt in L. rewrite L. reflexivity. }
  assert (N : forall ob, nearest_object ob = true -> fst (call_object h ob t') = h).
  { intros ob Hn. unfold nearest_object in Hn. unfold call_object. destruct (o_cls ob); try discriminate. reflexivity. }
  destruct (target_in_grid inside (eo_dim o) (eo_grid o) t').
  - destruct (call_object h (eo_interp o) t') as [h' [v'|x]] eqn:E; [|discriminate]. intros H. injection H as -> <- <-.
    unfold used_nearest in U. rewrite (K _ U E). reflexivity.
  - destruct (eo_extrap o) as [oe|] eqn:Eo; [|discriminate].
    destruct (call_object h oe t') as [h' [v'|x]] eqn:E; [|discriminate]. intros H. injection H as -> <- <-.
    unfold used_nearest in U. rewrite Eo in U. rewrite (K _ U E). reflexivity.
Qed.
Lemma searcher_nearest c : searcher c -> is_nearest (as_method c) = true.
Proof. intros [p ->]. reflexivity. Qed.
Theorem c67_searcher inside (h : heap) b gp i e est t w l c : (b < length h)%nat ->
  parametrized_init gp (Some (read_rows h b)) (as_method i) (option_map as_method e) = Ok est ->
  estimator_call inside est t = Ok (w, l) ->
  (if w then exists e', e = Some e' /\ searcher e' else searcher i) ->
  exists h0 o, init_obj h gp b i e = (h0, Ok o) /\
    s_seen (run (fun h t => call_obj inside h o t) b h0 [Call t; SetResult 0 c; Call t]) = [Ok (w, l); Ok (w, c)].
Proof.
  intros Hb Hi Hc Hs.
  destruct (good_init inside (fun _ => True) h b gp i e est Hb Hi) as (h0 & b0 & o & E & F & L & C & _ & N1 & N2 & G).
  exists h0, o. split; auto.
  assert (U : used_nearest o w = true).
  { destruct w; cbn [used_nearest].
    - rewrite N2. destruct Hs as (e' & -> & Hs). apply searcher_nearest; auto.
    - rewrite N1. apply searcher_nearest; auto. }
  destruct (ge_call _ _ _ _ _ _ (G (or_introl I)) h0 t) as (h' & r & Ec & Fr & M); [split; auto|].
  destruct r as [[w' v]|x]; [|rewrite Hc in M; discriminate]. destruct M as (M1 & M2 & _ & M3). rewrite Hc in M1. injection M1 as <- ->.
  rewrite U in M3. destruct M3 as [-> M3].
  unfold run. cbn [fold_left step]. cbn [s_heap s_returned s_seen app]. rewrite Ec. cbn [s_heap s_returned s_seen app nth].
  rewrite (call_searcher_again _ _ _ _ _ _ c U Ec). cbn [s_seen app]. rewrite write_view_read by apply M2. reflexivity.
Qed.

(** ** two and more dimensions: the caller's array is the array of the templates *)
Lemma set_nth_overwrite (h : heap) b k c : (b < length h)%nat ->
  read_rows (write_view h (mkView b k) c) b = set_nth k c (read_rows h b).
Proof. intros H. unfold write_view. cbn [v_buf v_row]. unfold read_rows at 1. apply set_nth_same; auto. Qed.
Lemma run_cons call input a p s : fold_left (step call input) (a :: p) s = fold_left (step call input) p (step call input s a).
Proof. reflexivity. Qed.
Theorem c67_input inside (h : heap) b gp i e est est' k c : (b < length h)%nat ->
  parametrized_init gp (Some (read_rows h b)) (as_method i) (option_map as_method e) = Ok est ->
  parametrized_init gp (Some (set_nth k c (read_rows h b))) (as_method i) (option_map as_method e) = Ok est' ->
  grid_dim est <> 1%nat -> ~ eager i -> (forall e', e = Some e' -> ~ eager e') ->
  exists o, init_obj h gp b i e = (h, Ok o) /\
    forall p, only_calls p -> s_seen (run (fun h t => call_obj inside h o t) b h (SetInput k c :: p)) = map (estimator_call inside est') (targets p).
Proof.
  intros Hb Hi Hi' Hd Ei Ee.
  set (h' := write_view h (mkView b k) c).
  assert (R : read_rows h' b = set_nth k c (read_rows h b)) by (apply set_nth_overwrite; auto).
  assert (Hb' : (b < length h')%nat) by (unfold h'; rewrite write_view_length; auto).
  rewrite <- R in Hi'.
  destruct (c67_plain inside h' b gp i e est' Hb' Hi') as (h0 & o & E & _ & S & _).
  assert (K : h0 = h' /\ init_obj h gp b i e = (h, Ok o)).
  { clear S. unfold init_obj in *. unfold parametrized_init in Hi. destruct (base_init gp) as [[dim points]|x]; cbn [rbind fst snd] in Hi; [|discriminate].
    rewrite R in *. rewrite set_nth_length in E.
    destruct (Nat.eqb_spec (length points) (length (read_rows h b))) as [Ln|Ln]; [|discriminate].
    unfold make_methods in Hi. assert (D : dim = grid_dim est).
    { destruct (is_interpolator (as_method i)); [|discriminate]. destruct (create (as_method i) _ _); cbn [rbind] in Hi; [|discriminate].
      destruct (option_map as_method e) as [m|]; [destruct (is_extrapolator m); [|discriminate]; destruct (create m _ _); cbn [rbind] in Hi; [|discriminate]|]; injection Hi as <-; reflexivity. }
    unfold sort_points in *. destruct (Nat.eqb_spec dim 1) as [X|X]; [congruence|]. cbv zeta in *.
    assert (M : forall l : rows, length points = length l -> map fst (combine points l) = points).
    { clear. induction points; intros [|x l] H; simpl in *; try discriminate; auto. f_equal. apply IHpoints. lia. }
    rewrite (M (set_nth k c (read_rows h b))) in E by (rewrite set_nth_length; auto). rewrite (M (read_rows h b)) by auto.
    destruct (is_interpolator (as_method i)); [|discriminate].
    assert (Q : forall x, ~ eager x -> forall ha hb, construct ha x points b = construct hb x points b).
    { intros x Hx ha hb. destruct x; cbn [construct]; auto. exfalso. apply Hx. unfold eager. eauto. }
    rewrite (Q i Ei h h'). destruct (construct h' i points b) as [oi|x]; [|discriminate].
    destruct e as [e|]; [|injection E as <- <-; auto]. destruct (is_extrapolator (as_method e)); [|discriminate].
    rewrite (Q e (Ee e eq_refl) h h'). destruct (construct h' e points b) as [oe|x]; [|discriminate]. injection E as <- <-; auto. }
  destruct K as [-> K]. exists o. split; [exact K|]. intros p Hp. destruct (S p Hp) as [S1 _].
  unfold run. rewrite run_cons. cbn [step s_heap s_returned s_seen]. exact S1.
Qed.

(** ** RadMaxEstimator with negative entries: a call changes the templates *)
Lemma last_entry (l : heap) r r' : set_nth (length l) r' (l ++ [r]) = l ++ [r'].
Proof. induction l; cbn; f_equal; auto. Qed.
Lemma run3 call input (h0 h1 h2 h3 : heap) t1 t2 t3 w1 v1 w2 v2 w3 v3 : call h0 t1 = (h1, Ok (w1, v1)) -> call h1 t2 = (h2, Ok (w2, v2)) -> call h2 t3 = (h3, Ok (w3, v3)) ->
  s_seen (run call input h0 [Call t1; Call t2; Call t3]) = [Ok (w1, read_view h1 v1); Ok (w2, read_view h2 v2); Ok (w3, read_view h3 v3)].
Proof. intros E1 E2 E3. unfold run. cbn [fold_left step s_heap s_returned s_seen app]. rewrite E1. cbn [s_heap s_returned s_seen app]. rewrite E2. cbn [s_heap s_returned s_seen app]. rewrite E3. reflexivity. Qed.
Definition lazy_linear : cls := Lazy true false (fun points templates t => Ok (weighted_templates 1 (choose_1D points t) templates)).
Theorem c67_negative inside tri find two_axes :
  exists h0 r, init_rad_max [[[-1]; [1]]] (G1 [0; 1]) 0 FillNone lazy_linear (Some (Searcher 2)) = (h0, Ok r) /\
    s_seen (run (fun h t => call_rad_max inside tri find two_axes h r t) 0 h0 [Call (TFlat [1/4]); Call (TFlat [-1]); Call (TFlat [1/4])])
    = [Ok (false, [0]); Ok (true, [0]); Ok (false, [1/4])].
Proof.
  assert (S1 : sort_points 1 [[0]; [1]] [[-1]; [1]] = [([0], [-1]); ([1], [1])]) by (unfold sort_points; cbn; rsolve; reflexivity).
  set (oi := mkObj lazy_linear [[0]; [1]] 1 None). set (oe := mkObj (Searcher 2) [[0]; [1]] 1 None).
  set (est := mkEO 1 [[0]; [1]] oi (Some oe)).
  exists [[[-1]; [1]]; [[-1]; [1]]], (mkRMO est 0 None false true).
  split.
  { unfold init_rad_max, init_obj. cbn [base_init rbind fst snd map length Nat.ltb Nat.leb Nat.add Nat.eqb read_rows nth].
    rewrite S1. reflexivity. }
  assert (Mn : list_min [0; 1] = 0) by (unfold list_min; cbn [fold_left]; rewrite ?Rmin_left by lra; auto).
  assert (Mx : list_max [0; 1] = 1) by (unfold list_max; cbn [fold_left]; rewrite ?Rmax_right by lra; auto).
  assert (Ch : choose_1D [[0]; [1]] [1/4] = [(0%nat, 1 - (1/4 - 0) / (1 - 0)); (1%nat, (1/4 - 0) / (1 - 0))]).
  { unfold choose_1D. cbn [concat app hd]. rewrite !count_cons, count_nil. rsolve. reflexivity. }
  assert (Nn : nn_index [[0]; [1]] 2 [-1] = Ok 0%nat).
  { unfold nn_index, argbest. cbn [map zipwith first_best snd]. unfold pnorm. cbn [map].
    assert (R1 : rsum [Rabs (0 - -1) ^ 2] = 1) by (unfold rsum; cbn; rewrite Rabs_right by lra; lra).
    assert (R2 : rsum [Rabs (1 - -1) ^ 2] = 4) by (unfold rsum; cbn; rewrite Rabs_right by lra; lra).
    rewrite R1, R2. destruct (root_spec 2 1) as [A1 A2]; [lia|lra|]. destruct (root_spec 2 4) as [B1 B2]; [lia|lra|].
    replace (Rltb (root 2 4) (root 2 1)) with false; [reflexivity|]. symmetry. apply Rltb_false. simpl in A2, B2. nra. }
  assert (Tin : target_in_grid inside 1 [[0]; [1]] [1/4] = true).
  { unfold target_in_grid. cbn [Nat.eqb concat app hd]. rewrite Mn, Mx. rsolve. reflexivity. }
  assert (Tout : target_in_grid inside 1 [[0]; [1]] [-1] = false).
  { unfold target_in_grid. cbn [Nat.eqb concat app hd]. rewrite Mn, Mx. rsolve. reflexivity. }
  assert (Fi : forall x y (H : heap), call_rad_max inside tri find two_axes ([y; [[x]; [1]]] ++ H) (mkRMO est 0 None false true) (TFlat [1/4]) =
     ([y; [[x]; [1]]] ++ H ++ [[[min_entry (x * (3/4) + 1/4)]]], Ok (false, mkView (2 + length H) 0))).
  { intros x y H. unfold call_rad_max, call_obj. cbn [check_target rbind length Nat.eqb rmo_est est eo_dim eo_grid eo_interp]. rewrite Tin.
    unfold call_object. cbn [o_cls oi lazy_linear o_points o_array]. rewrite Ch. cbn [read_rows nth app].
    assert (W : weighted_templates 1 [(0%nat, 1 - (1/4 - 0) / (1 - 0)); (1%nat, (1/4 - 0) / (1 - 0))] [[x]; [1]] = [x * (3/4) + 1/4]).
    { cbn. unfold rsum. cbn. f_equal. lra. }
    rewrite W. cbn [return_new alloc_view length].
    set (h1 := (y :: [[x]; [1]] :: H) ++ [[[x * (3 / 4) + 1 / 4]]]).
    unfold fill_entries. cbn [check_target rbind length Nat.eqb rmo_fill active_fill].
    f_equal. unfold h1. unfold write_view, read_view. cbn [v_buf v_row].
    replace (S (S (length H))) with (length (y :: [[x]; [1]] :: H)) by reflexivity. rewrite read_new. cbn [nth map set_nth].
    apply (last_entry (y :: [[x]; [1]] :: H)). }
  assert (F2 : call_rad_max inside tri find two_axes [[[-1]; [1]]; [[-1]; [1]]; [[0]]] (mkRMO est 0 None false true) (TFlat [-1]) =
    ([[[-1]; [1]]; [[0]; [1]]; [[0]]], Ok (true, mkView 1 0))).
  { unfold call_rad_max, call_obj. cbn [check_target rbind length Nat.eqb rmo_est est eo_dim eo_grid eo_interp eo_extrap]. rewrite Tout.
    unfold call_object. cbn [o_cls oe o_points o_array]. rewrite Nn. cbn [rbind read_rows nth length Nat.ltb Nat.leb].
    unfold fill_entries. cbn [check_target rbind length Nat.eqb rmo_fill active_fill].
    unfold write_view, read_view. cbn [read_rows v_buf v_row nth map set_nth]. unfold min_entry. rsolve. reflexivity. }
  pose proof (Fi (-1) [[-1]; [1]] []) as F1. pose proof (Fi 0 [[-1]; [1]] [[[0]]]) as F3. cbn [app length Nat.add] in F1, F3.
  replace (min_entry (-1 * (3/4) + 1/4)) with 0 in F1 by (unfold min_entry; rsolve; reflexivity).
  replace (min_entry (0 * (3/4) + 1/4)) with (1/4) in F3 by (unfold min_entry; rsolve; lra).
  etransitivity; [eapply run3; [exact F1|exact F2|exact F3]|]. reflexivity.
Qed.
