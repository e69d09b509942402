(** * Properties of the estimators as objects in memory (C67): any history of calls and of assignments of the caller. *)
From Coq Require Import String Reals List Bool ZArith Arith Lia Lra.
From Verif Require Import Num Numpy Sort Table Binning Utils Morph Geometry Quantile Estimators Aliasing SpecHistory AliasingProofs2 AliasingProofs3.
From Verif Require Import SpecEdges.
From Verif Require EdgeProofs.
Import ListNotations.
Open Scope R_scope.

(** ** C67 *)
(** estimators of parameters and histograms.  [h]: the memory, [b] the array given to the constructor.  The constructor
    does not change any array; each call of a program that only calls the estimator gives what the estimator as function
    gives (so the results don't depend on earlier calls), and no result is changed by later calls.  If no nearest-neighbour
    searcher is used, the caller may also overwrite results; and in one dimension, or if the classes only use the
    templates in their constructors, everything *)
Theorem C67_calls : forall inside (h : heap) b gp i e est, (b < List.length h)%nat ->
  parametrized_init gp (Some (read_rows h b)) (as_method i) (option_map as_method e) = Ok est ->
  exists h0 o, init_obj h gp b i e = (h0, Ok o) /\ (forall b', (b' < List.length h)%nat -> read_rows h0 b' = read_rows h b') /\
    let session := run (fun h t => call_obj inside h o t) b h0 in
    (forall p, only_calls p -> s_seen (session p) = map (estimator_call inside est) (targets p) /\
       final (session p) = map content (s_seen (session p))) /\
    (no_searcher i e -> forall p, input_untouched p -> s_seen (session p) = map (estimator_call inside est) (targets p)) /\
    (no_searcher i e -> grid_dim est = 1%nat \/ all_eager i e -> forall p, s_seen (session p) = map (estimator_call inside est) (targets p)).
Proof. exact c67_plain. Qed.
Print Assumptions C67_calls.
Example C67_calls_ex : exists est, parametrized_init (G2 2 [[0; 0]; [1; 0]; [0; 1]]) (Some (read_rows [[[5]]; [[1]; [2]; [3]]] 1)) (as_method (Searcher 2))
    (option_map as_method (Some (Searcher 1))) = Ok est /\ grid_dim est = 2%nat /\
  only_calls [Call (TFlat [0; 0]); Call (TFlat [3; 3])] /\ input_untouched [Call (TFlat [0; 0]); SetResult 0 [7]] /\ no_searcher lazy_linear None.
Proof.
  eexists. split; [reflexivity|]. split; [reflexivity|]. split; [|split].
  - intros a [<-|[<-|[]]]; eauto.
  - intros a [<-|[<-|[]]]; discriminate.
  - split; [intros [p H]; discriminate|discriminate].
Qed.

(** a class that does not derive from the interpolators as interpolator, or one not from the extrapolators as extrapolator: TypeError *)
Theorem C67_wrong_class : forall (h : heap) gp b dim points i e, base_init gp = Ok (dim, points) -> List.length points = List.length (read_rows h b) ->
  class_with false true i \/ (class_with true false i /\ (forall ps ts, exists g, create (as_method i) ps ts = Ok g) /\ exists e', e = Some e' /\ class_with true false e') ->
  exists h', init_obj h gp b i e = (h', Err TypeError).
Proof. exact EdgeProofs.c67_wrong_class. Qed.
Print Assumptions C67_wrong_class.
Example C67_wrong_class_ex : base_init (G2 2 [[0; 0]; [1; 0]; [0; 1]]) = Ok (2%nat, [[0; 0]; [1; 0]; [0; 1]]) /\ class_with false true (Lazy false true (fun _ _ _ => Ok [])).
Proof. split; [reflexivity|]. left. eauto. Qed.
(** effective areas: whatever the caller does with the results or with the array given to the constructor.
    [unit]: None if the areas are in m2; then the constructor writes into the caller's array *)
Theorem C67_area : forall inside (h : heap) b gp unit mn i e est, (b < List.length h)%nat ->
  aeff_init gp (in_m2 unit (read_rows h b)) mn (as_method i) (option_map as_method e) = Ok est ->
  exists h0 o, init_area h gp b unit mn i e = (h0, Ok o) /\
    (forall b', (b' < List.length h)%nat -> b' <> b \/ unit <> None -> read_rows h0 b' = read_rows h b') /\
    forall p, let s := run (fun h t => call_area inside h o mn t) b h0 p in
      s_seen s = map (aeff_call inside est mn) (targets p) /\
      (only_calls p -> final s = map content (s_seen s)).
Proof. exact c67_area. Qed.
Print Assumptions C67_area.
Example C67_area_ex : exists est, aeff_init (G2 2 [[0; 0]; [1; 0]; [0; 1]]) (in_m2 (Some 1000000) (read_rows [[[1]; [2]; [3]]] 0)) 1 (as_method (Searcher 2)) None = Ok est.
Proof. eexists. reflexivity. Qed.

(** theta cuts: as the first theorem, if there are no negative entries or no searchers; the fill values also depend on
    the caller's array *)
Theorem C67_rad_max : forall inside tri find two_axes (h : heap) b gp fv i e rm, (b < List.length h)%nat ->
  rad_max_init gp (read_rows h b) fv (as_method i) (option_map as_method e) = Ok rm ->
  exists h0 r, init_rad_max h gp b fv i e = (h0, Ok r) /\ (forall b', (b' < List.length h)%nat -> read_rows h0 b' = read_rows h b') /\
    let session := run (fun h t => call_rad_max inside tri find two_axes h r t) b h0 in
    (no_searcher i e \/ non_negative (read_rows h b) -> forall p, only_calls p ->
       s_seen (session p) = map (rad_max_call inside tri find two_axes rm) (targets p) /\ final (session p) = map content (s_seen (session p))) /\
    (no_searcher i e -> forall p, input_untouched p -> s_seen (session p) = map (rad_max_call inside tri find two_axes rm) (targets p)) /\
    (no_searcher i e -> active_fill (fill_val rm) = None -> grid_dim (rm_est rm) = 1%nat \/ all_eager i e -> forall p,
       s_seen (session p) = map (rad_max_call inside tri find two_axes rm) (targets p)).
Proof. exact c67_rad_max. Qed.
Print Assumptions C67_rad_max.
Example C67_rad_max_ex : exists rm, rad_max_init (G2 2 [[0; 0]; [1; 0]; [0; 1]]) (read_rows [[[1]; [2]; [3]]] 0) FillNone (as_method (Searcher 2)) None = Ok rm /\
  non_negative [[1]; [2]; [3]].
Proof. eexists. split; [reflexivity|]. intros l x [<-|[<-|[<-|[]]]] [<-|[]]; lra. Qed.

(** ** the exceptions *)
(** results of nearest-neighbour searchers are the templates: overwriting one changes what the estimator returns *)
Theorem C67_searcher_refuted : forall inside (h : heap) b gp i e est t w l c, (b < List.length h)%nat ->
  parametrized_init gp (Some (read_rows h b)) (as_method i) (option_map as_method e) = Ok est ->
  estimator_call inside est t = Ok (w, l) ->
  (if w then exists e', e = Some e' /\ searcher e' else searcher i) ->
  exists h0 o, init_obj h gp b i e = (h0, Ok o) /\
    s_seen (run (fun h t => call_obj inside h o t) b h0 [Call t; SetResult 0 c; Call t]) = [Ok (w, l); Ok (w, c)].
Proof. exact c67_searcher. Qed.
Print Assumptions C67_searcher_refuted.
Example C67_searcher_ex : exists est, parametrized_init (G2 2 [[0; 0]; [1; 0]; [0; 1]]) (Some (read_rows [[[1]; [2]; [3]]] 0)) (as_method (Searcher 2)) None = Ok est /\
  (exists t w l, estimator_call (fun _ _ => true) est t = Ok (w, l) /\ w = false) /\ searcher (Searcher 2).
Proof.
  eexists. split; [reflexivity|]. split; [|exists 2%nat; reflexivity].
  exists (TFlat [0; 0]), false.
  assert (K : exists k, Quantile.nn_index [[0; 0]; [1; 0]; [0; 1]] 2 [0; 0] = Ok k /\ (k < 3)%nat).
  { destruct (QuantileProofs.nn_index_spec [[0; 0]; [1; 0]; [0; 1]] 2 [0; 0]) as (k & g & E & H & _); [discriminate|]. exists k. split; auto.
    apply Lists.nth_some_lt in H. exact H. }
  destruct K as (k & E & L). unfold estimator_call. cbn [check_target rbind List.length Nat.eqb grid_dim grid interpolator target_in_grid sort_points combine map fst snd as_method nearest_method create].
  match goal with |- context [Quantile.nn_index ?g ?p ?t] => change (Quantile.nn_index g p t) with (Quantile.nn_index [[0; 0]; [1; 0]; [0; 1]] 2 [0; 0]) end. rewrite E. cbn [rbind].
  destruct k as [|[|[|k]]]; try lia; cbn; eexists; split; reflexivity.
Qed.
(** two and more dimensions: the array given to the constructor is the array of the templates: after an assignment to
    it the estimator is the one of the changed array *)
Theorem C67_input_refuted : forall inside (h : heap) b gp i e est est' k c, (b < List.length h)%nat ->
  parametrized_init gp (Some (read_rows h b)) (as_method i) (option_map as_method e) = Ok est ->
  parametrized_init gp (Some (set_nth k c (read_rows h b))) (as_method i) (option_map as_method e) = Ok est' ->
  grid_dim est <> 1%nat -> ~ eager i -> (forall e', e = Some e' -> ~ eager e') ->
  exists o, init_obj h gp b i e = (h, Ok o) /\
    forall p, only_calls p -> s_seen (run (fun h t => call_obj inside h o t) b h (SetInput k c :: p)) = map (estimator_call inside est') (targets p).
Proof. exact c67_input. Qed.
Print Assumptions C67_input_refuted.
Example C67_input_ex : exists est est', parametrized_init (G2 2 [[0; 0]; [1; 0]; [0; 1]]) (Some (read_rows [[[1]; [2]; [3]]] 0)) (as_method (Searcher 2)) None = Ok est /\
  parametrized_init (G2 2 [[0; 0]; [1; 0]; [0; 1]]) (Some (set_nth 1 [9] (read_rows [[[1]; [2]; [3]]] 0))) (as_method (Searcher 2)) None = Ok est' /\
  grid_dim est <> 1%nat /\ ~ eager (Searcher 2).
Proof. eexists _, _. split; [reflexivity|]. split; [reflexivity|]. split; [discriminate|]. intros (a & b & f & H). discriminate. Qed.
(** theta cuts with a negative entry, linear interpolation and nearest neighbours outside: the same call gives 0 before
    and 1/4 after a call outside of the grid *)
Theorem C67_negative_refuted : forall inside tri find two_axes,
  exists h0 r, init_rad_max [[[-1]; [1]]] (G1 [0; 1]) 0 FillNone lazy_linear (Some (Searcher 2)) = (h0, Ok r) /\
    s_seen (run (fun h t => call_rad_max inside tri find two_axes h r t) 0 h0 [Call (TFlat [1/4]); Call (TFlat [-1]); Call (TFlat [1/4])])
    = [Ok (false, [0]); Ok (true, [0]); Ok (false, [1/4])].
Proof. exact c67_negative. Qed.
Print Assumptions C67_negative_refuted.
