(** * Proofs for C89: the estimators *)
From Coq Require Import String Reals List Bool ZArith Arith Lia Lra Permutation.
From Verif Require Import Num Numpy Sort Lists Table Binning Utils Morph Geometry Quantile Tensor Quantities Estimators PDFEstimators GridMethods
  SpecIRF SpecInterp SpecEstimators SpecMoved MovedProofs MovedProofs2.
Import ListNotations.
Open Scope R_scope.

Section Estimator.
  Variable s : R.
  Variable v : nat -> R.
  Hypothesis Hs : 0 < s.
  Let mv : coords -> coords := moved s v.
  Variable d : nat.
  Variable pts : list coords.
  Hypothesis Hd : of_dimension d pts.
  Variable inside : list coords -> coords -> bool.
  Hypothesis Hi : hull_test d pts inside.
  Hypothesis Hi' : hull_test d (map mv pts) inside.

  Lemma weighted_mv j c : forall ps, (forall p, In p ps -> (j < List.length p)%nat) -> List.length c = List.length ps ->
    weighted c (map (fun p => nth j p 0) (map mv ps)) = s * weighted c (map (fun p => nth j p 0) ps) + v j * total c.
  Proof.
    unfold weighted. induction c as [|a c IH]; intros [|p ps] H L; try discriminate; [cbn; ring|].
    cbn [map combine]. cbn [total fold_right map]. 
    assert (E := IH ps (fun q Hq => H q (or_intror Hq)) ltac:(cbn in L; lia)). unfold total in *. cbn [map fold_right fst snd] in *. rewrite E.
    unfold mv. rewrite moved_nth by (apply H; cbn; auto). ring.
  Qed.
  Lemma in_hull_mv t : List.length t = d -> (in_hull d (map mv pts) (mv t) <-> in_hull d pts t).
  Proof.
    intros L. unfold in_hull. rewrite map_length. split; intros (c & H1 & H2 & H3 & H4); exists c; (split; [|split; [|split]]); auto; intros j Hj; specialize (H4 j Hj).
    - rewrite weighted_mv, H3 in H4; auto; [|intros p Hp; rewrite (Hd p Hp); auto]. unfold mv in H4. rewrite moved_nth in H4 by lia. nra.
    - rewrite weighted_mv, H3, H4; auto; [|intros p Hp; rewrite (Hd p Hp); auto]. unfold mv. rewrite moved_nth by lia. ring.
  Qed.
  Lemma in_grid_mv pts' t : passed d pts pts' -> pts <> [] -> (d <> 0)%nat -> List.length t = d ->
    target_in_grid inside d (map mv pts') (mv t) = target_in_grid inside d pts' t.
  Proof.
    intros P N D L. pose proof (passed_dim _ _ _ P Hd) as H'. pose proof (passed_nonempty _ _ _ P N) as N'.
    unfold target_in_grid. destruct (Nat.eqb_spec d 1) as [->|D1].
    - unfold mv. rewrite moved_concat, moved_hd by auto. rewrite list_min_aff, list_max_aff, !aff_le by (auto using concat_nonempty). auto.
    - destruct P as (_ & P). rewrite P by auto. pose proof (Hi ltac:(lia) t L) as A. pose proof (Hi' ltac:(lia) (mv t) ltac:(unfold mv; rewrite moved_length; auto)) as B.
      rewrite in_hull_mv in B by auto. destruct (inside pts t), (inside (map mv pts) (mv t)); auto; intuition congruence.
  Qed.
  Definition answers {O} (h h' : coords -> res O) : Prop := forall t, List.length t = d -> h' (mv t) = h t.
  Definition est_rel {O} (e e' : estimator O) : Prop :=
    grid_dim e = d /\ grid_dim e' = d /\ passed d pts (grid e) /\ grid e' = map mv (grid e) /\ answers (interpolator e) (interpolator e') /\
    match extrapolator e, extrapolator e' with Some h, Some h' => answers h h' | None, None => True | _, _ => False end.
  Definition res_rel {A B} (P : A -> B -> Prop) (x : res A) (y : res B) : Prop :=
    match x, y with Ok a, Ok b => P a b | Err e, Err e' => e = e' | _, _ => False end.
  Lemma sort_points_mv {T} (tm : list T) : sort_points d (map mv pts) tm = map (fun pt : coords * T => (mv (fst pt), snd pt)) (sort_points d pts tm).
  Proof.
    assert (C : combine (map mv pts) tm = map (fun pt : coords * T => (mv (fst pt), snd pt)) (combine pts tm)).
    { clear. revert tm. induction pts as [|p l IH]; intros [|x tm]; cbn; auto. rewrite IH. auto. }
    unfold sort_points, coords in *. rewrite C. destruct (Nat.eqb_spec d 1) as [D|]; auto. apply isort_map_in. intros a b Ha Hb. cbn [fst].
    assert (forall q : coords * T, In q (combine pts tm) -> List.length (fst q) = 1%nat).
    { intros (q, x) Hq. apply in_combine_l in Hq. rewrite <- D. apply Hd. auto. }
    unfold mv. rewrite !moved_hd, aff_le by auto. auto.
  Qed.
  Lemma sort_points_passed {T} (tm : list T) : List.length pts = List.length tm -> passed d pts (map fst (sort_points d pts tm)).
  Proof.
    intros L. assert (F : map fst (combine pts tm) = pts).
    { clear - L. revert tm L. induction pts as [|p l IH]; intros [|x tm] L; try discriminate; cbn; auto. rewrite IH; auto. }
    unfold passed, sort_points. destruct (Nat.eqb_spec d 1).
    - split; [|congruence]. rewrite <- F at 1. apply Permutation_map, isort_perm.
    - rewrite F. auto.
  Qed.
  Lemma make_methods_mv {T O} (tm : list T) (m : method T O) e : List.length pts = List.length tm ->
    indifferent s v d pts m -> indifferent_option s v d pts e ->
    res_rel est_rel (make_methods d pts tm m e) (make_methods d (map mv pts) tm m e).
  Proof.
    intros L Hm He. unfold make_methods. rewrite sort_points_mv. set (S := sort_points d pts tm).
    assert (P : passed d pts (map fst S)) by (apply sort_points_passed; auto).
    assert (E1 : map fst (map (fun pt : coords * T => (mv (fst pt), snd pt)) S) = map mv (map fst S)) by (rewrite !map_map; auto).
    assert (E2 : map snd (map (fun pt : coords * T => (mv (fst pt), snd pt)) S) = map snd S) by (rewrite !map_map; auto).
    rewrite E1, E2. destruct (is_interpolator m); [|reflexivity].
    specialize (Hm _ P (map snd S)). change (res_rel answers (create m (map fst S) (map snd S)) (create m (map mv (map fst S)) (map snd S))) in Hm.
    destruct (create m (map fst S) (map snd S)) as [f|], (create m (map mv (map fst S)) (map snd S)) as [f'|]; cbn [rbind]; try (destruct Hm; fail); [|exact Hm].
    destruct e as [e|].
    - destruct (is_extrapolator e); [|reflexivity]. specialize (He _ P (map snd S)). change (res_rel answers (create e (map fst S) (map snd S)) (create e (map mv (map fst S)) (map snd S))) in He.
      destruct (create e (map fst S) (map snd S)) as [h|], (create e (map mv (map fst S)) (map snd S)) as [h'|]; cbn [rbind]; try (destruct He; fail); [|exact He].
      cbn. unfold est_rel, answers. cbn. auto 10.
    - cbn. unfold est_rel, answers. cbn. auto 10.
  Qed.
  Lemma check_target_mv tgt : match check_target d tgt with
    | Ok t => List.length t = d /\ check_target d (moved_target s v tgt) = Ok (mv t) | Err e => check_target d (moved_target s v tgt) = Err e end.
  Proof.
    assert (M : forall t, List.length (mv t) = List.length t) by (intros; apply moved_length).
    assert (E : forall (tgt tgt' : target_arg) (t : coords), check_target d tgt = (if Nat.eqb (List.length t) d then Ok t else Err ValueError) ->
      check_target d tgt' = (if Nat.eqb (List.length (mv t)) d then Ok (mv t) else Err ValueError) ->
      match check_target d tgt with Ok t => List.length t = d /\ check_target d tgt' = Ok (mv t) | Err e => check_target d tgt' = Err e end).
    { intros a b t -> ->. rewrite M. destruct (Nat.eqb_spec (List.length t) d); auto. }
    destruct tgt as [|t|[|t [|t2 l]]]; try reflexivity; apply (E _ _ t); reflexivity.
  Qed.
  Lemma estimator_call_mv {O} (e e' : estimator O) tgt : pts <> [] -> (d <> 0)%nat -> est_rel e e' ->
    estimator_call inside e' (moved_target s v tgt) = estimator_call inside e tgt.
  Proof.
    intros N D (G1 & G2 & G3 & G4 & G5 & G6). unfold estimator_call. rewrite G1, G2, G4. pose proof (check_target_mv tgt) as C.
    destruct (check_target d tgt) as [t|]; [destruct C as (L & ->)|rewrite C]; cbn [rbind]; auto.
    rewrite in_grid_mv by auto. destruct (target_in_grid inside d (grid e) t); [rewrite G5; auto|].
    destruct (extrapolator e), (extrapolator e'); try (destruct G6; fail); auto. rewrite G6; auto.
  Qed.
End Estimator.
