(** * AliasingProofs: sessions with the estimators *)
From Coq Require Import Reals List Bool ZArith Arith Lia Lra.
From Verif Require Import Num Numpy Sort Table Binning Utils Morph Geometry Quantile Estimators Aliasing SpecHistory.
Import ListNotations.
Open Scope R_scope.

(** ** memory *)
Lemma set_nth_length {A} n (x : A) l : length (set_nth n x l) = length l.
Proof. revert n. induction l; intros [|n]; simpl; auto. Qed.
Lemma set_nth_same {A} n (x d : A) l : (n < length l)%nat -> nth n (set_nth n x l) d = x.
Proof. revert n. induction l; intros [|n] H; simpl in *; try lia; auto. apply IHl. lia. Qed.
Lemma set_nth_other {A} n m (x d : A) l : n <> m -> nth m (set_nth n x l) d = nth m l d.
Proof. revert n m. induction l; intros [|n] [|m] H; simpl; auto; try lia. Qed.
Lemma set_nth_id {A} n (x d : A) l : nth n l d = x -> set_nth n x l = l \/ (length l <= n)%nat.
Proof.
  revert n. induction l; intros [|n] H; simpl in *; auto; try (right; lia).
  - subst. auto.
  - destruct (IHl n H) as [E|E]; [left; congruence|right; lia].
Qed.
Lemma set_nth_out {A} n (x : A) l : (length l <= n)%nat -> set_nth n x l = l.
Proof. revert n. induction l; intros [|n] H; simpl in *; auto; try lia. f_equal. apply IHl. lia. Qed.
Lemma write_same h v l : read_view h v = l -> write_view h v l = h.
Proof.
  intros H. unfold write_view, read_view in *.
  destruct (set_nth_id _ _ _ _ H) as [E|E].
  - rewrite E. unfold read_rows. destruct (set_nth_id (v_buf v) (nth (v_buf v) h []) [] h eq_refl) as [E1|E1]; auto. apply set_nth_out; auto.
  - rewrite (set_nth_out (v_row v)) by auto. unfold read_rows. destruct (set_nth_id (v_buf v) (nth (v_buf v) h []) [] h eq_refl) as [E1|E1]; auto. apply set_nth_out; auto.
Qed.
Lemma write_view_length h v l : length (write_view h v l) = length h.
Proof. apply set_nth_length. Qed.
Lemma write_view_other h v l b : b <> v_buf v -> read_rows (write_view h v l) b = read_rows h b.
Proof. intros H. unfold write_view, read_rows. apply set_nth_other. auto. Qed.
Lemma write_view_read h v l : (v_buf v < length h)%nat -> (v_row v < length (read_rows h (v_buf v)))%nat ->
  read_view (write_view h v l) v = l.
Proof. intros H1 H2. unfold read_view, write_view. unfold read_rows at 1. rewrite set_nth_same by auto. apply set_nth_same; auto. Qed.
Lemma read_app h x b : (b < length h)%nat -> read_rows (h ++ x) b = read_rows h b.
Proof. intros H. unfold read_rows. apply app_nth1; auto. Qed.
Lemma read_new h x : read_rows (h ++ [x]) (length h) = x.
Proof. unfold read_rows. rewrite app_nth2 by lia. rewrite Nat.sub_diag. auto. Qed.

(** ** behaviour of one call: what it returns is a function [F] of the target, and nothing that exists changes.
    [P]: the arrays that must keep their content of [h0] *)
Definition agree (P : nat -> Prop) (h0 h : heap) : Prop :=
  (length h0 <= length h)%nat /\ forall b, P b -> read_rows h b = read_rows h0 b.
Definition frame (h h' : heap) : Prop :=
  (length h <= length h')%nat /\ forall b, (b < length h)%nat -> read_rows h' b = read_rows h b.
Lemma frame_refl h : frame h h.
Proof. split; auto. Qed.
Lemma frame_trans a b c : frame a b -> frame b c -> frame a c.
Proof. intros [A B] [C D]. split; [lia|]. intros k Hk. rewrite D by lia. auto. Qed.
Lemma frame_app h x : frame h (h ++ [x]).
Proof. split; [rewrite app_length; lia|]. intros b Hb. apply read_app; auto. Qed.
Lemma frame_agree (P : nat -> Prop) h0 h h' : (forall b, P b -> (b < length h0)%nat) -> agree P h0 h -> frame h h' -> agree P h0 h'.
Proof. intros HP [A B] [C D]. split; [lia|]. intros b Hb. specialize (HP b Hb). rewrite D by lia. auto. Qed.
Lemma frame_write h0 h v l : (length h0 <= v_buf v)%nat -> frame h0 h -> frame h0 (write_view h v l).
Proof. intros H [A B]. split; [rewrite write_view_length; auto|]. intros b Hb. rewrite write_view_other by lia. auto. Qed.
Lemma frame_write_rows h0 h b l : (length h0 <= b)%nat -> frame h0 h -> frame h0 (write_rows h b l).
Proof. intros H [A B]. unfold write_rows. split; [rewrite set_nth_length; auto|]. intros c Hc. unfold read_rows at 1. rewrite set_nth_other by lia. apply B; auto. Qed.
(** a valid view *)
Definition valid (h : heap) (v : view) : Prop := (v_buf v < length h)%nat /\ (v_row v < length (read_rows h (v_buf v)))%nat.
Lemma frame_valid h h' v : frame h h' -> valid h v -> valid h' v.
Proof. intros [A B] [C D]. split; [lia|]. rewrite B; auto. Qed.
Lemma frame_read h h' v : frame h h' -> (v_buf v < length h)%nat -> read_view h' v = read_view h v.
Proof. intros [A B] C. unfold read_view. rewrite B; auto. Qed.

Definition good_object (P : nat -> Prop) (h0 : heap) (o : object) (G : coords -> res (list R)) : Prop :=
  forall h t, agree P h0 h -> exists h' r, call_object h o t = (h', r) /\ frame h h' /\
    match r with
    | Err e => G t = Err e
    | Ok v => G t = Ok (read_view h' v) /\ valid h' v /\
        (if is_nearest (as_method (o_cls o)) then h' = h /\ v_buf v = o_array o else (length h <= v_buf v)%nat)
    end.
Lemma return_new_spec h r G : G = r -> exists h' x, return_new h r = (h', x) /\ frame h h' /\
  match x with
  | Err e => G = Err e
  | Ok v => G = Ok (read_view h' v) /\ valid h' v /\ (length h <= v_buf v)%nat
  end.
Proof.
  intros ->. destruct r as [l|e]; cbn [return_new alloc_view].
  - exists (h ++ [[l]]), (Ok (mkView (length h) 0)). split; auto. split; [apply frame_app|].
    unfold read_view, valid. cbn [v_buf v_row]. rewrite read_new, app_length. simpl. repeat split; auto; lia.
  - exists h, (Err e). split; auto. split; auto. apply frame_refl.
Qed.
Lemma good_construct (P : nat -> Prop) h0 c points b : P b \/ eager c -> (b < length h0)%nat ->
  match create (as_method c) points (read_rows h0 b) with
  | Err e => construct h0 c points b = Err e
  | Ok G => exists o, construct h0 c points b = Ok o /\ o_cls o = c /\ o_array o = b /\ good_object P h0 o G
  end.
Proof.
  intros HP Hb. assert (HP' : (exists i e f, c = Eager i e f) \/ P b) by (destruct HP; auto). clear HP.
  destruct c as [p|i e f|i e pick ov f|i e f]; (destruct HP' as [HP|HP]; [try (destruct HP as (? & ? & ? & HP); discriminate)|]); cbn [as_method nearest_method create construct].
  - eexists. split; [reflexivity|]. split; [reflexivity|]. split; [reflexivity|]. intros h t [A B]. unfold call_object. cbn [o_cls o_points o_array].
    rewrite (B b HP). exists h. eexists. split; [reflexivity|]. split; [apply frame_refl|].
    destruct (nn_index points p t) as [k|e]; cbn [rbind]; [|reflexivity].
    destruct (Nat.ltb_spec k (length (read_rows h0 b))) as [L|L].
    + unfold read_view. cbn [v_buf v_row]. rewrite (B b HP). split; [|split; [split; cbn [v_buf v_row]; [lia|rewrite (B b HP); auto]|cbn; auto]].
      rewrite (nth_error_nth' _ [] L). reflexivity.
    + rewrite (proj2 (nth_error_None _ _) L). reflexivity.
  - eexists. split; [reflexivity|]. split; [reflexivity|]. split; [reflexivity|]. intros h t [A B]. unfold call_object. cbn [o_cls o_points o_array as_method is_nearest].
    rewrite (B b HP). apply return_new_spec. reflexivity.
  - eexists. split; [reflexivity|]. split; [reflexivity|]. split; [reflexivity|]. intros h t [A B]. unfold call_object. cbn [o_cls o_points o_array as_method is_nearest].
    rewrite (B b HP). destruct (pick points t) as [ix|x]; cbn [rbind].
    2:{ exists h, (Err x). split; auto. split; auto. apply frame_refl. }
    unfold alloc. set (m := map _ ix). set (h2 := write_rows _ _ _).
    assert (E : read_rows h2 (length h) = ov m).
    { unfold h2, write_rows. rewrite read_new. unfold read_rows. rewrite set_nth_same; auto. rewrite app_length. simpl. lia. }
    assert (F : frame h h2) by (apply frame_write_rows; [lia|apply frame_app]).
    rewrite E. destruct (return_new_spec h2 (f points (ov m) t) _ eq_refl) as (h' & r & E1 & F1 & M).
    exists h', r. split; auto. split; [eapply frame_trans; eauto|]. destruct r as [v|x]; auto.
    destruct M as (M1 & M2 & M3). split; auto. split; auto. destruct F; lia.
  - destruct (f points (read_rows h0 b)) as [G|x]; cbn [rbind]; [|reflexivity];
    eexists; split; [reflexivity|]; split; [reflexivity|]; split; [reflexivity|]; intros h t [A B]; unfold call_object; cbn [o_cls o_points o_array o_computed as_method is_nearest];
    apply return_new_spec; reflexivity.
  - destruct (f points (read_rows h0 b)) as [G|x]; cbn [rbind]; [|reflexivity];
    eexists; split; [reflexivity|]; split; [reflexivity|]; split; [reflexivity|]; intros h t [A B]; unfold call_object; cbn [o_cls o_points o_array o_computed as_method is_nearest];
    apply return_new_spec; reflexivity.
Qed.

(** ** estimators *)
Definition nearest_object (o : object) : bool := is_nearest (as_method (o_cls o)).
Definition used_nearest (e : estimator_obj) (w : bool) : bool :=
  if w then match eo_extrap e with Some o => nearest_object o | None => false end else nearest_object (eo_interp e).
Record good_estimator inside (P : nat -> Prop) (h0 : heap) (b : nat) (e : estimator_obj) (est : estimator (list R)) : Prop := {
  ge_dim : eo_dim e = grid_dim est;
  ge_grid : eo_grid e = grid est;
  ge_call : forall h t, agree P h0 h -> exists h' r, call_obj inside h e t = (h', r) /\ frame h h' /\
    match r with
    | Err x => estimator_call inside est t = Err x
    | Ok (w, v) => estimator_call inside est t = Ok (w, read_view h' v) /\ valid h' v /\
        (exists t', check_target (eo_dim e) t = Ok t' /\ w = negb (target_in_grid inside (eo_dim e) (eo_grid e) t')) /\
        (if used_nearest e w then h' = h /\ v_buf v = b else (length h <= v_buf v)%nat)
    end }.
Lemma good_init inside (P : nat -> Prop) h b gp i e est : (b < length h)%nat ->
  parametrized_init gp (Some (read_rows h b)) (as_method i) (option_map as_method e) = Ok est ->
  exists h0 b0 o, init_obj h gp b i e = (h0, Ok o) /\ frame h h0 /\ (b0 < length h0)%nat /\
    (if Nat.eqb (grid_dim est) 1 then b0 = length h else b0 = b) /\ read_rows h0 b0 = map snd (sort_points (grid_dim est) (match base_init gp with Ok dp => snd dp | Err _ => [] end) (read_rows h b)) /\
    nearest_object (eo_interp o) = is_nearest (as_method i) /\
    (match eo_extrap o with Some oe => nearest_object oe | None => false end = match e with Some e => is_nearest (as_method e) | None => false end) /\
    (P b0 \/ all_eager i e -> good_estimator inside P h0 b0 o est).
Proof.
  intros Hb H. unfold parametrized_init in H. unfold init_obj.
  destruct (base_init gp) as [[dim points]|x]; cbn [rbind fst snd] in *; [|discriminate].
  destruct (Nat.eqb_spec (length points) (length (read_rows h b))) as [L|L]; [|discriminate].
  unfold make_methods in H. cbv zeta in *. set (s := sort_points dim points (read_rows h b)) in *.
  match goal with |- context [if Nat.eqb dim 1 then alloc ?x ?y else ?z] => set (hb := if Nat.eqb dim 1 then alloc x y else z) end.
  assert (K : exists h0 b0, hb = (h0, b0) /\ frame h h0 /\ (b0 < length h0)%nat /\ (if Nat.eqb dim 1 then b0 = length h else b0 = b) /\ read_rows h0 b0 = map snd s).
  { unfold hb, alloc. destruct (Nat.eqb_spec dim 1) as [E|E].
    - eexists _, _. split; [reflexivity|]. split; [apply frame_app|]. split; [rewrite app_length; simpl; lia|]. split; auto. apply read_new.
    - exists h, b. split; auto. split; [apply frame_refl|]. split; auto. split; auto. unfold s, sort_points.
      destruct (Nat.eqb_spec dim 1); [contradiction|]. clear -L. revert L. generalize (read_rows h b). induction points; intros [|r l] L; simpl in *; try lia; auto.
      f_equal. apply IHpoints. lia. }
  destruct K as (h0 & b0 & Ehb & F & Lb & Cb & Rb). rewrite Ehb. clear Ehb hb.
  destruct (is_interpolator (as_method i)); [|discriminate].
  rewrite <- Rb in H.
  destruct (create (as_method i) (map fst s) (read_rows h0 b0)) as [Gi|x] eqn:Ei; cbn [rbind] in H; [|discriminate].
  pose proof (fun Q => good_construct Q h0 i (map fst s) b0) as Ci. rewrite Ei in Ci.
  destruct (Ci (fun _ => True) (or_introl I) Lb) as (oi & Eoi & Coi & Aoi & _).
  rewrite Eoi.
  assert (Gi' : P b0 \/ all_eager i e -> good_object P h0 oi Gi).
  { intros HP. assert (HP' : P b0 \/ eager i) by (destruct HP as [HP|[HP _]]; auto). destruct (Ci P HP' Lb) as (oi' & Eoi' & _ & _ & G). rewrite Eoi in Eoi'. injection Eoi' as <-. auto. }
  assert (Hgrid : exists Ge, est = mkEst dim (map fst s) Gi Ge /\
     match e, Ge with
     | None, None => True
     | Some e, Some G => is_extrapolator (as_method e) = true /\ create (as_method e) (map fst s) (read_rows h0 b0) = Ok G
     | _, _ => False end).
  { destruct e as [e|]; cbn [option_map] in H.
    - destruct (is_extrapolator (as_method e)); [|discriminate].
      destruct (create (as_method e) (map fst s) (read_rows h0 b0)) as [G|x] eqn:Ee; cbn [rbind] in H; [|discriminate].
      injection H as <-. exists (Some G). auto.
    - injection H as <-. exists None. auto. }
  destruct Hgrid as (Ge & -> & He). cbn [grid_dim].
  assert (Fin : forall oe, match oe, Ge with
     | None, None => e = None
     | Some oe, Some G => o_cls oe = match e with Some e => e | None => o_cls oe end /\ e <> None /\ o_array oe = b0 /\ (P b0 \/ all_eager i e -> good_object P h0 oe G)
     | _, _ => False end -> let o := mkEO dim (map fst s) oi oe in
     nearest_object (eo_interp o) = is_nearest (as_method i) /\
    (match eo_extrap o with Some oe => nearest_object oe | None => false end = match e with Some e => is_nearest (as_method e) | None => false end) /\
    (P b0 \/ all_eager i e -> good_estimator inside P h0 b0 o (mkEst dim (map fst s) Gi Ge))).
  { intros oe Hoe. cbn [eo_interp eo_extrap]. split; [unfold nearest_object; rewrite Coi; auto|].
    split.
    { destruct oe as [oe|], Ge as [G|]; try contradiction.
      - destruct Hoe as (C1 & C2 & _). destruct e as [e|]; [|congruence]. unfold nearest_object. rewrite C1. auto.
      - rewrite Hoe. auto. }
    intros HP. split; cbn [eo_dim eo_grid grid_dim grid]; auto.
    intros h' t Ha. unfold call_obj, estimator_call. cbn [eo_dim eo_grid grid_dim grid eo_interp eo_extrap interpolator extrapolator].
    destruct (check_target dim t) as [t'|x]; cbn [rbind].
    2:{ exists h', (Err x). split; auto. split; auto. apply frame_refl. }
    destruct (target_in_grid inside dim (map fst s) t') eqn:Ein.
    - destruct (Gi' HP h' t' Ha) as (h2 & r & E1 & F1 & M). rewrite E1. exists h2. destruct r as [v|x].
      + exists (Ok (false, v)). destruct M as (M1 & M2 & M3). split; auto. split; auto. rewrite M1. cbn [rbind]. split; auto. split; auto. split; [exists t'; rewrite Ein; auto|].
        cbn [used_nearest eo_interp]. unfold nearest_object. destruct (is_nearest (as_method (o_cls oi))); auto. rewrite Aoi in M3. auto.
      + exists (Err x). split; auto. split; auto. rewrite M. auto.
    - destruct oe as [oe|], Ge as [G|]; try contradiction.
      + destruct Hoe as (C1 & C2 & C3 & C4). destruct (C4 HP h' t' Ha) as (h2 & r & E1 & F1 & M). rewrite E1. exists h2. destruct r as [v|x].
        * exists (Ok (true, v)). destruct M as (M1 & M2 & M3). split; auto. split; auto. rewrite M1. cbn [rbind]. split; auto. split; auto. split; [exists t'; rewrite Ein; auto|].
          cbn [used_nearest eo_extrap]. unfold nearest_object. destruct (is_nearest (as_method (o_cls oe))); auto. rewrite C3 in M3. auto.
        * exists (Err x). split; auto. split; auto. rewrite M. auto.
      + exists h', (Err ValueError). split; auto. split; auto. apply frame_refl. }
  destruct e as [e|].
  - destruct Ge as [G|]; [|contradiction]. destruct He as [He1 He2]. rewrite He1.
    pose proof (fun Q => good_construct Q h0 e (map fst s) b0) as Ce. rewrite He2 in Ce.
    destruct (Ce (fun _ => True) (or_introl I) Lb) as (oe & Eoe & Coe & Aoe & _). rewrite Eoe.
    eexists h0, b0, _. split; [reflexivity|]. split; auto. split; auto. split; auto. split; auto.
    apply Fin. split; auto. split; [discriminate|]. split; auto. intros HP.
    assert (HP' : P b0 \/ eager e) by (destruct HP as [HP|[_ HP]]; auto). destruct (Ce P HP' Lb) as (oe' & Eoe' & _ & _ & Gd). rewrite Eoe in Eoe'. injection Eoe' as <-. auto.
  - destruct Ge as [G|]; [contradiction|].
    eexists h0, b0, _. split; [reflexivity|]. split; [auto|]. split; [auto|]. split; [auto|]. split; [auto|]. apply Fin. auto.
Qed.
