(** * SimulationUnitsProofs: expected numbers of showers don't depend on units *)
From Coq Require Import Reals ZArith Lra Lia List Bool.
From Verif Require Import Num Numpy Lists Utils Simulations Quantities SpectralUnits SpecUnits SpectralUnitsProofs SpectralUnitsProofs2 SimulationUnits.
Import ListNotations.
Open Scope R_scope.

Lemma fin_input_ok u a x v : fin_input u a = Ok (x, v) <-> a = FQty x v /\ qu_dim v = qu_dim u.
Proof.
  destruct a as [y|y w]; cbn [fin_input]; [split; [discriminate|intros [H _]; discriminate]|].
  destruct (deqb (qu_dim w) (qu_dim u)) eqn:E; [apply deqb_true in E|apply deqb_false in E].
  - split; [intros H; injection H as -> ->; auto|]. intros [H _]. injection H as -> ->. auto.
  - split; [discriminate|]. intros [H D]. injection H as -> ->. contradiction.
Qed.
Theorem c69_init n a b c i d e q : q_sim_info n a b c i d e = Ok q <->
  exists xa ua xb ub xc uc xd ud xe ue, a = FQty xa ua /\ b = FQty xb ub /\ c = FQty xc uc /\ d = FQty xd ud /\ e = FQty xe ue /\
    qu_dim ua = energy_dim /\ qu_dim ub = energy_dim /\ qu_dim uc = length_dim /\ qu_dim ud = angle_dim /\ qu_dim ue = angle_dim /\ i <= -1 /\
    q = mkQSim n (xa, ua) (xb, ub) (xc, uc) i (xd, ud) (xe, ue).
Proof.
  unfold q_sim_info. split.
  - destruct (fin_input TeV a) as [[xa ua]|] eqn:E1; [|discriminate]. destruct (fin_input TeV b) as [[xb ub]|] eqn:E2; [|discriminate].
    destruct (fin_input metre c) as [[xc uc]|] eqn:E3; [|discriminate]. destruct (fin_input deg d) as [[xd ud]|] eqn:E4; [|discriminate].
    destruct (fin_input deg e) as [[xe ue]|] eqn:E5; [|discriminate]. cbn [rbind]. apply fin_input_ok in E1, E2, E3, E4, E5.
    destruct E1, E2, E3, E4, E5. destruct (Rltb_spec (-1) i); [discriminate|]. intros H'. injection H' as <-. exists xa, ua, xb, ub, xc, uc, xd, ud, xe, ue.
    repeat split; auto. lra.
  - intros (xa & ua & xb & ub & xc & uc & xd & ud & xe & ue & -> & -> & -> & -> & -> & D1 & D2 & D3 & D4 & D5 & I & ->). cbn [fin_input].
    rewrite D1, D2, D3, D4, D5, TeV_dim. replace (qu_dim metre) with length_dim by reflexivity. replace (qu_dim deg) with angle_dim by reflexivity.
    rewrite !deqb_refl. cbn [rbind]. rsolve. reflexivity.
Qed.
Theorem c69_init_errors n a b c i d e : forall err, q_sim_info n a b c i d e = Err err ->
  (err = TypeError /\ exists x, In (FPlain x) [a; b; c; d; e]) \/
  (err = UnitsError /\ exists x u, (In (FQty x u) [a; b] /\ qu_dim u <> energy_dim) \/ (c = FQty x u /\ qu_dim u <> length_dim) \/ (In (FQty x u) [d; e] /\ qu_dim u <> angle_dim)) \/
  (err = ValueError /\ -1 < i).
Proof.
  intros err. unfold q_sim_info.
  assert (F : forall u a er, fin_input u a = Err er -> (er = TypeError /\ exists x, a = FPlain x) \/ (er = UnitsError /\ exists x v, a = FQty x v /\ qu_dim v <> qu_dim u)).
  { intros u [x|x v] er H; cbn [fin_input] in H; [left; injection H as <-; eauto|]. destruct (deqb (qu_dim v) (qu_dim u)) eqn:E; [discriminate|].
    apply deqb_false in E. injection H as <-. right. eauto. }
  destruct (fin_input TeV a) as [[xa ua]|] eqn:E1; [|intros H; injection H as <-; apply F in E1 as [[-> [x ->]]|[-> (x & v & -> & D)]]; [left; split; auto; exists x; cbn; auto|right; left; split; auto; exists x, v; left; cbn; auto]].
  destruct (fin_input TeV b) as [[xb ub]|] eqn:E2; [|intros H; injection H as <-; apply F in E2 as [[-> [x ->]]|[-> (x & v & -> & D)]]; [left; split; auto; exists x; cbn; auto|right; left; split; auto; exists x, v; left; cbn; auto]].
  destruct (fin_input metre c) as [[xc uc]|] eqn:E3; [|intros H; injection H as <-; apply F in E3 as [[-> [x ->]]|[-> (x & v & -> & D)]]; [left; split; auto; exists x; cbn; auto|right; left; split; auto; exists x, v; right; left; cbn; auto]].
  destruct (fin_input deg d) as [[xd ud]|] eqn:E4; [|intros H; injection H as <-; apply F in E4 as [[-> [x ->]]|[-> (x & v & -> & D)]]; [left; split; auto; exists x; cbn; auto|right; left; split; auto; exists x, v; right; right; cbn; auto]].
  destruct (fin_input deg e) as [[xe ue]|] eqn:E5; [|intros H; injection H as <-; apply F in E5 as [[-> [x ->]]|[-> (x & v & -> & D)]]; [left; split; auto; exists x; cbn; auto 10|right; left; split; auto; exists x, v; right; right; cbn; auto]].
  cbn [rbind]. destruct (Rltb_spec (-1) i); [|discriminate]. intros H. injection H as <-. right. right. auto.
Qed.

(** comparisons *)
Lemma scale_lt a b c : 0 < c -> Rltb (a * c) (b * c) = Rltb a b.
Proof. intros H. destruct (Rltb_spec a b) as [L|L]; [apply Rltb_true; nra|apply Rltb_false; nra]. Qed.
Lemma scale_le a b c : 0 < c -> Rleb (a * c) (b * c) = Rleb a b.
Proof. intros H. destruct (Rleb_spec a b) as [L|L]; [apply Rleb_true; nra|apply Rleb_false; nra]. Qed.
Lemma nlt_scale a b c : 0 < c -> nlt (nmul a (Fin c)) (nmul b (Fin c)) = nlt a b.
Proof. intros H. destruct a as [a| | |], b as [b| | |]; cbn [nmul]; rewrite ?inf_signed_pos by auto; auto. cbn [nlt]. apply scale_lt; auto. Qed.
Lemma nle_scale a b c : 0 < c -> nle (nmul a (Fin c)) (nmul b (Fin c)) = nle a b.
Proof. intros H. destruct a as [a| | |], b as [b| | |]; cbn [nmul]; rewrite ?inf_signed_pos by auto; auto. cbn [nle]. apply scale_le; auto. Qed.
Definition tevs (x : num) (u : qunit) : num := nmul x (Fin (qu_scale u / tev)).
Lemma to_tev x u : unit_of energy_dim u -> to_value (mkQ x u) TeV = Ok (tevs x u).
Proof. intros [D S]. unfold to_value. cbn [q_unit q_val]. rewrite D, TeV_dim, deqb_refl, TeV_scale. reflexivity. Qed.
Lemma cmp_tev f : (forall a b c, 0 < c -> f (nmul a (Fin c)) (nmul b (Fin c)) = f a b) ->
  forall x u y v, unit_of energy_dim u -> unit_of energy_dim v -> q_cmp f (mkQ x u) (mkQ y v) = Ok (f (tevs x u) (tevs y v)).
Proof.
  intros Hf x u y v [Du Su] [Dv Sv]. unfold q_cmp, to_value. cbn [q_unit q_val]. rewrite Du, Dv, deqb_refl. cbn [rbind]. f_equal.
  rewrite <- (Hf _ _ (qu_scale u / tev)) by posr. unfold tevs. f_equal. rewrite nmul_assoc_fin by posr. f_equal. f_equal. pose proof tev_pos. field. lra.
Qed.
Lemma integral_tev i xl ul xh uh xm um xM uM : unit_of energy_dim ul -> unit_of energy_dim uh -> unit_of energy_dim um -> unit_of energy_dim uM ->
  q_powerlaw_pdf_integral i (mkQ xl ul) (mkQ xh uh) (mkQ xm um) (mkQ xM uM) = Ok (powerlaw_pdf_integral i (tevs xl ul) (tevs xh uh) (tevs xm um) (tevs xM uM)).
Proof. intros. unfold q_powerlaw_pdf_integral. rewrite !to_tev by auto. reflexivity. Qed.
Lemma energy_integral_tev s q lo hi u : sim_measures s q -> unit_of energy_dim u ->
  q_energy_integral q (mkQ lo u) (mkQ hi u) = Ok (energy_integral s (tevs lo u) (tevs hi u)).
Proof.
  intros (Hn & Hi & [Um Em] & [UM EM] & _) Hu. unfold q_energy_integral, energy_integral, qty. rewrite Hi, Em, EM.
  fold (tevs (Fin (fst (qs_energy_min q))) (snd (qs_energy_min q))). fold (tevs (Fin (fst (qs_energy_max q))) (snd (qs_energy_max q))).
  rewrite !integral_tev by auto. cbn [rbind].
  assert (G : forall a b c, 0 < c -> ngt (nmul a (Fin c)) (nmul b (Fin c)) = ngt a b) by (intros; unfold ngt; apply nlt_scale; auto).
  assert (G' : forall a b c, 0 < c -> nge (nmul a (Fin c)) (nmul b (Fin c)) = nge a b) by (intros; unfold nge; apply nle_scale; auto).
  rewrite (cmp_tev nle nle_scale) by auto. cbn [rbind]. rewrite (cmp_tev nge G') by auto. cbn [rbind].
  rewrite (cmp_tev ngt G) by auto. cbn [rbind]. rewrite (cmp_tev nlt nlt_scale) by auto. cbn [rbind].
  match goal with |- context [rbind (if ?b then Ok ?x else Ok ?y)] => replace (if b then Ok x else Ok y) with (Ok (if b then x else y)) by (destruct b; reflexivity) end.
  cbn [rbind]. rewrite (cmp_tev ngt G) by auto. cbn [rbind]. rewrite (cmp_tev nlt nlt_scale) by auto. cbn [rbind].
  match goal with |- (if ?b then _ else _) = _ => destruct b; reflexivity end.
Qed.
Lemma but_last_map {A B} (f : A -> B) l : but_last (map f l) = map f (but_last l).
Proof. induction l as [|a [|b l] IH]; auto. change (but_last (map f (a :: b :: l))) with (f a :: but_last (map f (b :: l))). rewrite IH. reflexivity. Qed.
Lemma tl_map {A B} (f : A -> B) l : tl (map f l) = map f (tl l).
Proof. destruct l; auto. Qed.
Lemma rlist_ok {A B C} (f : A -> B -> res C) (g : A -> B -> C) l m : (forall a b, f a b = Ok (g a b)) -> rlist (zipwith f l m) = Ok (zipwith g l m).
Proof. intros H. revert m. induction l as [|a l IH]; intros [|b m]; cbn; auto. rewrite H. cbn. rewrite IH. auto. Qed.
Lemma zipwith_map2 {A B C D E} (f : C -> D -> E) (g : A -> C) (h : B -> D) l m : zipwith f (map g l) (map h m) = zipwith (fun a b => f (g a) (h b)) l m.
Proof. revert m. induction l as [|a l IH]; intros [|b m]; cbn; auto. rewrite IH. auto. Qed.
Theorem c69_per_energy s q bins u : sim_measures s q -> unit_of energy_dim u ->
  q_n_showers_per_energy q (AQty (mkQA bins u)) = Ok (calculate_n_showers_per_energy s (map (fun e => nmul e (Fin (qu_scale u / tev))) bins)).
Proof.
  intros M Hu. unfold q_n_showers_per_energy. cbn [array_input qa_unit]. rewrite (proj1 Hu), TeV_dim, deqb_refl. cbn [rbind qa_unit qa_val].
  unfold calculate_n_showers_per_energy. rewrite but_last_map, tl_map, zipwith_map2. apply rlist_ok. intros lo hi.
  rewrite (energy_integral_tev s) by auto. cbn [rbind]. destruct M as (-> & _). reflexivity.
Qed.
Theorem c69_energy_errors q : (forall l, q_n_showers_per_energy q (APlain l) = Err TypeError) /\
  (forall l u, qu_dim u <> energy_dim -> q_n_showers_per_energy q (AQty (mkQA l u)) = Err UnitsError).
Proof. split; [reflexivity|]. intros l u H. unfold q_n_showers_per_energy, array_input. cbn [qa_unit]. rewrite TeV_dim. apply deqb_false in H. rewrite H. reflexivity. Qed.

(** viewcone *)
Lemma in_rad x u : in_unit (x, u) rad = x * qu_scale u.
Proof. unfold in_unit. cbn. field. Qed.
Lemma viewcone_bin_rad xm um xM uM u lo hi : 0 < qu_scale um -> 0 < qu_scale uM -> 0 < qu_scale u ->
  q_viewcone_bin (xm, um) (xM, uM) u lo hi = viewcone_bin (xm * qu_scale um) (xM * qu_scale uM) (lo * qu_scale u) (hi * qu_scale u).
Proof.
  intros Sm SM S. unfold q_viewcone_bin, viewcone_bin. rewrite !in_rad.
  assert (Em : in_unit (xm, um) u * qu_scale u = xm * qu_scale um) by (unfold in_unit; cbn [fst snd]; field; lra).
  assert (EM : in_unit (xM, uM) u * qu_scale u = xM * qu_scale uM) by (unfold in_unit; cbn [fst snd]; field; lra).
  rewrite <- (scale_le _ hi (qu_scale u)), <- (scale_le lo _ (qu_scale u)), <- (scale_lt _ lo (qu_scale u)), <- (scale_lt hi _ (qu_scale u)), Em, EM by auto.
  cbv zeta. destruct (_ && _); auto. f_equal. f_equal.
  destruct (Rltb (xm * qu_scale um) (lo * qu_scale u)), (Rltb (hi * qu_scale u) (xM * qu_scale uM)); rewrite ?in_rad, ?Em, ?EM; auto.
Qed.
Theorem c69_per_fov s q bins u : sim_measures s q -> unit_of angle_dim u ->
  q_n_showers_per_fov q bins u = calculate_n_showers_per_fov s (map (fun x => x * qu_scale u) bins).
Proof.
  intros (Hn & _ & _ & _ & _ & [[Dm Sm] Em] & [[DM SM] EM]) [D S]. destruct q as [n a b c i [xm um] [xM uM]]. cbn [qs_n_showers qs_viewcone_min qs_viewcone_max fst snd] in *.
  unfold q_n_showers_per_fov, calculate_n_showers_per_fov. cbn [qs_n_showers qs_viewcone_min qs_viewcone_max]. subst n.
  unfold q_viewcone_pdf_integral, viewcone_pdf_integral. cbn [fst snd]. rewrite D, Dm, DM, deqb_refl. cbn [andb]. rewrite Em, EM.
  replace (Reqb (xM - in_unit (xm, um) uM) 0) with (Reqb (xM * qu_scale uM - xm * qu_scale um) 0).
  2:{ replace (xM * qu_scale uM - xm * qu_scale um) with ((xM - in_unit (xm, um) uM) * qu_scale uM) by (unfold in_unit; cbn [fst snd]; field; lra).
      destruct (Reqb_spec (xM - in_unit (xm, um) uM) 0) as [->|N]; [apply Reqb_true; lra|apply Reqb_false; intros H; apply Rmult_integral in H; lra]. }
  destruct (Reqb _ 0); [reflexivity|]. cbn [rbind]. f_equal. f_equal. rewrite but_last_map, tl_map, zipwith_map2.
  generalize (but_last bins), (tl bins). intros l m. revert m. induction l as [|x l IH]; intros [|y m]; cbn [zipwith]; auto. rewrite IH, viewcone_bin_rad by auto. reflexivity.
Qed.
Theorem c69_fov_errors s q bins u : sim_measures s q -> viewcone_min s <> viewcone_max s -> qu_dim u <> angle_dim -> q_n_showers_per_fov q bins u = Err UnitConversionError.
Proof.
  intros (Hn & _ & _ & _ & _ & [[Dm Sm] Em] & [[DM SM] EM]) N D. destruct q as [n a b c i [xm um] [xM uM]]. cbn [qs_n_showers qs_viewcone_min qs_viewcone_max fst snd] in *.
  unfold q_n_showers_per_fov. cbn [qs_viewcone_min qs_viewcone_max]. unfold q_viewcone_pdf_integral. cbn [fst snd]. rewrite Dm, DM. apply deqb_false in D. rewrite D. cbn [andb].
  replace (Reqb _ 0) with false; [reflexivity|]. symmetry. apply Reqb_false. intros H. apply N. rewrite Em, EM.
  unfold in_unit in H. cbn [fst snd] in H. replace xM with (xm * (qu_scale um / qu_scale uM)) by lra. field. lra.
Qed.
Theorem c69_per_energy_and_fov s q bins u fov v : sim_measures s q -> unit_of energy_dim u -> unit_of angle_dim v ->
  q_n_showers_per_energy_and_fov q (AQty (mkQA bins u)) (GQty fov v) =
  calculate_n_showers_per_energy_and_fov s (map (fun e => nmul e (Fin (qu_scale u / tev))) bins) (map (fun x => x * qu_scale v) fov).
Proof.
  intros M Hu Hv. unfold q_n_showers_per_energy_and_fov. cbn [array_input angle_array qa_unit]. replace (qu_dim deg) with angle_dim by reflexivity.
  rewrite (proj1 Hu), (proj1 Hv), TeV_dim, !deqb_refl. cbn [rbind fst snd]. rewrite (c69_per_energy s) by auto. cbn [rbind]. rewrite (c69_per_fov s) by auto.
  unfold calculate_n_showers_per_energy_and_fov. destruct M as (-> & _). reflexivity.
Qed.
Lemma deg_unit : unit_of angle_dim deg.
Proof. split; [reflexivity|]. cbn. pose proof PI_RGT_0. lra. Qed.
Theorem c69_3d_polar s q bins u fov v pa w : sim_measures s q -> unit_of energy_dim u -> unit_of angle_dim v -> unit_of angle_dim w ->
  q_n_showers_3d_polar q (AQty (mkQA bins u)) (GQty fov v) (GQty pa w) =
  calculate_n_showers_3d_polar s (map (fun e => nmul e (Fin (qu_scale u / tev))) bins) (map (fun x => x * qu_scale v) fov) (map (fun x => x * qu_scale w) pa).
Proof.
  intros M Hu Hv Hw. unfold q_n_showers_3d_polar.
  cbn [array_input angle_array qa_unit]. replace (qu_dim deg) with angle_dim by reflexivity. replace (qu_dim rad) with angle_dim by reflexivity.
  rewrite (proj1 Hu), (proj1 Hv), (proj1 Hw), TeV_dim, !deqb_refl. cbn [rbind fst snd]. rewrite (c69_per_energy_and_fov s) by auto.
  rewrite (c69_per_fov s) by (auto using deg_unit). unfold calculate_n_showers_3d_polar. rewrite map_length.
  replace (map (fun x => x * qu_scale deg) [in_unit (qs_viewcone_min q) deg; in_unit (qs_viewcone_max q) deg]) with [viewcone_min s; viewcone_max s].
  - destruct M as (-> & _). reflexivity.
  - destruct M as (_ & _ & _ & _ & _ & [_ ->] & [_ ->]). cbn [map]. pose proof deg_unit as [_ P].
    assert (X : forall x, in_unit x deg * qu_scale deg = fst x * qu_scale (snd x)) by (intros x; unfold in_unit; field; lra). rewrite !X. reflexivity.
Qed.
