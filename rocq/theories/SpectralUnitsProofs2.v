(** * SpectralUnitsProofs2: constructors, simulations, cones, weights, tables and constants with units *)
From Coq Require Import Reals ZArith Lra Lia String List Bool.
From Verif Require Import Num Numpy Sort Lists Utils Simulations Spectral SpectralProofs Quantities SpectralUnits SpecUnits SpectralUnitsProofs.
Import ListNotations.
Open Scope R_scope.

(** ** constructors *)
Lemma index_check i : (if Rltb 0 i then @Err unit ValueError else Ok tt) = Ok tt <-> i <= 0.
Proof. destruct (Rltb_spec 0 i); split; try discriminate; auto; lra. Qed.
Definition constructed (norm : arg) (e_ref : arg) (index_ok : bool) {A} (f : quantity -> quantity -> A) : res A :=
  match norm with
  | Plain _ => Err TypeError
  | Qty n => if existsb (fun u => deqb (qu_dim (q_unit n)) (qu_dim u)) [DIFFUSE_FLUX_UNIT; POINT_SOURCE_FLUX_UNIT] then
      match e_ref with
      | Plain _ => Err TypeError
      | Qty e => if deqb (qu_dim (q_unit e)) energy_dim then if index_ok then Ok (f n e) else Err ValueError else Err UnitsError
      end else Err UnitsError
  end.
Lemma pl_constructed norm i e : q_power_law norm i e = constructed norm e (negb (Rltb 0 i)) (fun n e => QPowerLaw n i e).
Proof.
  unfold q_power_law, qpower_law_init, constructed. destruct norm as [x|n]; [reflexivity|]. unfold quantity_input at 1.
  destruct (existsb _ _); [|reflexivity]. cbn [rbind]. destruct e as [y|e]; [reflexivity|]. rewrite energy_check.
  destruct (deqb _ _); [|reflexivity]. cbn [rbind]. destruct (Rltb 0 i); reflexivity.
Qed.
Lemma lp_constructed norm a b e : q_log_parabola norm a b e = constructed norm e true (fun n e => QLogParabola n a b e).
Proof.
  unfold q_log_parabola, constructed. destruct norm as [x|n]; [reflexivity|]. unfold quantity_input at 1.
  destruct (existsb _ _); [|reflexivity]. cbn [rbind]. destruct e as [y|e]; [reflexivity|]. rewrite energy_check.
  destruct (deqb _ _); reflexivity.
Qed.
Lemma eg_constructed norm i e f mu s : q_exp_gauss norm i e f mu s = constructed norm e (negb (Rltb 0 i)) (fun n e => QExpGauss n i e f mu s).
Proof.
  unfold q_exp_gauss, qpower_law_init, constructed. destruct norm as [x|n]; [reflexivity|]. unfold quantity_input at 1.
  destruct (existsb _ _) eqn:E1; [|reflexivity]. cbn [rbind]. destruct e as [y|e]; [reflexivity|]. rewrite energy_check.
  destruct (deqb _ _) eqn:E2; [|reflexivity]. cbn [rbind]. unfold quantity_input at 1. rewrite E1. cbn [rbind]. rewrite energy_check, E2. cbn [rbind].
  destruct (Rltb 0 i); reflexivity.
Qed.
Lemma constructed_ok {A} n e b (f : quantity -> quantity -> A) s : constructed n e b f = Ok s <->
  b = true /\ exists q r, n = Qty q /\ e = Qty r /\ (exists k, qu_dim (q_unit q) = flux_dim k) /\ qu_dim (q_unit r) = energy_dim /\ s = f q r.
Proof.
  unfold constructed. split.
  - destruct n as [x|q]; [discriminate|]. destruct (existsb _ _) eqn:E; [|discriminate]. destruct e as [x|r]; [discriminate|].
    destruct (deqb _ _) eqn:D; [|discriminate]. destruct b; [|discriminate]. intros H. injection H as <-. split; auto. exists q, r. apply deqb_true in D.
    split; auto. split; auto. split; [|auto]. apply flux_check. unfold quantity_input. rewrite E. auto.
  - intros (-> & q & r & -> & -> & K & D & ->). apply flux_check in K. unfold quantity_input in K. destruct (existsb _ _); [|discriminate].
    rewrite D, deqb_refl. auto.
Qed.
Theorem c68_init n i e s : q_power_law n i e = Ok s <->
  i <= 0 /\ exists q r, n = Qty q /\ e = Qty r /\ (exists k, qu_dim (q_unit q) = flux_dim k) /\ qu_dim (q_unit r) = energy_dim /\ s = QPowerLaw q i r.
Proof. rewrite pl_constructed, constructed_ok. destruct (Rltb_spec 0 i) as [L|L]; cbn [negb]; split; intros [X Y]; try discriminate; split; auto; lra. Qed.
Theorem c68_init_log_parabola n a b e s : q_log_parabola n a b e = Ok s <->
  exists q r, n = Qty q /\ e = Qty r /\ (exists k, qu_dim (q_unit q) = flux_dim k) /\ qu_dim (q_unit r) = energy_dim /\ s = QLogParabola q a b r.
Proof. rewrite lp_constructed, constructed_ok. split; [intros [_ X]; auto|auto]. Qed.
Theorem c68_init_exp_gauss n i e f mu sg s : q_exp_gauss n i e f mu sg = Ok s <->
  i <= 0 /\ exists q r, n = Qty q /\ e = Qty r /\ (exists k, qu_dim (q_unit q) = flux_dim k) /\ qu_dim (q_unit r) = energy_dim /\ s = QExpGauss q i r f mu sg.
Proof. rewrite eg_constructed, constructed_ok. destruct (Rltb_spec 0 i) as [L|L]; cbn [negb]; split; intros [X Y]; try discriminate; split; auto; lra. Qed.
(** the exceptions *)
Theorem c68_init_errors n i e : 
  match n, e with
  | Plain _, _ => q_power_law n i e = Err TypeError
  | Qty q, Plain _ => (exists k, qu_dim (q_unit q) = flux_dim k) -> q_power_law n i e = Err TypeError
  | Qty q, Qty r =>
      ((forall k, qu_dim (q_unit q) <> flux_dim k) -> q_power_law n i e = Err UnitsError) /\
      ((exists k, qu_dim (q_unit q) = flux_dim k) -> qu_dim (q_unit r) <> energy_dim -> q_power_law n i e = Err UnitsError) /\
      ((exists k, qu_dim (q_unit q) = flux_dim k) -> qu_dim (q_unit r) = energy_dim -> 0 < i -> q_power_law n i e = Err ValueError)
  end.
Proof.
  destruct n as [x|q]; [reflexivity|].
  assert (B : (exists k, qu_dim (q_unit q) = flux_dim k) -> quantity_input [DIFFUSE_FLUX_UNIT; POINT_SOURCE_FLUX_UNIT] (Qty q) = Ok q) by apply flux_check.
  destruct e as [y|r].
  - intros K. unfold q_power_law, qpower_law_init. rewrite B by auto. reflexivity.
  - split; [|split].
    + intros H. unfold q_power_law, qpower_law_init. rewrite flux_check_bad by auto. reflexivity.
    + intros K H. unfold q_power_law, qpower_law_init. rewrite B by auto. cbn [rbind]. rewrite energy_check. apply deqb_false in H. rewrite H. reflexivity.
    + intros K H I. unfold q_power_law, qpower_law_init. rewrite B by auto. cbn [rbind]. rewrite energy_check, H, deqb_refl. cbn [rbind]. rsolve. reflexivity.
Qed.
Theorem c68_call_errors q : (forall l, qcall q (APlain l) = Err TypeError) /\ (forall l u, qu_dim u <> energy_dim -> qcall q (AQty (mkQA l u)) = Err UnitsError).
Proof.
  split; [reflexivity|]. intros l u H. unfold qcall, array_input. cbn [qa_unit]. rewrite TeV_dim. apply deqb_false in H. rewrite H. reflexivity.
Qed.

(** ** cones *)
Lemma cone_ok x u y : in_si angle_dim x u y -> q_cone_solid_angle (Qty (mkQ (Fin x) u)) = Ok (mkQ (Fin (cone_solid_angle y)) sr).
Proof.
  intros [[D S] ->]. unfold q_cone_solid_angle. cbn [q_unit]. rewrite D. replace (qu_dim rad) with angle_dim by reflexivity. rewrite deqb_refl.
  unfold to_value. cbn [q_unit q_val]. rewrite D. replace (qu_dim rad) with angle_dim by reflexivity. rewrite deqb_refl. cbn [rbind nmul].
  replace (x * (qu_scale u / qu_scale rad)) with (x * qu_scale u) by (cbn; field). reflexivity.
Qed.
Lemma sub_sr x y : qsub (mkQ (Fin x) sr) (mkQ (Fin y) sr) = Ok (mkQ (Fin (x - y)) sr).
Proof. unfold qsub, to_value. cbn [q_unit q_val]. rewrite deqb_refl. cbn [rbind nmul]. f_equal. f_equal. cbn. unfold nsub. cbn. f_equal. field. Qed.
Lemma angle_input x u y : in_si angle_dim x u y -> quantity_input [rad] (Qty (mkQ (Fin x) u)) = Ok (mkQ (Fin x) u).
Proof. intros [[D _] _]. cbn [quantity_input existsb q_unit]. rewrite D. replace (qu_dim rad) with angle_dim by reflexivity. rewrite deqb_refl. reflexivity. Qed.
Theorem c68_integrate_cone s q xi ui xo uo inner outer : measures s q -> in_si angle_dim xi ui inner -> in_si angle_dim xo uo outer ->
  match integrate_cone s inner outer with
  | Ok s' => exists q', q_integrate_cone q (Qty (mkQ (Fin xi) ui)) (Qty (mkQ (Fin xo) uo)) = Ok q' /\ measures s' q'
  | Err e => q_integrate_cone q (Qty (mkQ (Fin xi) ui)) (Qty (mkQ (Fin xo) uo)) = Err e
  end.
Proof.
  intros M Hi Ho.
  assert (G : forall p n i e, in_flux_unit (q_val n) (q_unit n) (pl_unit p) (pl_norm p) /\ i = pl_index p /\ in_tev (q_val e) (q_unit e) (Fin (pl_e_ref p)) ->
    match integrate_cone_pl p inner outer with
    | Ok s' => exists q', q_integrate_cone (QPowerLaw n i e) (Qty (mkQ (Fin xi) ui)) (Qty (mkQ (Fin xo) uo)) = Ok q' /\ measures s' q'
    | Err e' => q_integrate_cone (QPowerLaw n i e) (Qty (mkQ (Fin xi) ui)) (Qty (mkQ (Fin xo) uo)) = Err e'
    end).
  { intros p n i e ((Hn & En) & -> & He). unfold q_integrate_cone. rewrite (angle_input _ _ _ Hi), (angle_input _ _ _ Ho). cbn [rbind].
    rewrite diffuse_dim. destruct Hn as [Dn Sn]. rewrite Dn. unfold integrate_cone_pl. destruct (pl_unit p).
    - replace (deqb _ _) with false; [reflexivity|]. symmetry. apply deqb_false. intros H. apply (f_equal d_angle) in H. cbn in H. lra.
    - rewrite deqb_refl. rewrite (cone_ok _ _ _ Hi), (cone_ok _ _ _ Ho). cbn [rbind]. rewrite sub_sr. cbn [rbind].
      set (om := cone_solid_angle outer - cone_solid_angle inner).
      assert (F : in_flux_unit (nmul (q_val n) (Fin om)) (umul (q_unit n) sr) PointSource (nmul (pl_norm p) (Fin om))).
      { split; [split|].
        - unfold umul. cbn [qu_dim]. rewrite Dn. dims.
        - cbn. lra.
        - rewrite En. replace (qu_scale (umul (q_unit n) sr) * tev) with (qu_scale (q_unit n) * tev) by (cbn; lra). symmetry. apply nmul_swap. posr. }
      unfold power_law_init. destruct (Rltb 0 (pl_index p)) eqn:I; cbn [rbind].
      + apply Rltb_true in I. destruct He as [[De Se] Ee]. pose proof (c68_init_errors (Qty (qmul n (mkQ (Fin om) sr))) (pl_index p) (Qty e)) as X. cbv iota beta in X.
        apply X; auto. exists PointSource. apply F.
      + apply Rltb_false in I. exists (QPowerLaw (qmul n (mkQ (Fin om) sr)) (pl_index p) e). split.
        * apply c68_init. split; [lra|]. exists (qmul n (mkQ (Fin om) sr)), e. split; auto. split; auto. split; [exists PointSource; apply F|]. split; [apply He|auto].
        * cbn [measures pl_unit pl_norm pl_index pl_e_ref]. split; [exact F|]. auto. }
  destruct s as [p|norm k a b r|p f mu sigma], q as [n i e|n a' b' e|n i e f' mu' sigma']; try contradiction; cbn [measures] in M; cbn [integrate_cone].
  - apply (G p n i e). tauto.
  - reflexivity.
  - specialize (G p n i e). change (q_integrate_cone (QExpGauss n i e f' mu' sigma')) with (q_integrate_cone (QPowerLaw n i e)). apply G. tauto.
Qed.

(** ** weights *)
Lemma udiv_flux k k' u v : unit_of (flux_dim k) u -> unit_of (flux_dim k') v -> deqb (qu_dim (udiv u v)) dnone = unit_eqb k k'.
Proof.
  intros [D _] [D' _]. unfold udiv. cbn [qu_dim]. rewrite D, D'. destruct k, k'; cbn [unit_eqb flux_dim]; first [apply deqb_true; dims|apply deqb_false; intros H; apply (f_equal d_angle) in H; cbn in H; lra].
Qed.
Lemma zipwith_map_eq {A B C D E} (f : A -> B -> E) (g : C -> D -> E) (h : A -> C) (k : B -> D) l m l' m' :
  (forall a b, f a b = g (h a) (k b)) -> map h l = l' -> map k m = m' -> zipwith f l m = zipwith g l' m'.
Proof. intros H <- <-. revert m. induction l as [|a l IH]; intros [|b m]; cbn; auto. rewrite H, IH. auto. Qed.
Lemma zipwith_maps {A B C D} (g : B -> C -> D) (h : A -> B) (k : A -> C) l : zipwith g (map h l) (map k l) = map (fun x => g (h x) (k x)) l.
Proof. induction l; cbn; congruence. Qed.
Theorem c68_weights t s qt qs energies u : measures t qt -> measures s qs -> unit_of energy_dim u ->
  q_event_weights (AQty (mkQA energies u)) (qcall qt) (qcall qs) =
  calculate_event_weights (map (fun e => nmul e (Fin (qu_scale u / tev))) energies) (as_callable t) (as_callable s).
Proof.
  intros Mt Ms Hu. unfold q_event_weights. cbn [array_input qa_unit]. rewrite TeV_dim, (proj1 Hu), deqb_refl. cbn [rbind].
  destruct (qcall_ok t qt energies u Mt Hu) as (Ht & vt & Et & Vt). destruct (qcall_ok s qs energies u Ms Hu) as (Hs & vs & Es & Vs).
  rewrite Et. cbn [rbind]. rewrite Es. cbn [rbind qa_unit qa_val]. rewrite (udiv_flux _ _ _ _ Ht Hs). unfold calculate_event_weights, as_callable. cbn [fst snd].
  destruct (unit_eqb _ _); [|reflexivity]. f_equal.
  rewrite map_map, <- (zipwith_maps ndiv (fun e => fst (call t (nmul e (Fin (qu_scale u / tev))))) (fun e => fst (call s (nmul e (Fin (qu_scale u / tev)))))).
  eapply zipwith_map_eq; [|exact Vt|exact Vs]. intros a b. cbv beta. rewrite <- div_convert; [|destruct Ht; posr|destruct Hs; posr]. f_equal. f_equal. cbn.
  pose proof tev_pos. destruct Ht, Hs. field. lra.
Qed.
Theorem c68_weights_errors qt qs : (forall l, q_event_weights (APlain l) (qcall qt) (qcall qs) = Err TypeError) /\
  (forall l u, qu_dim u <> energy_dim -> q_event_weights (AQty (mkQA l u)) (qcall qt) (qcall qs) = Err UnitsError).
Proof. split; [reflexivity|]. intros l u H. unfold q_event_weights, array_input. cbn [qa_unit]. rewrite TeV_dim. apply deqb_false in H. rewrite H. reflexivity. Qed.
