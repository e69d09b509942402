(** * Proofs about the moment morphing extrapolator *)
From Coq Require Import Reals List Bool ZArith Arith Lia Lra.
From Verif Require Import Num Numpy Sort Table Binning SpecBinning BinningProofs Lists CutsProofs CutsProofs2 Utils SpecSimulations SpecIRF IRFProofs IRFProofs2 Morph SpecInterp MorphProofs MorphProofs2 Geometry GeometryProofs GeometryProofs2.
Import ListNotations.
Open Scope R_scope.

Lemma moment_ws f m edges h : length h = (length edges - 1)%nat ->
  moment f (measure m) edges h = rsum (zipwith Rmult (map f (mids edges)) (zipwith Rmult h (ws m edges))).
Proof.
  revert h. induction edges as [|a [|b l] IH]; intros [|x h] H; cbn in H; try lia; unfold ws, mids; try (cbn; rewrite ?rsum_nil; auto; fail).
  change (f ((a + b) / 2) * (x * measure m a b) + moment f (measure m) (b :: l) h =
    rsum (f ((1/2) * (a + b)) * (x * measure m a b) :: zipwith Rmult (map f (mids (b :: l))) (zipwith Rmult h (ws m (b :: l))))).
  rewrite rsum_cons. replace ((a + b) / 2) with (1/2 * (a + b)) by field. f_equal. rewrite IH by (cbn; lia). auto.
Qed.
Lemma sum_centred x p mu : length x = length p ->
  rsum (zipwith Rmult (map (fun y => y - mu) x) p) = rsum (zipwith Rmult x p) - mu * rsum p.
Proof.
  revert p. induction x as [|a x IH]; intros [|b p] H; cbn in H; try lia; cbn [map zipwith]; rewrite ?rsum_nil, ?rsum_cons; [ring|].
  rewrite IH by lia. ring.
Qed.
Lemma std_spread m edges h mu sig : usable_edges m edges -> histogram_of (length edges - 1) h -> 0 < rsum h ->
  estimate_mean_std edges h (nz m) = Ok (mu, sig) -> spread m edges h sig.
Proof.
  intros He Hh Hp E. pose proof (prob_pos m edges He h Hh Hp) as Hq. destruct Hh as (Hl & Hn). unfold estimate_mean_std in E. rewrite get_width in E. cbn [rbind] in E.
  set (p := zipwith Rmult h (ws m edges)) in *. unfold average at 1 in E. destruct (Reqb_spec (rsum p) 0); [lra|]. cbn [rbind] in E.
  set (mu' := rsum (zipwith Rmult (mids edges) p) / rsum p) in *. unfold average in E. destruct (Reqb_spec (rsum p) 0); [lra|]. cbn [rbind] in E.
  assert (Lp : length (mids edges) = length p). { rewrite mids_length. unfold p. rewrite zipwith_length, ws_length, Hl. lia. }
  exists mu'. rewrite !moment_ws by auto. fold p. rewrite integral_ws by auto. fold p.
  split. { rewrite sum_centred by auto. unfold mu'. field. lra. }
  set (v := rsum (zipwith Rmult (map (fun x => (x - mu') * (x - mu')) (mids edges)) p)) in *.
  assert (Hv : 0 <= v).
  { apply rsum_nonneg, zipmul_nonneg. - intros x Hx. apply in_map_iff in Hx. destruct Hx as (y & <- & _). apply Rle_0_sqr.
    - apply zipmul_nonneg; auto. intros y Hy. left. eapply ws_pos; eauto. }
  assert (Hvp : 0 <= v / rsum p) by (apply Rmult_le_pos; auto; left; apply Rinv_0_lt_compat; auto).
  destruct (Reqb_spec (sqrt (v / rsum p)) 0) as [Z|Z].
  - right. split. { apply sqrt_eq_0 in Z; auto. apply (Rmult_eq_reg_r (/ rsum p)); [|apply Rinv_neq_0_compat; lra]. unfold Rdiv in Z. lra. }
    destruct (filter _ _) as [|q [|]] eqn:F; try discriminate. assert (Es : sig = snd q) by congruence.
    assert (Hin : In q (filter (fun p0 : R * R => negb (Reqb (fst p0) 0)) (combine h (map (fun w => sqrt (1/12) * w) (diffR edges))))) by (rewrite F; left; auto).
    apply filter_In in Hin. destruct Hin as (Hin & Hq0). apply negb_true_iff, Reqb_false in Hq0. apply In_nth_error in Hin. destruct Hin as (i & Hi).
    destruct q as (q1 & q2). apply combine_nth_inv in Hi. destruct Hi as (H1 & H2). apply map_nth_inv in H2. destruct H2 as (w & Hw & E2).
    rewrite diffR_zip in Hw. apply adj_inv in Hw. destruct Hw as (a & b & Ha & Hb & ->). exists i, a, b, q1. cbn [fst snd] in *.
    repeat (split; [solve [auto]|]). rewrite Es, E2. unfold width. assert (0 < sqrt 12) by (apply sqrt_lt_R0; lra).
    replace (1/12) with (/ 12) by field. rewrite sqrt_inv. field. lra.
  - left. assert (E1 : sig = sqrt (v / rsum p)) by congruence. rewrite E1. pose proof (sqrt_pos (v / rsum p)). split; [lra|].
    rewrite sqrt_sqrt by auto. field. lra.
Qed.

(** one slice, for arbitrary non-negative templates: the result before clipping *)
Lemma slice_any m edges (pdfs : list (list R)) (cs : list R) : usable_edges m edges -> length cs = length pdfs ->
  (forall h, In h pdfs -> histogram_of (length edges - 1) h) ->
  exists out, moment_morph_slice edges pdfs cs (nz m) = Ok out /\ length out = (length edges - 1)%nat /\
    (integrates_to_one m edges out \/ all_zero out \/ (all_nan out /\ cancelling m edges pdfs cs)) /\
    ((exists h, In h pdfs /\ ~ filled h) -> all_zero out).
Proof.
  intros He Hc Hf.
  destruct (existsb (fun h => Rleb (rsum h) (1/100000000)) pdfs) eqn:E.
  - apply existsb_exists in E. destruct E as (h & Hh & E). rcmp. rewrite (slice_empty m edges He pdfs cs Hc).
    + assert (Z : all_zero (repeat (Fin 0) (length edges - 1))) by (intros x Hx; apply repeat_spec in Hx; auto).
      eexists. split; [reflexivity|]. split; [apply repeat_length|]. split; auto.
    + exists h. split; auto. rewrite Rabs_right; auto. apply Rle_ge, rsum_nonneg. apply Hf; auto.
  - assert (Hfl : forall h, In h pdfs -> histogram_of (length edges - 1) h /\ 1/100000000 < rsum h).
    { intros h Hh. split; [auto|]. destruct (Rlt_le_dec (1/100000000) (rsum h)) as [L|L]; auto. exfalso.
      assert (existsb (fun h => Rleb (rsum h) (1/100000000)) pdfs = true); [|congruence]. apply existsb_exists. exists h. split; auto. rcmp; auto. }
    destruct (slice_full m edges He pdfs cs Hc Hfl) as (ms & ths & Em & Lm & Hms & Hp & Lt & Hth & Eq). cbv zeta in Eq, Hth.
    set (mp := rsum (zipwith (fun c q => c * fst q) cs ms)) in *. set (sp := rsum (zipwith (fun c q => c * snd q) cs ms)) in *.
    match type of Eq with context [map ?g (seq 0 (length edges - 1))] => set (f := map g (seq 0 (length edges - 1))) in * end.
    assert (Lf : length f = (length edges - 1)%nat) by (unfold f; rewrite map_length, seq_length; auto).
    destruct (slice_normalised m edges He pdfs cs Hc Hfl) as (out & Eo & Hs & _). exists out. split; [auto|].
    assert (Nf : ~ exists h, In h pdfs /\ ~ filled h).
    { intros (h & Hh & Hn). apply Hn. unfold filled. rewrite total_rsum. apply Hfl; auto. }
    rewrite Eo in Eq. destruct (Reqb_spec sp 0) as [Es|Es].
    + assert (Ex : out = repeat NaN (length edges - 1)) by congruence. split; [rewrite Ex; apply repeat_length|]. split; [|tauto].
      right; right. split; [intros x Hx; rewrite Ex in Hx; apply repeat_spec in Hx; auto|].
      exists (map snd ms). split; [rewrite map_length; auto|]. split.
      * unfold weighted. rewrite total_rsum. rewrite <- Es. unfold sp. f_equal. clear -Hc Lm. rewrite <- Hc in Lm. clear Hc. revert ms Lm.
        induction cs as [|c l IH]; intros [|q ms] L; cbn in L; try lia; cbn [map combine zipwith]; [auto|]. f_equal. apply IH. lia.
      * intros i h s Hi Hsi. destruct (Hms i h Hi) as (q & Hq & Eq'). apply map_nth_inv in Hsi. destruct Hsi as (q' & Hq' & ->).
        assert (q' = q) by congruence. subst q'. destruct q as (mu & sg). destruct (Hfl h (nth_error_In _ _ Hi)). apply (std_spread m edges h mu sg); auto. lra.
    + match type of Eq with Ok ?a = Ok ?b => assert (Ex : out = b) by congruence end. split; [rewrite Ex, map_length; auto|].
      split; [|tauto]. destruct Hs as [Hs|[Hs|Hs]]; auto. exfalso.
      assert (0 < length out)%nat. { rewrite Ex, map_length, Lf. destruct He as (_ & He & _). lia. }
      destruct out as [|x out]; [cbn in *; lia|]. assert (x = NaN) by (apply Hs; left; auto). subst x.
      assert (In NaN (NaN :: out)) by (left; auto). rewrite Ex in H0. apply in_map_iff in H0. destruct H0 as (y & Hy & _). destruct (Reqb _ 0); discriminate.
Qed.

Lemma rsum_zero_list l : (forall x, In x l -> x = 0) -> rsum l = 0.
Proof. induction l as [|a l IH]; intros H; [apply rsum_nil|]. rewrite rsum_cons, IH, (H a); [ring|left; auto|intros; apply H; right; auto]. Qed.
(** clipping *)
Definition slice_ok (m : measured_by) (edges : list R) (o : list num) : Prop :=
  integrates_to_one m edges o \/ all_zero o \/ all_nan o.
Lemma integral_mono m edges h h' : usable_edges m edges -> length h = (length edges - 1)%nat -> length h' = (length edges - 1)%nat ->
  (forall i x y, nth_error h i = Some x -> nth_error h' i = Some y -> x <= y) -> integral_over (measure m) edges h <= integral_over (measure m) edges h'.
Proof.
  intros He L L' H. rewrite !integral_ws by auto. pose proof (ws_pos m edges He) as Hw. revert Hw L L'. rewrite <- (ws_length m edges). generalize (ws m edges). intros w Hw L L'.
  revert h h' w H Hw L L'. induction h as [|x h IH]; intros [|y h'] [|u w] H Hw L L'; cbn in *; try lia; rewrite ?rsum_nil, ?rsum_cons; [lra|].
  assert (x <= y) by (apply (H 0%nat); auto). assert (0 < u) by (apply Hw; auto).
  assert (rsum (zipwith Rmult h w) <= rsum (zipwith Rmult h' w)). { apply IH; auto. intros i a b Ha Hb. apply (H (S i)); auto. }
  assert (x * u <= y * u) by (apply Rmult_le_compat_r; lra). lra.
Qed.
Lemma zip_fin h w : zipwith (fun x u => nmul x (Fin u)) (map Fin h) w = map Fin (zipwith Rmult h w).
Proof. revert w. induction h as [|x h IH]; intros [|u w]; cbn; auto. f_equal. apply IH. Qed.
Lemma clip_slice m edges o : usable_edges m edges -> length o = (length edges - 1)%nat -> slice_ok m edges o ->
  let o' := renormalise (ws m edges) (map clip_entry o) in
  length o' = (length edges - 1)%nat /\
  (integrates_to_one m edges o -> nonnegative o' /\ integrates_to_one m edges o') /\ (all_zero o -> all_zero o') /\ (all_nan o -> all_nan o').
Proof.
  intros He Lo Ho. cbv zeta. unfold renormalise. set (o1 := map clip_entry o).
  split; [unfold o1; rewrite !map_length; auto|]. split; [|split].
  - intros (h & -> & Lh & Hi). set (h' := map (fun x => if Rltb x 0 then 0 else x) h).
    assert (E1 : o1 = map Fin h'). { unfold o1, h'. rewrite !map_map. apply map_ext. intros x. unfold clip_entry. cbn [nlt]. destruct (Rltb x 0); auto. }
    rewrite E1, zip_fin. assert (L' : length h' = (length edges - 1)%nat) by (unfold h'; rewrite map_length; auto).
    assert (Q : integral_over (measure m) edges h <= integral_over (measure m) edges h').
    { apply integral_mono; auto. intros i x y Hx Hy. apply map_nth_inv in Hy. destruct Hy as (x' & Hx' & ->). assert (x' = x) by congruence. subst. destruct (Rltb x 0) eqn:E; rcmp; lra. }
    set (I := integral_over (measure m) edges h') in *.
    assert (EI : nsum (map Fin (zipwith Rmult h' (ws m edges))) = Fin I).
    { unfold I. rewrite (CutsProofs2.nsum_fin (fun x => x)). rewrite map_id. rewrite integral_ws by auto. auto. }
    rewrite EI. cbn [neqb]. destruct (Reqb_spec I 0); [lra|]. rewrite map_map. cbn [ndiv]. destruct (Reqb_spec I 0); [lra|].
    assert (Hp : forall x, In x h' -> 0 <= x). { intros x Hx. apply in_map_iff in Hx. destruct Hx as (y & <- & _). destruct (Rltb y 0) eqn:E; rcmp; lra. }
    split.
    + intros x Hx. apply in_map_iff in Hx. destruct Hx as (y & <- & Hy). exists (y / I). split; auto. apply Rmult_le_pos; auto. left. apply Rinv_0_lt_compat. lra.
    + exists (map (fun x => x / I) h'). split; [rewrite map_map; auto|]. split; [rewrite map_length; auto|]. rewrite scale_integral by auto. fold I. field. auto.
  - intros Hz. assert (E1 : o1 = map Fin (map (fun _ => 0) o)).
    { unfold o1. rewrite map_map. apply map_ext_in. intros x Hx. rewrite (Hz x Hx). unfold clip_entry. cbn [nlt]. destruct (Rltb 0 0) eqn:E; rcmp; auto; lra. }
    rewrite E1, zip_fin. rewrite (CutsProofs2.nsum_fin (fun x => x)), map_id. rewrite rsum_zero_list.
    + intros x Hx. apply in_map_iff in Hx. destruct Hx as (y & <- & Hy). cbn [neqb]. destruct (Reqb_spec 0 0); [auto|lra].
    + intros x Hx. apply In_nth_error in Hx. destruct Hx as (i & Hi). apply zw_nth_inv in Hi. destruct Hi as (a & b & Ha & Hb & ->). apply map_nth_inv in Ha. destruct Ha as (? & _ & ->). ring.
  - intros Hn. intros x Hx. apply in_map_iff in Hx. destruct Hx as (y & <- & Hy). unfold o1 in Hy. apply in_map_iff in Hy. destruct Hy as (z & <- & Hz). rewrite (Hn z Hz). cbn [clip_entry nlt ndiv].
    rewrite nsum_nan; [auto|]. apply In_nth_error in Hz. destruct Hz as (i & Hi). destruct (nth_some_ex (ws m edges) i) as (w & Hw). { rewrite ws_length, <- Lo. eapply nth_some_lt; eauto. }
    apply nth_error_In with (n := i). rewrite (zipwith_nth (fun x u => nmul x (Fin u)) o1 (ws m edges) i (clip_entry z) w); auto.
    + rewrite (Hn z (nth_error_In _ _ Hi)). auto.
    + unfold o1. apply map_nth_some; auto.
Qed.

Lemma column_nth (k : nat) (rows : list (list (list R))) n : (forall r, In r rows -> length r = n) -> (k < n)%nat ->
  length (column k rows) = length rows /\ forall i h, nth_error (column k rows) i = Some h <-> exists r, nth_error rows i = Some r /\ nth_error r k = Some h.
Proof.
  intros Hl Hk. unfold column. induction rows as [|r rows IH]; [split; auto; intros i h; cbn; destruct i; cbn; split; try discriminate; intros (? & ? & _); discriminate|].
  destruct IH as (IH1 & IH2). { intros; apply Hl; right; auto. }
  destruct (nth_some_ex r k) as (x & Hx). { rewrite (Hl r (or_introl eq_refl)); auto. }
  cbn [flat_map]. rewrite Hx. cbn [app]. split; [cbn; lia|]. intros [|i] h; cbn [nth_error].
  - split; [intros E; exists r; split; congruence|intros (r' & E1 & E2); congruence].
  - apply IH2.
Qed.
Lemma morph_rows_spec m edges n rows c : usable_edges m edges -> templates_of n edges rows -> length c = length rows ->
  exists e, morph_rows edges n rows c (nz m) = Ok e /\ length e = n /\
    forall k o, nth_error e k = Some o -> moment_morph_slice edges (column k rows) c (nz m) = Ok o /\ (k < n)%nat.
Proof.
  intros He Ht Hc. unfold morph_rows, moment_morph_estimation.
  set (g := fun pdf => moment_morph_slice edges pdf c (nz m)).
  destruct (rmap_all_ok g (map (fun k => column k rows) (seq 0 n))) as (e & Ee).
  { intros x Hx. apply in_map_iff in Hx. destruct Hx as (k & <- & Hk). apply in_seq in Hk.
    destruct (column_nth k rows n) as (C1 & C2). { intros r Hr. apply Ht; auto. } { lia. }
    destruct (slice_any m edges (column k rows) c He) as (out & Eo & _). { congruence. }
    { intros h Hh. apply In_nth_error in Hh. destruct Hh as (i & Hi). apply C2 in Hi. destruct Hi as (r & Hr & Hri).
      destruct (Ht r (nth_error_In _ _ Hr)) as (_ & Q). apply Q. eapply nth_error_In; eauto. }
    exists out. auto. }
  exists e. split; [auto|]. destruct (rmap_nth _ _ _ Ee) as (L & Hn). rewrite map_length, seq_length in L. split; [auto|].
  intros k o Hk. assert (Hkn : (k < n)%nat) by (rewrite <- L; eapply nth_some_lt; eauto). split; [|auto].
  destruct (nth_some_ex (map (fun k => column k rows) (seq 0 n)) k) as (x & Hx). { rewrite map_length, seq_length; auto. }
  destruct (Hn k x Hx) as (y & Hy & Ey). pose proof Hx as Hx'. apply seq_map_nth in Hx'. destruct Hx' as (_ & ->).
  assert (y = o) by congruence. subst. auto.
Qed.
Lemma clip_all m edges n rows c e : usable_edges m edges -> templates_of n edges rows -> length c = length rows ->
  morph_rows edges n rows c (nz m) = Ok e -> exists out, clip_negative edges (nz m) e = Ok out /\ length out = n /\
    forall k o, nth_error out k = Some o -> slice_result m edges (column k rows) c o.
Proof.
  intros He Ht Hc Ee. destruct (morph_rows_spec m edges n rows c He Ht Hc) as (e' & Ee' & Le & Hk). assert (e' = e) by congruence. subst e'. clear Ee'.
  assert (Hs : forall k o, nth_error e k = Some o -> length o = (length edges - 1)%nat /\
    (integrates_to_one m edges o \/ all_zero o \/ (all_nan o /\ cancelling m edges (column k rows) c)) /\ ((exists h, In h (column k rows) /\ ~ filled h) -> all_zero o)).
  { intros k o Ho. destruct (Hk k o Ho) as (Eo & Hkn). destruct (column_nth k rows n) as (C1 & C2). { intros r Hr. apply Ht; auto. } { auto. }
    destruct (slice_any m edges (column k rows) c He) as (out & Eo' & H1 & H2 & H3). { congruence. }
    { intros h Hh. apply In_nth_error in Hh. destruct Hh as (i & Hi). apply C2 in Hi. destruct Hi as (r & Hr & Hri).
      destruct (Ht r (nth_error_In _ _ Hr)) as (_ & Q). apply Q. eapply nth_error_In; eauto. }
    assert (out = o) by congruence. subst. auto. }
  unfold clip_negative. destruct (forallb (forallb nonneg_entry) e) eqn:F.
  - exists e. split; [auto|]. split; [auto|]. intros k o Ho. destruct (Hs k o Ho) as (H1 & H2 & H3). split; [auto|]. split; [|auto].
    destruct H2 as [H2|[H2|H2]]; auto. left. split; [|auto]. intros x Hx.
    pose proof (proj1 (forallb_forall _ _) F o (nth_error_In _ _ Ho)) as Fo. pose proof (proj1 (forallb_forall _ _) Fo x Hx) as Fx.
    destruct H2 as (h & -> & _). apply in_map_iff in Hx. destruct Hx as (r & <- & _). exists r. split; auto. unfold nonneg_entry in Fx. cbn [nle] in Fx. rcmp; auto.
  - rewrite get_width. cbn [rbind]. eexists. split; [reflexivity|]. split; [rewrite !map_length; auto|]. intros k o Ho. apply map_nth_inv in Ho. destruct Ho as (o1 & Ho1 & ->).
    apply map_nth_inv in Ho1. destruct Ho1 as (o & Ho & ->). destruct (Hs k o Ho) as (H1 & H2 & H3).
    destruct (clip_slice m edges o He H1) as (Q1 & Q2 & Q3 & Q4). { unfold slice_ok. tauto. }
    split; [auto|]. split; [|auto]. destruct H2 as [H2|[H2|(H2 & H4)]]; auto.
Qed.
(** *** C52: moment morphing *)
Lemma c52_morph_1d m edges n grid templates target : usable_edges m edges -> NoDup grid -> (2 <= length grid)%nat -> length templates = length grid ->
  templates_of n edges templates ->
  exists k a b ta tb c out,
    nth_error grid k = Some a /\ nth_error grid (S k) = Some b /\ nth_error templates k = Some ta /\ nth_error templates (S k) = Some tb /\
    (((forall x, In x grid -> target < x) /\ k = 0%nat) \/ ((exists x, In x grid /\ x <= target) /\ k = (length grid - 2)%nat)) /\
    total c = 1 /\ weighted c [a; b] = target /\
    morph_extrapolate1D grid edges n templates (nz m) target = Ok out /\ List.length out = n /\
    forall q o ha hb, nth_error out q = Some o -> nth_error ta q = Some ha -> nth_error tb q = Some hb -> slice_result m edges [ha; hb] c o.
Proof.
  intros He Hn Hg Hl Ht. destruct (segment_1d grid templates target Hg Hl) as (k & a & b & ta & tb & H). unfold morph_extrapolate1D.
  destruct (segment_inds grid target) as (i & j). destruct H as (E1 & E2 & E3 & E4 & N1 & N2 & N3 & N4 & Hk).
  pose proof (segment_1d_ne grid k a b Hn N1 N2) as Hab.
  pose proof (c49_weights a b target Hab) as Hw. set (c := [(b - target) / (b - a); (target - a) / (b - a)]) in *.
  destruct (c49_sum a b target c Hw) as (S1 & S2 & _).
  assert (Ht2 : templates_of n edges [ta; tb]). { intros t [<-|[<-|[]]]; apply Ht; eapply nth_error_In; eauto. }
  destruct (morph_rows_spec m edges n [ta; tb] c He Ht2 eq_refl) as (e & Ee & _).
  destruct (clip_all m edges n [ta; tb] c e He Ht2 eq_refl Ee) as (out & Eo & Lo & Ho).
  exists k, a, b, ta, tb, c, out. repeat (split; [solve [auto]|]). split; [|split; [auto|]].
  - rewrite E1, E2. cbn [rbind]. rewrite Hw. cbn [rbind]. rewrite E3, E4. cbn [rbind]. rewrite Ee. auto.
  - intros q o ha hb Hq Ha Hb. specialize (Ho q o Hq). unfold column in Ho. cbn [flat_map] in Ho. rewrite Ha, Hb in Ho. auto.
Qed.
Lemma c52_morph_2d m edges n pts sx hl templates target : usable_edges m edges -> good_mesh pts sx hl -> length templates = length pts ->
  templates_of n edges templates ->
  exists k s t c t1 t2 t3 out, find_nearest_simplex (mkTri pts sx hl) target = Ok k /\ nth_error sx k = Some s /\ triangle_of pts s t /\ barycentric t target c /\
    nth_error templates (fst (fst s)) = Some t1 /\ nth_error templates (snd (fst s)) = Some t2 /\ nth_error templates (snd s) = Some t3 /\
    morph_extrapolate2D (mkTri pts sx hl) edges n templates (nz m) target = Ok out /\ List.length out = n /\
    forall q o h1 h2 h3, nth_error out q = Some o -> nth_error t1 q = Some h1 -> nth_error t2 q = Some h2 -> nth_error t3 q = Some h3 ->
      slice_result m edges [h1; h2; h3] c o.
Proof.
  intros He Hm Hl Ht. destruct (c52_nearest pts sx hl Hm 0 [] target) as (k & s & t & _ & _ & _ & _ & Ek & Hk & Hst & _ & _ & _ & _ & _ & _).
  pose proof Hm as (_ & G1 & _). destruct (G1 s (nth_error_In _ _ Hk)) as (t' & Ht' & Hp).
  assert (t' = t). { destruct Hst as (A1 & A2 & A3), Ht' as (B1 & B2 & B3). destruct t as ((?, ?), ?), t' as ((?, ?), ?); cbn [fst snd] in *. congruence. } subst t'. clear Ht'.
  destruct s as ((i & j) & l), t as ((p1 & p2) & p3). pose proof Hst as (H1 & H2 & H3). cbn [fst snd] in *.
  destruct (nth_some_ex templates i) as (t1 & T1). { rewrite Hl. eapply nth_some_lt; eauto. }
  destruct (nth_some_ex templates j) as (t2 & T2). { rewrite Hl. eapply nth_some_lt; eauto. }
  destruct (nth_some_ex templates l) as (t3 & T3). { rewrite Hl. eapply nth_some_lt; eauto. }
  set (c := barycentric_2D_interpolation_coefficients p1 p2 p3 target).
  destruct (c50_weights p1 p2 p3 target c) as (W1 & W2 & W3 & W4). { unfold proper_triangle, doubled_area in Hp. intros E. apply Hp. lra. } { auto. }
  assert (Ht2 : templates_of n edges [t1; t2; t3]). { intros u [<-|[<-|[<-|[]]]]; apply Ht; eapply nth_error_In; eauto. }
  destruct (morph_rows_spec m edges n [t1; t2; t3] c He Ht2 W1) as (e & Ee & _).
  destruct (clip_all m edges n [t1; t2; t3] c e He Ht2 W1 Ee) as (out & Eo & Lo & Ho).
  exists k, (i, j, l), (p1, p2, p3), c, t1, t2, t3, out. repeat (split; [solve [auto | unfold barycentric; cbn [fst snd]; auto]|]). split; [|split; [auto|]].
  - unfold morph_extrapolate2D. rewrite Ek. cbn [rbind simplices points]. rewrite Hk. rewrite (at_point_nth _ _ _ H1), (at_point_nth _ _ _ H2), (at_point_nth _ _ _ H3). fold c.
    rewrite (nth_error_nth _ _ _ T1), (nth_error_nth _ _ _ T2), (nth_error_nth _ _ _ T3). rewrite Ee. auto.
  - intros q o h1 h2 h3 Hq Ha Hb Hd. specialize (Ho q o Hq). unfold column in Ho. cbn [flat_map] in Ho. rewrite Ha, Hb, Hd in Ho. auto.
Qed.

(** *** NaN: the spread of a filled histogram is unique, so cancelling spreads always give NaN *)
Lemma spread_unique m edges h s s' : usable_edges m edges -> histogram_of (length edges - 1) h -> 0 < rsum h ->
  spread m edges h s -> spread m edges h s' -> s = s'.
Proof.
  intros He Hh Hp (mu & M1 & S1) (mu' & M1' & S1'). pose proof (prob_pos m edges He h Hh Hp) as Hq. destruct Hh as (Hl & Hn).
  rewrite moment_ws in M1, M1' by auto. set (p := zipwith Rmult h (ws m edges)) in *.
  assert (Lp : length (mids edges) = length p). { rewrite mids_length. unfold p. rewrite zipwith_length, ws_length, Hl. lia. }
  rewrite sum_centred in M1, M1' by auto. assert (mu' = mu). { apply (Rmult_eq_reg_r (rsum p)); lra. } subst mu'. clear M1 M1'.
  assert (I0 : 0 < integral_over (measure m) edges h) by (rewrite integral_ws; auto).
  set (I := integral_over (measure m) edges h) in *. set (v := moment (fun x => (x - mu) * (x - mu)) (measure m) edges h) in *.
  assert (Mix : forall a, 0 < a -> v = a * a * I -> v = 0 -> False). { intros a Ha E1 E2. assert (0 < a * a * I) by (apply Rmult_lt_0_compat; auto; nra). lra. }
  destruct S1 as [(P1 & V1)|(V1 & i & a & b & x & A1 & A2 & A3 & A4 & A5)]; destruct S1' as [(P1' & V1')|(V1' & i' & a' & b' & x' & A1' & A2' & A3' & A4' & A5')];
    [|exfalso; eauto|exfalso; eauto|].
  - assert (s * s = s' * s') by (apply (Rmult_eq_reg_r I); lra). nra.
  - assert (Key : forall j y c d, nth_error h j = Some y -> y <> 0 -> nth_error edges j = Some c -> nth_error edges (S j) = Some d -> nth_error (mids edges) j = Some mu).
    { intros j y c d Hj Hy Hc Hd. assert (Hm : nth_error (mids edges) j = Some (1/2 * (c + d))) by (apply mids_nth; auto).
      assert (Hjl : (j < length edges - 1)%nat) by (rewrite <- Hl; eapply nth_some_lt; eauto).
      destruct (nth_some_ex (ws m edges) j) as (w & Hw). { rewrite ws_length. auto. }
      assert (Hw0 : 0 < w) by (eapply ws_pos; eauto; eapply nth_error_In; eauto).
      assert (Hpj : nth_error p j = Some (y * w)) by (apply (zipwith_nth Rmult); auto).
      unfold v in V1. rewrite moment_ws in V1 by auto. fold p in V1. set (sq := map (fun x => (x - mu) * (x - mu)) (mids edges)) in *.
      assert (Hsn : forall z, In z sq -> 0 <= z). { intros z Hz. apply in_map_iff in Hz. destruct Hz as (q & <- & _). apply Rle_0_sqr. }
      assert (Hpn : forall z, In z p -> 0 <= z) by (apply zipmul_nonneg; auto; intros z Hz; left; eapply ws_pos; eauto).
      assert (Hsj : nth_error sq j = Some ((1/2 * (c + d) - mu) * (1/2 * (c + d) - mu))) by (unfold sq; apply (map_nth_some (fun x => (x - mu) * (x - mu))); auto).
      assert (Hz : nth_error (zipwith Rmult sq p) j = Some ((1/2 * (c + d) - mu) * (1/2 * (c + d) - mu) * (y * w))) by (apply (zipwith_nth Rmult); auto).
      apply nth_error_In in Hz. apply (rsum_zero _ (zipmul_nonneg _ _ Hsn Hpn) V1) in Hz.
      apply Rmult_integral in Hz. destruct Hz as [Hz|Hz]; [|apply Rmult_integral in Hz; lra].
      rewrite Hm. f_equal. apply Rsqr_0_uniq in Hz. lra. }
    pose proof (Key _ _ _ _ A3 A4 A1 A2) as K1. pose proof (Key _ _ _ _ A3' A4' A1' A2') as K2.
    assert (i = i') by (eapply mids_inj; eauto; apply He). subst i'. congruence.
Qed.
Lemma c52_nan m edges (pdfs : list (list R)) (cs : list R) : usable_edges m edges -> length cs = length pdfs ->
  (forall h, In h pdfs -> histogram_of (length edges - 1) h /\ filled h) -> cancelling m edges pdfs cs ->
  moment_morph_slice edges pdfs cs (nz m) = Ok (repeat NaN (length edges - 1)).
Proof.
  intros He Hc Hf (ss & Ls & Hz & Hs).
  assert (Hfl : forall h, In h pdfs -> histogram_of (length edges - 1) h /\ 1/100000000 < rsum h).
  { intros h Hh. destruct (Hf h Hh) as (H1 & H2). split; auto. }
  destruct (slice_full m edges He pdfs cs Hc Hfl) as (ms & ths & Em & Lm & Hms & Hp & Lt & Hth & Eq). cbv zeta in Eq. rewrite Eq.
  assert (Hm : map snd ms = ss).
  { apply nth_ext_eq; [rewrite map_length; congruence|]. intros k a b Ha Hb. apply map_nth_inv in Ha. destruct Ha as (q & Hq & ->).
    destruct (nth_some_ex pdfs k) as (h & Hh). { rewrite <- Lm. eapply nth_some_lt; eauto. }
    destruct (Hms k h Hh) as (q' & Hq' & Eq'). assert (q' = q) by congruence. subst q'. destruct q as (mu & sg). destruct (Hfl h (nth_error_In _ _ Hh)) as (F1 & F2).
    apply (spread_unique m edges h); auto; [lra| |eapply Hs; eauto]. apply (std_spread m edges h mu sg); auto. lra. }
  assert (E0 : rsum (zipwith (fun c q => c * snd q) cs ms) = 0).
  { rewrite <- Hz. unfold weighted. refine (eq_trans _ (eq_sym (total_rsum _))). f_equal. rewrite <- Hm. clear -Hc Lm. rewrite <- Hc in Lm. clear Hc. revert ms Lm.
    induction cs as [|c l IH]; intros [|q ms] L; cbn in L; try lia; cbn [map combine zipwith]; [auto|]. f_equal. apply IH. lia. }
  rewrite E0. destruct (Reqb_spec 0 0); [auto|lra].
Qed.

(** *** C51, two dimensions *)
Lemma c51_inside_2d m edges (grid : list point) templates i j k (p1 p2 p3 : point) t1 t2 t3 (target : point) : usable_edges m edges ->
  nth_error grid i = Some p1 -> nth_error grid j = Some p2 -> nth_error grid k = Some p3 ->
  nth_error templates i = Some t1 -> nth_error templates j = Some t2 -> nth_error templates k = Some t3 ->
  (forall h, In h [t1; t2; t3] -> histogram_of (length edges - 1) h /\ filled h) ->
  proper_triangle p1 p2 p3 -> in_triangle p1 p2 p3 target ->
  exists out, interpolate2D grid edges templates (nz m) (i, j, k) target = Ok out /\ nonnegative out /\ (integrates_to_one m edges out \/ all_zero out).
Proof.
  intros He G1 G2 G3 T1 T2 T3 Hf Hp Hin. unfold interpolate2D. rewrite G1, G2, G3, T1, T2, T3.
  assert (Hd : (fst p1 - fst p3) * (snd p2 - snd p3) <> (fst p2 - fst p3) * (snd p1 - snd p3)). { unfold proper_triangle, doubled_area in Hp. intros E. apply Hp. lra. }
  destruct (c50_weights p1 p2 p3 target _ Hd eq_refl) as (W1 & W2 & _). pose proof (proj2 (c50_inside p1 p2 p3 target Hd) Hin) as Hpos.
  set (c := barycentric_2D_interpolation_coefficients p1 p2 p3 target) in *.
  assert (Hfl : forall h, In h [t1; t2; t3] -> histogram_of (length edges - 1) h /\ 1/100000000 < rsum h). { intros h Hh. destruct (Hf h Hh). split; auto. }
  destruct (slice_normalised m edges He [t1; t2; t3] c W1 Hfl) as (out & Eo & H1 & H2). exists out. split; [auto|].
  assert (Hn : nonnegative out).
  { apply H2; auto. destruct c as [|a [|b [|d [|]]]]; cbn in W1; try lia. cbn in W2.
    destruct (Rlt_le_dec 0 a); [exists a; split; [left|]; auto|]. destruct (Rlt_le_dec 0 b); [exists b; split; [right; left|]; auto|].
    exists d. split; [right; right; left; auto|lra]. }
  split; [auto|]. destruct H1 as [H1|[H1|H1]]; auto. right. intros x Hx. pose proof (H1 x Hx). destruct (Hn x Hx) as (r & Er & _). congruence.
Qed.
Lemma c51_at_vertex m edges (grid : list point) templates i j k (p1 p2 p3 : point) t1 t2 t3 : usable_edges m edges ->
  nth_error grid i = Some p1 -> nth_error grid j = Some p2 -> nth_error grid k = Some p3 ->
  nth_error templates i = Some t1 -> nth_error templates j = Some t2 -> nth_error templates k = Some t3 ->
  (forall h, In h [t1; t2; t3] -> histogram_of (length edges - 1) h /\ filled h) -> proper_triangle p1 p2 p3 ->
  (exists out, interpolate2D grid edges templates (nz m) (i, j, k) p1 = Ok out /\ normalised m edges t1 out) /\
  (exists out, interpolate2D grid edges templates (nz m) (i, j, k) p2 = Ok out /\ normalised m edges t2 out) /\
  (exists out, interpolate2D grid edges templates (nz m) (i, j, k) p3 = Ok out /\ normalised m edges t3 out).
Proof.
  intros He G1 G2 G3 T1 T2 T3 Hf Hp. unfold interpolate2D. rewrite G1, G2, G3, T1, T2, T3.
  assert (Hd : (fst p1 - fst p3) * (snd p2 - snd p3) <> (fst p2 - fst p3) * (snd p1 - snd p3)). { unfold proper_triangle, doubled_area in Hp. intros E. apply Hp. lra. }
  destruct (c50_vertices p1 p2 p3 Hd) as (V1 & V2 & V3).
  assert (Hfl : forall h, In h [t1; t2; t3] -> histogram_of (length edges - 1) h /\ 1/100000000 < rsum h). { intros h Hh. destruct (Hf h Hh). split; auto. }
  rewrite V1, V2, V3. split; [|split]; apply (slice_same m edges He [t1; t2; t3]); auto; try (rewrite ?rsum_cons, rsum_nil; ring); try (cbn; auto; fail).
  all: intros [|[|[|q]]] c t Hc Ht Hc0; cbn in Hc, Ht; try (destruct q; discriminate); congruence.
Qed.
(** a template whose integral is 0 although its heights don't sum to 0 *)
Lemma c51_zero_division m edges before h after cs : usable_edges m edges ->
  (forall b, In b before -> histogram_of (length edges - 1) b /\ filled b) ->
  (forall b, In b (h :: after) -> 1/100000000 < Rabs (total b)) ->
  length h = (length edges - 1)%nat -> integral_over (measure m) edges h = 0 ->
  moment_morph_slice edges (before ++ h :: after) cs (nz m) = Err ZeroDivisionError.
Proof.
  intros He Hb Hc Hl Hz. unfold moment_morph_slice.
  replace (existsb _ _) with false.
  2:{ symmetry. apply not_true_iff_false. intros H. apply existsb_exists in H. destruct H as (b & Hin & H). unfold isclose0 in H. apply Rleb_true in H.
      apply in_app_or in Hin. destruct Hin as [Hin|Hin].
      - destruct (Hb b Hin) as ((_ & Hn) & Hf). unfold filled in Hf. change (total b) with (rsum b) in Hf. rewrite Rabs_pos_eq in H; lra.
      - specialize (Hc b Hin). change (total b) with (rsum b) in Hc. lra. }
  replace (rmap _ _) with (@Err (list (R * R)) ZeroDivisionError); [reflexivity|].
  symmetry. induction before as [|b before IH]; cbn [app rmap].
  - unfold estimate_mean_std. rewrite get_width. cbn [rbind]. unfold average at 1. rewrite integral_ws in Hz by auto. destruct (Reqb_spec (rsum (zipwith Rmult h (ws m edges))) 0); [reflexivity|contradiction].
  - destruct (Hb b (or_introl eq_refl)) as (H1 & H2). destruct (mean_std m edges He b H1) as (mu & sg & -> & _).
    { unfold filled in H2. change (total b) with (rsum b) in H2. lra. }
    cbn [rbind]. rewrite IH; auto. intros b' Hb'. apply Hb. right; auto.
Qed.
