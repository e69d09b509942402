(** * Proofs about the geometry helpers and the simplex extrapolators *)
From Coq Require Import Reals List Bool ZArith Arith Lia Lra.
From Verif Require Import Num Numpy Sort Table Binning SpecBinning BinningProofs Lists CutsProofs CutsProofs2 Utils SpecSimulations SpecIRF IRFProofs IRFProofs2 Morph SpecInterp MorphProofs MorphProofs2 Geometry.
Import ListNotations.
Open Scope R_scope.

(** sqrt (h^2 + e^2) lies between h and h + |e| *)
Lemma hyp_low h e : 0 <= h -> h <= sqrt (h * h + e * e).
Proof. intros. rewrite <- (sqrt_square h) at 1 by auto. apply sqrt_le_1; nra. Qed.
Lemma hyp_high h e : 0 <= h -> 0 <= e -> sqrt (h * h + e * e) <= h + e.
Proof. intros. rewrite <- (sqrt_square (h + e)) by lra. apply sqrt_le_1; nra. Qed.
Lemma hyp_mono h e f : Rabs e <= Rabs f -> sqrt (h * h + e * e) <= sqrt (h * h + f * f).
Proof.
  intros H. assert (e * e <= f * f). { rewrite <- (Rsqr_abs e), <- (Rsqr_abs f) || idtac. change (Rsqr e <= Rsqr f). apply Rsqr_le_abs_1; auto. }
  apply sqrt_le_1; nra.
Qed.

Section Plumb.
Variables (A B P : point).
Hypothesis Hne : A <> B.
Let bx := fst B - fst A.
Let by_ := snd B - snd A.
Let px := fst P - fst A.
Let py := snd P - snd A.
Let L2 := bx * bx + by_ * by_.
Let L := sqrt L2.
Let r := (px * bx + py * by_) / L2.
Let h := Rabs (px * by_ - py * bx) / L.

Lemma L2_pos : 0 < L2.
Proof.
  unfold L2. destruct (Req_dec bx 0) as [E|E].
  - destruct (Req_dec by_ 0) as [E'|E']; [|nra]. exfalso. apply Hne. unfold bx, by_ in *. destruct A, B. cbn in *. f_equal; lra.
  - nra.
Qed.
Lemma L_pos : 0 < L.
Proof. apply sqrt_lt_R0, L2_pos. Qed.
Lemma L_sq : L * L = L2.
Proof. apply sqrt_sqrt. left; apply L2_pos. Qed.
Lemma h_nonneg : 0 <= h.
Proof. apply Rmult_le_pos; [apply Rabs_pos|]. left. apply Rinv_0_lt_compat, L_pos. Qed.
Lemma h_sq : h * h = (px * by_ - py * bx) * (px * by_ - py * bx) / L2.
Proof.
  unfold h. rewrite <- L_sq. pose proof L_pos.
  replace (Rabs (px * by_ - py * bx) / L * (Rabs (px * by_ - py * bx) / L)) with (Rabs (px * by_ - py * bx) * Rabs (px * by_ - py * bx) / (L * L)) by (field; lra).
  f_equal. rewrite <- Rabs_mult, Rabs_right; auto. apply Rle_ge, Rle_0_sqr.
Qed.
Lemma dist_line s : distance P (on_segment A B s) = sqrt (h * h + (L * (s - r)) * (L * (s - r))).
Proof.
  unfold distance. f_equal. replace (L * (s - r) * (L * (s - r))) with (L2 * ((s - r) * (s - r))) by (rewrite <- L_sq; ring).
  rewrite h_sq. pose proof L2_pos. unfold r. unfold on_segment. cbn [fst snd].
  replace (fst P - (fst A + s * (fst B - fst A))) with (px - s * bx) by (unfold px, bx; ring).
  replace (snd P - (snd A + s * (snd B - snd A))) with (py - s * by_) by (unfold py, by_; ring).
  clearbody px py bx by_. unfold L2 in *. field. lra.
Qed.
Lemma foot_r s : foot_at A B P s <-> s = r.
Proof.
  unfold foot_at, on_segment. cbn [fst snd].
  replace ((fst P - (fst A + s * (fst B - fst A))) * (fst B - fst A) + (snd P - (snd A + s * (snd B - snd A))) * (snd B - snd A))
    with (px * bx + py * by_ - s * L2) by (unfold L2, px, py, bx, by_; ring).
  pose proof L2_pos. unfold r. split; intros E.
  - apply (Rmult_eq_reg_r L2); [|lra]. field_simplify; [lra|lra].
  - rewrite E. field. lra.
Qed.
Lemma seg_dist d : distance_to_segment A B P d <-> d = sqrt (h * h + (L * (Rmax 0 (Rmin 1 r) - r)) * (L * (Rmax 0 (Rmin 1 r) - r))).
Proof.
  set (c := Rmax 0 (Rmin 1 r)).
  assert (Hc : 0 <= c <= 1). { unfold c, Rmax, Rmin. destruct (Rle_dec 1 r); destruct (Rle_dec 0 _); lra. }
  assert (Hmin : forall s, 0 <= s <= 1 -> Rabs (c - r) <= Rabs (s - r)).
  { intros s Hs. unfold c, Rmax, Rmin. destruct (Rle_dec 1 r); destruct (Rle_dec 0 _); unfold Rabs; repeat destruct (Rcase_abs _); lra. }
  assert (Hm : forall s, 0 <= s <= 1 -> sqrt (h * h + (L * (c - r)) * (L * (c - r))) <= distance P (on_segment A B s)).
  { intros s Hs. rewrite dist_line. apply hyp_mono. rewrite !Rabs_mult. apply Rmult_le_compat_l; [apply Rabs_pos|auto]. }
  split.
  - intros ((s & Hs & <-) & Hd). apply Rle_antisym; [|apply Hm; auto].
    rewrite <- dist_line. apply Hd; auto.
  - intros ->. split; [|auto]. exists c. split; auto. apply dist_line.
Qed.

Lemma plumb_eq : plumb_point_dist (A, B) P =
  if isclose1 (Rabs r + Rabs (1 - r)) && negb (isclose0 r || isclose0 (1 - r)) then h
  else Rmin (sqrt (h * h + (L * r) * (L * r))) (sqrt (h * h + (L * (1 - r)) * (L * (1 - r)))).
Proof.
  pose proof L2_pos as HL. unfold plumb_point_dist. cbn [fst snd].
  set (r1 := if Reqb (fst B - fst A) 0 then _ else _). set (r2 := if Reqb (fst A - fst B) 0 then _ else _).
  assert (E1 : r1 = r).
  { unfold r1, dot, vsub, vadd, vscale, r. cbn [fst snd]. fold bx by_ px py. fold L2.
    assert (X : forall u, fst A + u - fst A = u) by (intros; ring). assert (Y : forall u, snd A + u - snd A = u) by (intros; ring). rewrite X, Y.
    destruct (Reqb_spec bx 0) as [E|E].
    - assert (by_ <> 0) by (intros E'; unfold L2 in HL; rewrite E, E' in HL; lra). unfold L2 in *. rewrite E in *. field; repeat split; lra.
    - unfold L2 in *. field; repeat split; lra. }
  assert (E2 : r2 = 1 - r).
  { unfold r2, dot, vsub, vadd, vscale, r. cbn [fst snd].
    replace (fst A - fst B) with (- bx) by (unfold bx; ring). replace (snd A - snd B) with (- by_) by (unfold by_; ring).
    replace (fst P - fst B) with (px - bx) by (unfold px, bx; ring). replace (snd P - snd B) with (py - by_) by (unfold py, by_; ring).
    replace (- bx * - bx + - by_ * - by_) with L2 by (unfold L2; ring).
    assert (X : forall u, fst B + u - fst B = u) by (intros; ring). assert (Y : forall u, snd B + u - snd B = u) by (intros; ring). rewrite X, Y.
    destruct (Reqb_spec (- bx) 0) as [E|E].
    - assert (bx = 0) by lra. assert (by_ <> 0) by (intros E'; unfold L2 in HL; rewrite H, E' in HL; lra). unfold L2 in *. rewrite H in *. field; repeat split; lra.
    - unfold L2 in *. field; repeat split; lra. }
  rewrite E1, E2. clearbody r1 r2. clear E1 E2 r1 r2.
  destruct (isclose1 (Rabs r + Rabs (1 - r)) && negb (isclose0 r || isclose0 (1 - r))); [reflexivity|].
  f_equal.
  - pose proof (dist_line 0) as D. replace (L * (0 - r) * (L * (0 - r))) with (L * r * (L * r)) in D by ring. rewrite <- D.
    unfold vnorm, vsub, distance, on_segment. cbn [fst snd]. f_equal. ring.
  - pose proof (dist_line 1) as D. rewrite <- D. unfold vnorm, vsub, distance, on_segment. cbn [fst snd]. f_equal. ring.
Qed.
End Plumb.

(** C54: distance *)
Lemma len_eq A B : distance A B = sqrt ((fst B - fst A) * (fst B - fst A) + (snd B - snd A) * (snd B - snd A)).
Proof. unfold distance. f_equal. ring. Qed.
Ltac rabs := unfold Rabs in *; repeat match goal with |- context [Rcase_abs ?x] => destruct (Rcase_abs x) | H : context [Rcase_abs ?x] |- _ => destruct (Rcase_abs x) end.
Lemma tol1 r : isclose1 (Rabs r + Rabs (1 - r)) = true -> -6/1000000 < r < 1 + 6/1000000.
Proof. unfold isclose1. intros H. rcmp. rewrite (Rabs_right 1) in H by lra. rabs; lra. Qed.
Lemma tol1_in r : 0 <= r <= 1 -> isclose1 (Rabs r + Rabs (1 - r)) = true.
Proof. intros H. unfold isclose1. rcmp. rewrite (Rabs_right 1) by lra. rewrite (Rabs_right r), (Rabs_right (1 - r)) by lra. rabs; lra. Qed.
Lemma tol0 r : isclose0 r = true <-> - (1/100000000) <= r <= 1/100000000.
Proof. unfold isclose0. split; intros H; rcmp; rabs; lra. Qed.

Lemma c54_close (A B P : point) d : A <> B -> distance_to_segment A B P d ->
  Rabs (plumb_point_dist (A, B) P - d) <= 1/100000 * distance A B.
Proof.
  intros Hne Hd. rewrite len_eq. rewrite (plumb_eq A B P Hne). apply (proj1 (seg_dist A B P Hne d)) in Hd.
  set (L := sqrt ((fst B - fst A) * (fst B - fst A) + (snd B - snd A) * (snd B - snd A))) in *.
  set (r := ((fst P - fst A) * (fst B - fst A) + (snd P - snd A) * (snd B - snd A)) / ((fst B - fst A) * (fst B - fst A) + (snd B - snd A) * (snd B - snd A))) in *.
  set (h := Rabs ((fst P - fst A) * (snd B - snd A) - (snd P - snd A) * (fst B - fst A)) / L) in *. set (c := Rmax 0 (Rmin 1 r)) in *.
  assert (HL : 0 < L) by (apply (L_pos A B); auto). assert (Hh : 0 <= h) by (apply (h_nonneg A B P); auto).
  clearbody L r h.
  destruct (isclose1 (Rabs r + Rabs (1 - r)) && negb (isclose0 r || isclose0 (1 - r))) eqn:E.
  - apply andb_true_iff in E. destruct E as (E & _). apply tol1 in E.
    assert (Hc : Rabs (c - r) <= 6/1000000). { unfold c, Rmax, Rmin. destruct (Rle_dec 1 r); destruct (Rle_dec 0 _); rabs; lra. }
    pose proof (hyp_low h (L * (c - r)) Hh). pose proof (hyp_high h (Rabs (L * (c - r))) Hh (Rabs_pos _)) as H1.
    rewrite <- Rabs_mult in H1. rewrite (Rabs_right (L * (c - r) * (L * (c - r)))) in H1 by (apply Rle_ge, Rle_0_sqr). rewrite <- Hd in *.
    rewrite Rabs_mult, (Rabs_right L) in H1 by lra. assert (L * Rabs (c - r) <= L * (6/1000000)) by (apply Rmult_le_compat_l; lra). rabs; lra.
  - destruct (Rle_dec r 0) as [R0|R0].
    + rewrite Rmin_left. 2:{ apply hyp_mono. rewrite !Rabs_mult. apply Rmult_le_compat_l; [apply Rabs_pos|]. rabs; lra. }
      assert (c = 0). { unfold c, Rmax, Rmin. destruct (Rle_dec 1 r); destruct (Rle_dec 0 _); lra. }
      rewrite Hd, H. replace (L * (0 - r) * (L * (0 - r))) with (L * r * (L * r)) by ring. unfold Rminus. rewrite Rplus_opp_r, Rabs_R0. lra.
    + destruct (Rle_dec 1 r) as [R1|R1].
      * rewrite Rmin_right. 2:{ apply hyp_mono. rewrite !Rabs_mult. apply Rmult_le_compat_l; [apply Rabs_pos|]. rabs; lra. }
        assert (c = 1). { unfold c, Rmax, Rmin. destruct (Rle_dec 1 r); destruct (Rle_dec 0 _); lra. }
        rewrite Hd, H. unfold Rminus. rewrite Rplus_opp_r, Rabs_R0. lra.
      * rewrite tol1_in in E by lra. cbn in E. apply negb_false_iff, orb_true_iff in E.
        assert (c = r). { unfold c, Rmax, Rmin. destruct (Rle_dec 1 r); destruct (Rle_dec 0 _); lra. }
        assert (Ed : d = h). { rewrite Hd, H. replace (L * (r - r) * (L * (r - r))) with 0 by ring. rewrite Rplus_0_r. apply sqrt_square; auto. }
        assert (M1 : h <= Rmin (sqrt (h * h + L * r * (L * r))) (sqrt (h * h + L * (1 - r) * (L * (1 - r))))) by (apply Rmin_glb; apply hyp_low; auto).
        assert (M2 : Rmin (sqrt (h * h + L * r * (L * r))) (sqrt (h * h + L * (1 - r) * (L * (1 - r)))) <= h + L * (1/100000000)).
        { destruct E as [E|E]; apply tol0 in E.
          - eapply Rle_trans; [apply Rmin_l|]. eapply Rle_trans; [apply hyp_high; auto; apply Rmult_le_pos; lra|]. assert (L * r <= L * (1/100000000)) by (apply Rmult_le_compat_l; lra). lra.
          - eapply Rle_trans; [apply Rmin_r|]. eapply Rle_trans; [apply hyp_high; auto; apply Rmult_le_pos; lra|]. assert (L * (1 - r) <= L * (1/100000000)) by (apply Rmult_le_compat_l; lra). lra. }
        rabs; lra.
Qed.
Lemma c54_exact (A B P : point) s : A <> B -> foot_at A B P s -> foot_clear s -> distance_to_segment A B P (plumb_point_dist (A, B) P).
Proof.
  intros Hne Hs Hcl. apply (proj1 (foot_r A B P Hne s)) in Hs. apply (seg_dist A B P Hne). rewrite (plumb_eq A B P Hne).
  set (L := sqrt ((fst B - fst A) * (fst B - fst A) + (snd B - snd A) * (snd B - snd A))) in *.
  set (r := ((fst P - fst A) * (fst B - fst A) + (snd P - snd A) * (snd B - snd A)) / ((fst B - fst A) * (fst B - fst A) + (snd B - snd A) * (snd B - snd A))) in *.
  set (h := Rabs ((fst P - fst A) * (snd B - snd A) - (snd P - snd A) * (fst B - fst A)) / L) in *. subst s. set (c := Rmax 0 (Rmin 1 r)) in *.
  assert (HL : 0 < L) by (apply (L_pos A B); auto). assert (Hh : 0 <= h) by (apply (h_nonneg A B P); auto).
  clearbody L r h.
  assert (End0 : r <= 0 -> Rmin (sqrt (h * h + L * r * (L * r))) (sqrt (h * h + L * (1 - r) * (L * (1 - r)))) = sqrt (h * h + L * (c - r) * (L * (c - r)))).
  { intros R0. rewrite Rmin_left. 2:{ apply hyp_mono. rewrite !Rabs_mult. apply Rmult_le_compat_l; [apply Rabs_pos|]. rabs; lra. }
    assert (c = 0). { unfold c, Rmax, Rmin. destruct (Rle_dec 1 r); destruct (Rle_dec 0 _); lra. } rewrite H. f_equal. ring. }
  assert (End1 : 1 <= r -> Rmin (sqrt (h * h + L * r * (L * r))) (sqrt (h * h + L * (1 - r) * (L * (1 - r)))) = sqrt (h * h + L * (c - r) * (L * (c - r)))).
  { intros R0. rewrite Rmin_right. 2:{ apply hyp_mono. rewrite !Rabs_mult. apply Rmult_le_compat_l; [apply Rabs_pos|]. rabs; lra. }
    assert (c = 1). { unfold c, Rmax, Rmin. destruct (Rle_dec 1 r); destruct (Rle_dec 0 _); lra. } rewrite H. auto. }
  destruct (isclose1 (Rabs r + Rabs (1 - r)) && negb (isclose0 r || isclose0 (1 - r))) eqn:E.
  - apply andb_true_iff in E. destruct E as (E & E2). apply tol1 in E. apply negb_true_iff, orb_false_iff in E2. destruct E2 as (E2 & E3).
    assert (N0 : ~ (- (1/100000000) <= r <= 1/100000000)) by (rewrite <- tol0; congruence).
    assert (N1 : ~ (- (1/100000000) <= 1 - r <= 1/100000000)) by (rewrite <- tol0; congruence).
    destruct Hcl as [Hc|[Hc|[Hc|[Hc|Hc]]]]; try lra.
    assert (c = r). { unfold c, Rmax, Rmin. destruct (Rle_dec 1 r); destruct (Rle_dec 0 _); lra. }
    rewrite H. replace (L * (r - r) * (L * (r - r))) with 0 by ring. rewrite Rplus_0_r. symmetry. apply sqrt_square; auto.
  - destruct (Rle_dec r 0) as [R0|R0]; [apply End0; auto|]. destruct (Rle_dec 1 r) as [R1|R1]; [apply End1; auto|].
    exfalso. rewrite tol1_in in E by lra. cbn in E. apply negb_false_iff, orb_true_iff in E. destruct E as [E|E]; apply tol0 in E; destruct Hcl as [Hc|[Hc|[Hc|[Hc|Hc]]]]; lra.
Qed.

(** C54: the angle *)
Lemma c54_angle (A B P : point) : A <> P -> B <> P ->
  point_facet_angle (A, B) P * distance P A * distance P B = (fst A - fst P) * (fst B - fst P) + (snd A - snd P) * (snd B - snd P) /\
  -1 <= point_facet_angle (A, B) P <= 1 /\ (proper_triangle A B P -> -1 < point_facet_angle (A, B) P < 1).
Proof.
  intros HA HB. unfold point_facet_angle, dot, vnorm, vsub, proper_triangle, doubled_area. cbn [fst snd].
  assert (pos : forall (X : point), X <> P -> 0 < (fst X - fst P) * (fst X - fst P) + (snd X - snd P) * (snd X - snd P)).
  { intros X HX. pose proof (Rle_0_sqr (fst X - fst P)). pose proof (Rle_0_sqr (snd X - snd P)).
    destruct (Req_dec (fst X) (fst P)) as [E|E]; [|assert (0 < Rsqr (fst X - fst P)) by (apply Rsqr_pos_lt; lra); unfold Rsqr in *; lra].
    destruct (Req_dec (snd X) (snd P)) as [E'|E']; [|assert (0 < Rsqr (snd X - snd P)) by (apply Rsqr_pos_lt; lra); unfold Rsqr in *; lra].
    exfalso. apply HX. destruct X, P; cbn in *; congruence. }
  assert (EA : distance P A = sqrt ((fst A - fst P) * (fst A - fst P) + (snd A - snd P) * (snd A - snd P))) by (unfold distance; f_equal; ring).
  assert (EB : distance P B = sqrt ((fst B - fst P) * (fst B - fst P) + (snd B - snd P) * (snd B - snd P))) by (unfold distance; f_equal; ring).
  rewrite EA, EB. pose proof (pos A HA) as PA. pose proof (pos B HB) as PB.
  set (a1 := fst A - fst P) in *. set (a2 := snd A - snd P) in *. set (b1 := fst B - fst P) in *. set (b2 := snd B - snd P) in *.
  replace ((fst B - fst A) * (snd P - snd A) - (snd B - snd A) * (fst P - fst A)) with (a1 * b2 - a2 * b1) by (unfold a1, a2, b1, b2; ring).
  clearbody a1 a2 b1 b2.
  set (na := sqrt (a1 * a1 + a2 * a2)). set (nb := sqrt (b1 * b1 + b2 * b2)).
  assert (0 < na) by (apply sqrt_lt_R0; auto). assert (0 < nb) by (apply sqrt_lt_R0; auto).
  assert (Sa : na * na = a1 * a1 + a2 * a2) by (apply sqrt_sqrt; lra). assert (Sb : nb * nb = b1 * b1 + b2 * b2) by (apply sqrt_sqrt; lra).
  clearbody na nb. set (D := b1 * a1 + b2 * a2). set (X := a1 * b2 - a2 * b1).
  assert (K : D * D + X * X = (na * nb) * (na * nb)). { replace (na * nb * (na * nb)) with ((na * na) * (nb * nb)) by ring. rewrite Sa, Sb. unfold D, X. ring. }
  assert (HM : 0 < na * nb) by (apply Rmult_lt_0_compat; auto). set (M := na * nb) in *.
  split; [|split].
  - unfold M, D. field. split; lra.
  - assert (Rabs D <= Rabs M). { apply Rsqr_le_abs_0. unfold Rsqr. pose proof (Rle_0_sqr X). unfold Rsqr in *. lra. }
    rewrite (Rabs_right M) in H1 by lra. assert (- M <= D <= M) by (rabs; lra).
    split; (apply (Rmult_le_reg_r M); [lra|]); replace (D / M * M) with D by (field; lra); lra.
  - intros HX. assert (Rabs D < Rabs M). { apply Rsqr_lt_abs_0. unfold Rsqr. assert (0 < Rsqr X) by (apply Rsqr_pos_lt; auto). unfold Rsqr in *. lra. }
    rewrite (Rabs_right M) in H1 by lra. assert (- M < D < M) by (rabs; lra).
    split; (apply (Rmult_lt_reg_r M); [lra|]); replace (D / M * M) with D by (field; lra); lra.
Qed.

(** selection of the best element *)
Section Best.
Context {A : Type} (before : A -> A -> bool).
Hypothesis trans : forall a b c, before a b = false -> before b c = false -> before a c = false.
Hypothesis asym : forall a b, before a b = true -> before b a = false.
Lemma first_best_spec l : forall k best pre, length pre = k -> nth_error pre (fst best) = Some (snd best) ->
  (forall j y, nth_error pre j = Some y -> before y (snd best) = false) ->
  exists x, nth_error (pre ++ l) (first_best before best k l) = Some x /\ forall j y, nth_error (pre ++ l) j = Some y -> before y x = false.
Proof.
  induction l as [|a l IH]; intros k best pre Hk Hb Hm; cbn [first_best].
  - rewrite app_nil_r. eauto.
  - replace (pre ++ a :: l) with ((pre ++ [a]) ++ l) by (rewrite <- app_assoc; auto).
    apply IH.
    + rewrite app_length. cbn. lia.
    + destruct (before a (snd best)); cbn [fst snd].
      * rewrite nth_error_app2, Hk, Nat.sub_diag by lia. auto.
      * rewrite nth_error_app1; auto. eapply nth_some_lt; eauto.
    + intros j y Hj. assert (C : nth_error pre j = Some y \/ y = a).
      { destruct (Nat.lt_ge_cases j (length pre)) as [Lt|Ge]; [rewrite nth_error_app1 in Hj by auto; auto|].
        rewrite nth_error_app2 in Hj by auto. destruct (j - length pre)%nat as [|q]; cbn in Hj; [right; congruence|destruct q; discriminate]. }
      destruct (before a (snd best)) eqn:E; cbn [snd].
      * destruct C as [C| -> ]; [|destruct (before a a) eqn:F; auto; pose proof (asym _ _ F); congruence].
        destruct (before y a) eqn:E2; auto. assert (X : before y (snd best) = false) by (eapply Hm; eauto).
        rewrite (trans _ _ _ X (asym _ _ E)) in E2. discriminate.
      * destruct C as [C| -> ]; auto. eapply Hm; eauto.
Qed.
End Best.
