(** * SensitivityProofs4: estimate_background *)
From Coq Require Import String Reals List Bool ZArith Lia Lra Psatz.
From Verif Require Import Num Numpy Table Binning SpecBinning BinningProofs HistProofs BinningProofs2 CutsProofs Utils UtilsProofs
  Sensitivity SpecSensitivity SensitivityProofs3.
Import ListNotations.
Open Scope R_scope.

(** ** np.interp *)
Lemma interpolates_lift x0 y0 x1 xs y1 ys x y : x0 < x1 -> x1 <= x ->
  interpolates (x1 :: xs) (y1 :: ys) x y -> interpolates (x0 :: x1 :: xs) (y0 :: y1 :: ys) x y.
Proof.
  intros H01 Hx H. inversion H; subst.
  - injection H0 as <-. injection H1 as <-. assert (x = x1) by lra. subst x.
    assert (Hc : interpolates (x0 :: x1 :: xs) (y0 :: y1 :: ys) x1 (y0 + (x1 - x0) / (x1 - x0) * (y1 - y0)))
      by (apply (interp_between _ _ _ 0); auto; lra).
    replace (y0 + (x1 - x0) / (x1 - x0) * (y1 - y0)) with y1 in Hc by (field; lra). exact Hc.
  - eapply interp_right; [| |eauto]; simpl in *; rewrite ?Nat.sub_0_r in *; auto.
  - eapply (interp_between _ _ _ (S i)); eauto.
Qed.
Lemma np_interp_seg_spec xs ys x : increasing xs -> length xs = length ys -> xs <> [] ->
  (forall x0, nth_error xs 0 = Some x0 -> x0 <= x) ->
  exists y, np_interp_seg (Fin x) (map Fin xs) (map Fin ys) = Fin y /\ interpolates xs ys x y.
Proof.
  revert ys; induction xs as [|x0 xs IH]; intros ys Hi Hl Hne Hx; [congruence|].
  destruct ys as [|y0 ys]; [discriminate|]. specialize (Hx x0 eq_refl).
  destruct xs as [|x1 xs].
  - destruct ys; [|discriminate]. exists y0. split; [reflexivity|]. eapply interp_right; simpl; eauto.
  - destruct ys as [|y1 ys]; [discriminate|].
    assert (H01 : x0 < x1) by (apply (Hi 0%nat); auto).
    cbn [map np_interp_seg]. cbn [nlt]. destruct (Rltb_spec x x1) as [Hlt|Hge].
    + cbn [neqb]. destruct (Reqb_spec x0 x) as [->|Hneq].
      * exists y0. split; auto. 
        assert (Hc : interpolates (x :: x1 :: xs) (y0 :: y1 :: ys) x (y0 + (x - x) / (x1 - x) * (y1 - y0)))
          by (apply (interp_between _ _ _ 0); auto; lra).
        replace (y0 + (x - x) / (x1 - x) * (y1 - y0)) with y0 in Hc by (field; lra). exact Hc.
      * exists (y0 + (x - x0) / (x1 - x0) * (y1 - y0)). split.
        { cbn [nsub nneg nadd]. rewrite ndiv_fin by lra. cbn [nmul nadd is_nan]. f_equal. field; lra. }
        apply (interp_between _ _ _ 0); auto; lra.
    + destruct (IH (y1 :: ys)) as (y & Hy & Hint); auto; try discriminate.
      { intros i a b Ha Hb. apply (Hi (S i)); auto. }
      { intros z Hz. injection Hz as <-. lra. }
      exists y. split; [exact Hy|]. apply interpolates_lift; auto; lra.
Qed.
Lemma np_interp1_spec xs ys x : increasing xs -> length xs = length ys -> xs <> [] ->
  exists y, np_interp1 (Fin x) (map Fin xs) (map Fin ys) = Fin y /\ interpolates xs ys x y.
Proof.
  intros Hi Hl Hne. destruct xs as [|x0 xs]; [congruence|]. destruct ys as [|y0 ys]; [discriminate|].
  unfold np_interp1. cbn [map is_nan nlt]. destruct (Rltb_spec x x0).
  - exists y0. split; auto. eapply interp_left; simpl; eauto. lra.
  - apply (np_interp_seg_spec (x0 :: xs) (y0 :: ys)); auto. intros z Hz; injection Hz as <-. lra.
Qed.
Lemma np_interp_seg_inf xs ys d : length xs = length ys -> xs <> [] ->
  np_interp_seg PInf (map Fin xs) (map Fin ys) = Fin (last ys d).
Proof.
  revert ys; induction xs as [|x0 xs IH]; intros ys Hl Hne; [congruence|].
  destruct ys as [|y0 ys]; [discriminate|]. destruct xs as [|x1 xs]; destruct ys as [|y1 ys]; try discriminate; [reflexivity|].
  change (np_interp_seg PInf (map Fin (x1 :: xs)) (map Fin (y1 :: ys)) = Fin (last (y1 :: ys) d)).
  apply IH; auto. discriminate.
Qed.
Lemma np_interp1_pinf xs ys y : length xs = length ys -> xs <> [] ->
  nth_error ys (length ys - 1) = Some y -> np_interp1 PInf (map Fin xs) (map Fin ys) = Fin y.
Proof.
  intros Hl Hne Hy. rewrite <- (last_of_nth ys 0 y Hy).
  destruct xs as [|x0 xs]; [congruence|]. destruct ys as [|y0 ys]; [discriminate|].
  apply (np_interp_seg_inf (x0 :: xs) (y0 :: ys) 0); auto.
Qed.
Lemma np_interp1_ninf xs ys y : length xs = length ys -> xs <> [] ->
  nth_error ys 0 = Some y -> np_interp1 NInf (map Fin xs) (map Fin ys) = Fin y.
Proof.
  intros Hl Hne Hy. destruct xs as [|x0 xs]; [congruence|]. destruct ys as [|y0 ys]; [discriminate|].
  injection Hy as <-. reflexivity.
Qed.
Lemma center_num lo hi : nmul (Fin (1/2)) (nadd (Fin lo) (Fin hi)) = Fin ((lo + hi) / 2).
Proof. cbn [nadd nmul]. f_equal. lra. Qed.
Lemma center_inf lo : nmul (Fin (1/2)) (nadd (Fin lo) PInf) = PInf.
Proof. cbn [nadd nmul]. unfold inf_signed. rsolve; auto. Qed.
Lemma center_ninf hi : nmul (Fin (1/2)) (nadd NInf (Fin hi)) = NInf.
Proof. cbn [nadd nmul]. unfold inf_signed. rsolve; auto. Qed.

(** the interpolated value is determined *)
Lemma increasing_lt l i j a b : increasing l -> (i < j)%nat -> nth_error l i = Some a -> nth_error l j = Some b -> a < b.
Proof. intros H. apply strictly_increasing_lt. apply strictly_increasing_iff; auto. Qed.
Lemma increasing_le l i j a b : increasing l -> (i <= j)%nat -> nth_error l i = Some a -> nth_error l j = Some b -> a <= b.
Proof.
  intros H Hij Ha Hb. apply le_lt_eq_dec in Hij as [Hij| ->].
  - left. eapply increasing_lt; eauto.
  - rewrite Ha in Hb; injection Hb as ->. lra.
Qed.
Lemma nth_lt {A} (l : list A) i a : nth_error l i = Some a -> (i < length l)%nat.
Proof. intros H. apply nth_error_Some. rewrite H. discriminate. Qed.
(** normal form: the value at x as a function of the segment *)
Lemma interpolates_unique xs ys x y y' : increasing xs -> length xs = length ys ->
  interpolates xs ys x y -> interpolates xs ys x y' -> y = y'.
Proof.
  intros Hi Hl.
  assert (Hbb : forall i j x0 x1 y0 y1 z0 z1 w0 w1, nth_error xs i = Some x0 -> nth_error xs (S i) = Some x1 ->
     nth_error ys i = Some y0 -> nth_error ys (S i) = Some y1 -> nth_error xs j = Some z0 -> nth_error xs (S j) = Some z1 ->
     nth_error ys j = Some w0 -> nth_error ys (S j) = Some w1 -> x0 <= x <= x1 -> z0 <= x <= z1 -> x0 < x1 -> z0 < z1 ->
     (i < j)%nat -> y0 + (x - x0) / (x1 - x0) * (y1 - y0) = w0 + (x - z0) / (z1 - z0) * (w1 - w0)).
  { intros. assert (x1 <= z0) by (eapply (increasing_le xs (S i) j); eauto).
    assert (x1 = z0) by lra. assert (x = x1) by lra. assert (S i = j).
    { destruct (Nat.eq_dec (S i) j); auto. assert (x1 < z0) by (eapply (increasing_lt xs (S i) j); eauto; lia). lra. }
    subst j. rewrite H2 in H5. injection H5 as <-. subst z0 x. field. lra. }
  assert (Hlb : forall x0 y0 i z0 z1 w0 w1, nth_error xs 0 = Some x0 -> nth_error ys 0 = Some y0 -> x <= x0 ->
     nth_error xs i = Some z0 -> nth_error xs (S i) = Some z1 -> nth_error ys i = Some w0 -> nth_error ys (S i) = Some w1 ->
     z0 <= x <= z1 -> z0 < z1 -> y0 = w0 + (x - z0) / (z1 - z0) * (w1 - w0)).
  { intros. assert (x0 <= z0) by (eapply (increasing_le xs 0 i); eauto; lia). assert (x = z0) by lra.
    assert (i = 0%nat). { destruct i; auto. assert (x0 < z0) by (eapply (increasing_lt xs 0 (S i)); eauto; lia). lra. }
    subst i. rewrite H0 in H4. injection H4 as <-. subst x. field. lra. }
  assert (Hrb : forall x0 y0 i z0 z1 w0 w1, nth_error xs (length xs - 1) = Some x0 -> nth_error ys (length ys - 1) = Some y0 -> x0 <= x ->
     nth_error xs i = Some z0 -> nth_error xs (S i) = Some z1 -> nth_error ys i = Some w0 -> nth_error ys (S i) = Some w1 ->
     z0 <= x <= z1 -> z0 < z1 -> y0 = w0 + (x - z0) / (z1 - z0) * (w1 - w0)).
  { intros. pose proof (nth_lt _ _ _ H3).
    assert (z1 <= x0) by (eapply (increasing_le xs (S i) (length xs - 1)); eauto; lia). assert (x = z1) by lra.
    assert (Q : S i = (length xs - 1)%nat). { destruct (Nat.eq_dec (S i) (length xs - 1)); auto.
      assert (z1 < x0) by (eapply (increasing_lt xs (S i) (length xs - 1)); eauto; lia). lra. }
    rewrite Hl in Q. rewrite <- Q in H0. rewrite H0 in H5. injection H5 as <-. subst x. field. lra. }
  assert (Hlr : forall x0 y0 xn yn, nth_error xs 0 = Some x0 -> nth_error ys 0 = Some y0 -> x <= x0 ->
     nth_error xs (length xs - 1) = Some xn -> nth_error ys (length ys - 1) = Some yn -> xn <= x -> y0 = yn).
  { intros. pose proof (nth_lt _ _ _ H). destruct (Nat.eq_dec (length xs - 1) 0) as [E|E].
    - rewrite Hl in E. rewrite E in H3. congruence.
    - assert (x0 < xn) by (eapply (increasing_lt xs 0 (length xs - 1)); eauto; lia). lra. }
  intros [x0 y0 A B C|xn yn A B C|i x0 x1 y0 y1 A B C D E F] [x0' y0' A' B' C'|xn' yn' A' B' C'|j z0 z1 w0 w1 A' B' C' D' E' F'].
  - congruence.
  - eapply Hlr; eauto.
  - eapply Hlb; eauto.
  - symmetry. eapply Hlr; eauto.
  - congruence.
  - eapply Hrb; eauto.
  - symmetry. eapply Hlb; eauto.
  - symmetry. eapply Hrb; eauto.
  - destruct (Nat.lt_trichotomy i j) as [L|[->|L]].
    + eapply (Hbb i j); eauto.
    + rewrite A in A'; injection A' as <-. rewrite B in B'; injection B' as <-. rewrite C in C'; injection C' as <-.
      rewrite D in D'; injection D' as <-. auto.
    + symmetry. eapply (Hbb j i); eauto.
Qed.

(** ** invariants of tables *)
Lemma setitem_names {A} (t : list (string * A)) k c x : In x (colnames (setitem t k c)) <-> x = k \/ In x (colnames t).
Proof.
  induction t as [|[k' c'] t IH]; simpl; [intuition|]. destruct (String.eqb_spec k k') as [->|]; simpl; [intuition|].
  rewrite IH. intuition.
Qed.
Lemma setitem_nodup {A} (t : list (string * A)) k c : NoDup (colnames t) -> NoDup (colnames (setitem t k c)).
Proof.
  induction t as [|[k' c'] t IH]; simpl; intros H; [repeat constructor; auto|].
  inversion H; subst. destruct (String.eqb_spec k k') as [->|]; simpl; [constructor; auto|].
  constructor; [|auto]. intros Hi. apply setitem_names in Hi as [->|]; auto.
Qed.
Lemma getitem_in {A} (t : list (string * A)) k : In k (colnames t) <-> exists c, getitem t k = Some c.
Proof.
  destruct (getitem t k) as [c|] eqn:E; split; eauto.
  - intros _. destruct (in_dec string_dec k (colnames t)) as [|Hn]; auto. apply getitem_None_notin in Hn. congruence.
  - intros Hi. apply getitem_None_notin in E. contradiction.
  - intros [c Hc]; discriminate.
Qed.
Definition all_length (t : table) (L : nat) : Prop := forall k c, getitem t k = Some c -> length (col_nums c) = L.
Lemma all_length_set t k c L : all_length t L -> length (col_nums c) = L -> all_length (setitem t k c) L.
Proof.
  intros H Hc k2 c2 H2. destruct (string_dec k2 k) as [->|Hn].
  - rewrite getitem_setitem_eq in H2. injection H2 as <-. auto.
  - rewrite getitem_setitem_neq in H2 by auto. eauto.
Qed.
Lemma counts_length evs edges : edges <> [] -> length (diffZ (cum_counts ev_x evs edges)) = (length edges - 1)%nat.
Proof. apply hist_length. Qed.
Lemma weighted_length evs hw edges : edges <> [] -> length (col_nums (weighted_col evs hw edges)) = (length edges - 1)%nat.
Proof.
  intros H. unfold weighted_col. destruct hw; cbn [col_nums]; rewrite map_length; [apply hist_length_w|apply hist_length]; auto.
Qed.
Lemma but_last_length {A} (l : list A) : length (but_last l) = (length l - 1)%nat.
Proof. induction l as [|a [|b l] IH]; simpl in *; auto. rewrite IH. lia. Qed.
Lemma tl_length' {A} (l : list A) : length (tl l) = (length l - 1)%nat.
Proof. destruct l; simpl; lia. Qed.
Lemma hist_table_length ev edges key : edges <> [] -> all_length (hist_table ev edges key) (length edges - 1).
Proof.
  intros Hne.
  assert (Hb : all_length (base_table (et_rows ev) (et_has_weight ev) edges key) (length edges - 1)).
  { unfold base_table. repeat apply all_length_set; cbn [col_nums]; rewrite ?map_length.
    - intros k c; discriminate.
    - apply but_last_length. - apply tl_length'.
    - rewrite zipwith_length, but_last_length, tl_length'. lia.
    - apply counts_length; auto. - apply weighted_length; auto. }
  unfold hist_table. destruct (_ && _); auto. generalize dependent (base_table (et_rows ev) (et_has_weight ev) edges key).
  induction (group_keys _) as [|p ks IH]; intros t Ht; auto. cbn [add_groups_pure]. apply IH.
  repeat apply all_length_set; auto; cbn [col_nums]; rewrite ?map_length; [apply counts_length|apply weighted_length]; auto.
Qed.
Lemma hist_table_nodup ev edges key : NoDup (colnames (hist_table ev edges key)).
Proof.
  assert (Hb : NoDup (colnames (base_table (et_rows ev) (et_has_weight ev) edges key))).
  { unfold base_table. repeat apply setitem_nodup. constructor. }
  unfold hist_table. destruct (_ && _); auto. generalize dependent (base_table (et_rows ev) (et_has_weight ev) edges key).
  induction (group_keys _) as [|p ks IH]; intros t Ht; auto. cbn [add_groups_pure]. apply IH.
  repeat apply setitem_nodup; auto.
Qed.

Lemma scale_columns_ok names ratio a t : NoDup names -> (forall k, In k names -> In k (colnames t)) ->
  all_length t (length ratio) ->
  exists t', scale_columns names ratio a t = Ok t' /\ forall k,
    (~ In k names -> getitem t' k = getitem t k) /\
    (In k names -> forall c, getitem t k = Some c ->
       getitem t' k = Some (CN (zipwith (fun x s => ndiv (nmul x s) a) (col_nums c) ratio))).
Proof.
  revert t; induction names as [|n names IH]; intros t Hnd Hin Hlen.
  - exists t. split; auto. intros k; split; auto. intros [].
  - inversion Hnd; subst. destruct (proj1 (getitem_in t n) (Hin n (or_introl eq_refl))) as [c Hc].
    cbn [scale_columns]. unfold get_col. rewrite Hc. cbn [rbind]. rewrite np_zip_eq by (apply (Hlen n); auto). cbn [rbind].
    assert (Ez : map (fun x => ndiv x a) (zipwith nmul (col_nums c) ratio) = zipwith (fun x s => ndiv (nmul x s) a) (col_nums c) ratio).
    { clear. generalize (col_nums c). intros l. revert ratio; induction l as [|x l IH]; intros [|y r]; simpl; auto. f_equal; auto. }
    rewrite Ez. set (nc := zipwith _ _ _).
    destruct (IH (setitem t n (CN nc))) as (t' & Ht' & Hk); auto.
    { intros k Hk. apply setitem_names. right. apply Hin. right; auto. }
    { apply all_length_set; auto. unfold nc. cbn [col_nums]. rewrite zipwith_length. rewrite (Hlen n c Hc). lia. }
    exists t'. split; auto. intros k. destruct (Hk k) as [Hk1 Hk2]. split.
    + intros Hn. rewrite Hk1 by (intros ?; apply Hn; right; auto). apply getitem_setitem_neq. intros ->; apply Hn; left; auto.
    + intros [<-|Hi] c' Hc'.
      * rewrite Hk1 by auto. rewrite getitem_setitem_eq. rewrite Hc in Hc'. injection Hc' as <-. reflexivity.
      * apply Hk2; auto. rewrite getitem_setitem_neq; auto. intros ->. contradiction.
Qed.

(** ** the scale factor of a bin *)
Definition ratio_of (centers cuts : list R) (mn mx : R) (c : num) : num :=
  ndiv (ncone (np_interp1 c (map Fin centers) (map Fin cuts))) (nsub (ncone (Fin mx)) (ncone (Fin mn))).
Lemma cos_lt mn mx : 0 <= mn -> mn < mx -> mx <= PI -> cos mx < cos mn.
Proof. intros. apply cos_decreasing_1; lra. Qed.
Lemma ratio_fin centers cuts mn mx c th : 0 <= mn -> mn < mx -> mx <= PI ->
  np_interp1 c (map Fin centers) (map Fin cuts) = Fin th ->
  ratio_of centers cuts mn mx c = Fin (ring_ratio th mn mx).
Proof.
  intros H0 H1 H2 E. unfold ratio_of. rewrite E. pose proof (cos_lt _ _ H0 H1 H2). pose proof PI_RGT_0.
  unfold ncone, ncos. cbn [nsub nneg nadd nmul]. rewrite ndiv_fin.
  - f_equal. unfold ring_ratio. 
    assert (HP : 2 * PI <> 0) by lra. assert (HC : cos mn - cos mx <> 0) by lra.
    replace (2 * PI * (1 + - cos mx) + - (2 * PI * (1 + - cos mn))) with (2 * PI * (cos mn - cos mx)) by ring.
    field. split; [lra|]. lra.
  - intros E2. assert (2 * PI * (cos mn - cos mx) = 0) by lra. apply Rmult_integral in H4. lra.
Qed.
Lemma ratio_bin centers cuts mn mx lo hi : increasing centers -> length centers = length cuts -> centers <> [] ->
  0 <= mn -> mn < mx -> mx <= PI -> nle lo hi = true -> (exists r, lo = Fin r \/ hi = Fin r) ->
  exists th, cut_for_bin centers cuts lo hi th /\
    ratio_of centers cuts mn mx (nmul (Fin (1/2)) (nadd lo hi)) = Fin (ring_ratio th mn mx).
Proof.
  intros Hi Hl Hne H0 H1 H2 Hle [r Hr].
  assert (Hy : exists y, nth_error cuts 0 = Some y) by (apply nth_error_ex; destruct centers; [congruence|simpl in Hl; lia]).
  assert (Hz : exists y, nth_error cuts (length cuts - 1) = Some y) by (apply nth_error_ex; destruct centers; [congruence|simpl in Hl; lia]).
  destruct lo as [a| | |], hi as [b| | |]; try discriminate Hle; try (destruct Hr; discriminate).
  - rewrite center_num. destruct (np_interp1_spec centers cuts ((a + b) / 2) Hi Hl Hne) as (y & Ey & Iy).
    exists y. split; [constructor; auto|]. apply ratio_fin; auto.
  - rewrite center_inf. destruct Hz as [y Ey]. exists y. split; [constructor; auto|]. apply ratio_fin; auto.
    apply np_interp1_pinf; auto.
  - rewrite center_ninf. destruct Hy as [y Ey]. exists y. split; [constructor; auto|]. apply ratio_fin; auto.
    apply np_interp1_ninf; auto.
Qed.

Lemma number_of_map_filter {A B} (P : B -> Prop) (f : A -> B) (q : A -> bool) (Q : A -> Prop) l m :
  (forall a, q a = true <-> Q a) ->
  number_of P (map f (filter q l)) m -> number_of (fun a => Q a /\ P (f a)) l m.
Proof.
  intros HQ. revert m; induction l as [|a l IH]; intros m H; simpl in H.
  - inversion H; constructor.
  - destruct (q a) eqn:E.
    + simpl in H. inversion H; subst; [apply no_yes|apply no_no]; auto. { split; auto. apply HQ; auto. } tauto.
    + apply no_no; auto. intros [HA _]. apply HQ in HA. congruence.
Qed.
Lemma weight_of_map_filter {A B} (w : B -> R) (P : B -> Prop) (f : A -> B) (q : A -> bool) (Q : A -> Prop) l m :
  (forall a, q a = true <-> Q a) ->
  weight_of w P (map f (filter q l)) m -> weight_of (fun a => w (f a)) (fun a => Q a /\ P (f a)) l m.
Proof.
  intros HQ. revert m; induction l as [|a l IH]; intros m H; simpl in H.
  - inversion H; constructor.
  - destruct (q a) eqn:E.
    + simpl in H. inversion H; subst; [apply (wo_yes (fun a => w (f a)))|apply wo_no]; auto. { split; auto. apply HQ; auto. } tauto.
    + apply wo_no; auto. intros [HA _]. apply HQ in HA. congruence.
Qed.
Lemma nth_but_last {A} (l : list A) k x : nth_error l k = Some x -> (S k < length l)%nat -> nth_error (but_last l) k = Some x.
Proof.
  revert k; induction l as [|a l IH]; intros k H Hk; [simpl in Hk; lia|].
  destruct l as [|b l]; [simpl in Hk; lia|]. destruct k; simpl in *; auto. apply IH; auto. lia.
Qed.
Lemma nth_tl {A} (l : list A) k : nth_error (tl l) k = nth_error l (S k).
Proof. destruct l; simpl; auto. destruct k; auto. Qed.
Lemma center_nth edges k lo hi : nth_error edges k = Some lo -> nth_error edges (S k) = Some hi ->
  nth_error (bin_center edges) k = Some (nmul (Fin (1/2)) (nadd lo hi)).
Proof.
  intros Hlo Hhi. unfold bin_center. apply (zipwith_nth (fun a b => nmul (Fin (1/2)) (nadd a b))).
  - apply nth_but_last; auto. apply nth_lt in Hhi; auto.
  - rewrite nth_tl; auto.
Qed.

Section Background.
Variables (events : list bg_event) (hw hp : bool) (edges : list num) (centers cuts : list R) (alpha mn mx : R).
Hypotheses (Hnd : nondecreasing edges) (Hlen : (2 <= length edges)%nat)
  (Hinc : increasing centers) (Hcl : length centers = length cuts) (Hcne : centers <> [])
  (Ha : alpha <> 0) (Hmn : 0 <= mn) (Hmx : mn < mx) (Hpi : mx <= PI).

Let q (e : bg_event) : bool := nge (bg_offset e) (Fin mn) && nlt (bg_offset e) (Fin mx).
Let ring := map bg_ev (filter q events).
Let ev := mkEvents ring hw hp.
Let ratio := map (ratio_of centers cuts mn mx) (bin_center edges).

Lemma q_spec e : q e = true <-> in_annulus mn mx (bg_offset e).
Proof. unfold q, in_annulus, nge. rewrite andb_true_iff. tauto. Qed.

Lemma background_ok : exists t,
  estimate_background events hw hp edges (map Fin centers) (map Fin cuts) (Fin alpha) (Fin mn) (Fin mx) = Ok t /\
  forall k, (starts_with "n" k = false -> getitem t k = getitem (hist_table ev edges "reco_energy") k) /\
    (starts_with "n" k = true -> forall c, getitem (hist_table ev edges "reco_energy") k = Some c ->
       getitem t k = Some (CN (zipwith (fun x s => ndiv (nmul x s) (Fin alpha)) (col_nums c) ratio))).
Proof.
  assert (Hne : edges <> []) by (intros E; rewrite E in Hlen; simpl in Hlen; lia).
  unfold estimate_background. fold q. fold ring. fold ev. rewrite create_histogram_table_ok by auto. cbn [rbind].
  assert (Ei : np_interp (bin_center edges) (map Fin centers) (map Fin cuts) =
    Ok (map (fun x => np_interp1 x (map Fin centers) (map Fin cuts)) (bin_center edges))).
  { unfold np_interp. rewrite !map_length, Hcl, Nat.eqb_refl. destruct centers; [congruence|reflexivity]. }
  rewrite Ei. cbn [rbind]. rewrite !map_map.
  change (map (fun x => ndiv (ncone (np_interp1 x (map Fin centers) (map Fin cuts)))
     (nsub (ncone (Fin mx)) (ncone (Fin mn)))) (bin_center edges)) with ratio.
  set (h := hist_table ev edges "reco_energy").
  destruct (scale_columns_ok (filter (starts_with "n") (colnames h)) ratio (Fin alpha) h) as (t & Ht & Hk).
  - apply NoDup_filter. apply hist_table_nodup.
  - intros k Hk. apply filter_In in Hk. tauto.
  - unfold ratio, bin_center. rewrite map_length, zipwith_length, but_last_length, tl_length', Nat.min_id. apply hist_table_length; auto.
  - exists t. split; [exact Ht|]. intros k. destruct (Hk k) as [K1 K2]. split.
    + intros E. apply K1. intros Hi. apply filter_In in Hi. destruct Hi. congruence.
    + intros E c Hc. apply K2; auto. apply filter_In. split; auto. apply getitem_in. eauto.
Qed.
Lemma ratio_nth k lo hi : nth_error edges k = Some lo -> nth_error edges (S k) = Some hi -> (exists r, lo = Fin r \/ hi = Fin r) ->
  exists th, cut_for_bin centers cuts lo hi th /\ nth_error ratio k = Some (Fin (ring_ratio th mn mx)).
Proof.
  intros Hlo Hhi Hf. destruct (ratio_bin centers cuts mn mx lo hi) as (th & Hth & Er); auto.
  - apply (proj2 Hnd k); auto.
  - exists th. split; auto. unfold ratio. erewrite map_nth_error by (apply center_nth; eauto). rewrite Er. auto.
Qed.
Lemma scaled_nth (c : list num) x k lo hi v : nth_error edges k = Some lo -> nth_error edges (S k) = Some hi ->
  (exists r, lo = Fin r \/ hi = Fin r) -> nth_error c k = Some (Fin x) ->
  nth_error (zipwith (fun x s => ndiv (nmul x s) (Fin alpha)) c ratio) k = Some v ->
  exists th, cut_for_bin centers cuts lo hi th /\ v = Fin (x * ring_ratio th mn mx / alpha).
Proof.
  intros Hlo Hhi Hf Hc Hv. destruct (ratio_nth k lo hi Hlo Hhi Hf) as (th & Hth & Hr). exists th. split; auto.
  rewrite (zipwith_nth (fun x s => ndiv (nmul x s) (Fin alpha)) _ _ _ _ _ Hc Hr) in Hv. injection Hv as <-.
  cbn [nmul]. apply ndiv_fin; auto.
Qed.
Lemma scaled_length (c : list num) : length c = (length edges - 1)%nat ->
  length (zipwith (fun x s => ndiv (nmul x s) (Fin alpha)) c ratio) = (length edges - 1)%nat.
Proof.
  intros E. rewrite zipwith_length, E. unfold ratio, bin_center.
  rewrite map_length, zipwith_length, but_last_length, tl_length'. lia.
Qed.

(** the counts of any selection of the events in the ring *)
Lemma scaled_counts (sel : event -> bool) (k : nat) lo hi v :
  nth_error edges k = Some lo -> nth_error edges (S k) = Some hi -> (exists r, lo = Fin r \/ hi = Fin r) ->
  nth_error (zipwith (fun x s => ndiv (nmul x s) (Fin alpha))
     (col_nums (CZ (diffZ (cum_counts ev_x (filter sel ring) edges)))) ratio) k = Some v ->
  exists th m, cut_for_bin centers cuts lo hi th /\
    number_of (fun e => in_annulus mn mx (bg_offset e) /\ in_hist_bin edges k (ev_x (bg_ev e)) /\ sel (bg_ev e) = true) events m /\
    v = Fin (INR m * ring_ratio th mn mx / alpha).
Proof.
  intros Hlo Hhi Hf Hv. assert (Hne : edges <> []) by (intros E; rewrite E in Hlen; simpl in Hlen; lia).
  destruct (hist_is_histogram ev_x (filter sel ring) edges Hnd Hne) as [HL HN].
  destruct (nth_error_ex (diffZ (cum_counts ev_x (filter sel ring) edges)) k) as [c Hc].
  { rewrite HL. apply nth_lt in Hhi. lia. }
  destruct (HN k c Hc) as (m & -> & Hm).
  destruct (scaled_nth (col_nums (CZ (diffZ (cum_counts ev_x (filter sel ring) edges)))) (INR m) k lo hi v) as (th & Hth & Ev); auto.
  { cbn [col_nums]. erewrite map_nth_error by eauto. rewrite INR_IZR_INZ. auto. }
  exists th, m. split; auto. split; auto.
  apply number_of_filter in Hm. apply (number_of_map_filter _ _ _ (fun e => in_annulus mn mx (bg_offset e)) _ _ q_spec) in Hm. exact Hm.
Qed.
Lemma weight_of_filter {A} (w : A -> R) (P : A -> Prop) (p : A -> bool) l m :
  weight_of w P (filter p l) m -> weight_of w (fun a => P a /\ p a = true) l m.
Proof.
  revert m; induction l as [|a l IH]; intros m H; simpl in H.
  - inversion H; constructor.
  - destruct (p a) eqn:E.
    + inversion H; subst; [apply wo_yes|apply wo_no]; auto. tauto.
    + apply wo_no; [intros [_ ?]; congruence|auto].
Qed.
Lemma scaled_weights (sel : event -> bool) (k : nat) lo hi v : hw = true ->
  nth_error edges k = Some lo -> nth_error edges (S k) = Some hi -> (exists r, lo = Fin r \/ hi = Fin r) ->
  nth_error (zipwith (fun x s => ndiv (nmul x s) (Fin alpha))
     (col_nums (weighted_col (filter sel ring) hw edges)) ratio) k = Some v ->
  exists th W, cut_for_bin centers cuts lo hi th /\
    weight_of (fun e => ev_w (bg_ev e))
      (fun e => in_annulus mn mx (bg_offset e) /\ in_hist_bin edges k (ev_x (bg_ev e)) /\ sel (bg_ev e) = true) events W /\
    v = Fin (W * ring_ratio th mn mx / alpha).
Proof.
  intros Hw Hlo Hhi Hf Hv. assert (Hne : edges <> []) by (intros E; rewrite E in Hlen; simpl in Hlen; lia).
  unfold weighted_col in Hv. rewrite Hw in Hv. 
  destruct (hist_is_histogram_w ev_x ev_w (filter sel ring) edges Hnd Hne) as [HL HN].
  destruct (nth_error_ex (diffR (cum_weights ev_x ev_w (filter sel ring) edges)) k) as [c Hc].
  { rewrite HL. apply nth_lt in Hhi. lia. }
  specialize (HN k c Hc).
  destruct (scaled_nth _ c k lo hi v Hlo Hhi Hf (map_nth_error Fin _ _ Hc) Hv) as (th & Hth & Ev).
  exists th, c. split; auto. split; auto.
  apply weight_of_filter in HN. apply (weight_of_map_filter _ _ _ _ (fun e => in_annulus mn mx (bg_offset e)) _ _ q_spec) in HN. exact HN.
Qed.
End Background.

Lemma filter_all {A} (l : list A) : filter (fun _ => true) l = l.
Proof. induction l; simpl; congruence. Qed.

Lemma c26 events hw hp edges centers cuts alpha mn mx :
  nondecreasing edges -> (2 <= length edges)%nat ->
  increasing centers -> length centers = length cuts -> centers <> [] ->
  alpha <> 0 -> 0 <= mn -> mn < mx -> mx <= PI ->
  exists t n, estimate_background events hw hp edges (map Fin centers) (map Fin cuts) (Fin alpha) (Fin mn) (Fin mx) = Ok t /\
    column t "n" n /\ length n = (length edges - 1)%nat /\
    (forall k lo hi v, nth_error edges k = Some lo -> nth_error edges (S k) = Some hi ->
       (exists r, lo = Fin r \/ hi = Fin r) -> nth_error n k = Some v ->
       exists theta m, cut_for_bin centers cuts lo hi theta /\
         number_of (fun e => in_annulus mn mx (bg_offset e) /\ in_hist_bin edges k (ev_x (bg_ev e))) events m /\
         v = Fin (INR m * ring_ratio theta mn mx / alpha)).
Proof.
  intros. assert (Hne : edges <> []) by (intros E; rewrite E in *; simpl in *; lia).
  destruct (background_ok events hw hp edges centers cuts alpha mn mx) as (t & Ht & Hk); auto.
  eexists t, _. split; [exact Ht|]. split.
  { left. apply (proj2 (Hk "n"%string) eq_refl). apply hist_n. }
  split; [apply scaled_length; auto; apply (eq_trans (map_length _ _)); apply counts_length; auto|].
  intros k lo hi v Hlo Hhi Hf Hv. cbn [et_rows] in Hv.
  rewrite <- (filter_all (map bg_ev _)) in Hv.
  destruct (scaled_counts events edges centers cuts alpha mn mx H H0 H1 H2 H3 H4 H5 H6 H7 (fun _ => true) k lo hi v Hlo Hhi Hf Hv)
    as (th & m & H9 & Hm & Ev).
  exists th, m. split; auto. split; auto.
  clear -Hm. induction Hm; [constructor|apply no_yes|apply no_no]; auto; tauto.
Qed.
Lemma c26_weighted events hp edges centers cuts alpha mn mx :
  nondecreasing edges -> (2 <= length edges)%nat ->
  increasing centers -> length centers = length cuts -> centers <> [] ->
  alpha <> 0 -> 0 <= mn -> mn < mx -> mx <= PI ->
  (hp = true -> forall e, In e events -> ev_p (bg_ev e) <> "weighted"%string) ->
  exists t n, estimate_background events true hp edges (map Fin centers) (map Fin cuts) (Fin alpha) (Fin mn) (Fin mx) = Ok t /\
    column t "n_weighted" n /\ length n = (length edges - 1)%nat /\
    (forall k lo hi v, nth_error edges k = Some lo -> nth_error edges (S k) = Some hi ->
       (exists r, lo = Fin r \/ hi = Fin r) -> nth_error n k = Some v ->
       exists theta w, cut_for_bin centers cuts lo hi theta /\
         weight_of (fun e => ev_w (bg_ev e))
           (fun e => in_annulus mn mx (bg_offset e) /\ in_hist_bin edges k (ev_x (bg_ev e))) events w /\
         v = Fin (w * ring_ratio theta mn mx / alpha)).
Proof.
  intros. assert (Hne : edges <> []) by (intros E; rewrite E in *; simpl in *; lia).
  destruct (background_ok events true hp edges centers cuts alpha mn mx) as (t & Ht & Hk); auto.
  eexists t, _. split; [exact Ht|]. split.
  { left. apply (proj2 (Hk "n_weighted"%string) eq_refl). apply hist_nw. cbn [et_has_ptype et_rows]. intros Hp e He.
    apply in_map_iff in He as (b & <- & Hb). apply filter_In in Hb. apply H8; tauto. }
  split; [apply scaled_length; auto; apply weighted_length; auto|].
  intros k lo hi v Hlo Hhi Hf Hv. cbn [et_rows et_has_weight] in Hv.
  rewrite <- (filter_all (map bg_ev _)) in Hv.
  destruct (scaled_weights events true edges centers cuts alpha mn mx H H0 H1 H2 H3 H4 H5 H6 H7 (fun _ => true) k lo hi v eq_refl Hlo Hhi Hf Hv)
    as (th & m & H9 & Hm & Ev).
  exists th, m. split; auto. split; auto.
  clear -Hm. induction Hm; [constructor|apply (wo_yes (fun e => ev_w (bg_ev e)))|apply wo_no]; auto; tauto.
Qed.
(** per-particle columns *)
Lemma c26_particles events edges centers cuts alpha mn mx p :
  nondecreasing edges -> (2 <= length edges)%nat ->
  increasing centers -> length centers = length cuts -> centers <> [] ->
  alpha <> 0 -> 0 <= mn -> mn < mx -> mx <= PI ->
  no_collision (map (fun e => ev_p (bg_ev e)) events) ->
  (exists e, In e events /\ in_annulus mn mx (bg_offset e) /\ ev_p (bg_ev e) = p) ->
  exists t n, estimate_background events true true edges (map Fin centers) (map Fin cuts) (Fin alpha) (Fin mn) (Fin mx) = Ok t /\
    column t (("n_" ++ p) ++ "_weighted") n /\ length n = (length edges - 1)%nat /\
    (forall k lo hi v, nth_error edges k = Some lo -> nth_error edges (S k) = Some hi ->
       (exists r, lo = Fin r \/ hi = Fin r) -> nth_error n k = Some v ->
       exists theta w, cut_for_bin centers cuts lo hi theta /\
         weight_of (fun e => ev_w (bg_ev e))
           (fun e => in_annulus mn mx (bg_offset e) /\ in_hist_bin edges k (ev_x (bg_ev e)) /\ ev_p (bg_ev e) = p) events w /\
         v = Fin (w * ring_ratio theta mn mx / alpha)).
Proof.
  intros Hnd Hlen Hinc Hcl Hcne Ha Hmn Hmx Hpi Hcol (e0 & He0 & Hr0 & Hp0).
  assert (Hne : edges <> []) by (intros E; rewrite E in *; simpl in *; lia).
  destruct (background_ok events true true edges centers cuts alpha mn mx) as (t & Ht & Hk); auto.
  set (q := fun e => nge (bg_offset e) (Fin mn) && nlt (bg_offset e) (Fin mx)) in *.
  set (ring := map bg_ev (filter q events)) in *.
  assert (Hin : forall x, In x (map ev_p ring) -> In x (map (fun e => ev_p (bg_ev e)) events)).
  { intros x Hx. unfold ring in Hx. rewrite map_map in Hx. apply in_map_iff in Hx as (e & <- & He).
    apply filter_In in He. apply in_map_iff. exists e; tauto. }
  assert (Hp : In p (map ev_p ring)).
  { unfold ring. rewrite map_map. apply in_map_iff. exists e0. split; auto. apply filter_In. split; auto. apply q_spec; auto. }
  assert (Hg : getitem (hist_table (mkEvents ring true true) edges "reco_energy") (("n_" ++ p) ++ "_weighted")
     = Some (weighted_col (group ring p) true edges)).
  { unfold hist_table. cbn [et_has_ptype et_rows et_has_weight].
    destruct ring as [|r0 rs] eqn:Er; [destruct Hp|]. rewrite <- Er in *. 
    replace (Nat.eqb (length ring) 0) with false by (rewrite Er; auto). cbn [negb andb].
    apply add_groups_get; [apply nodup_group_keys| |apply in_group_keys; auto].
    intros x y Hx Hy. apply Hcol; apply Hin; apply in_group_keys; auto. }
  eexists t, _. split; [exact Ht|]. split.
  { left. apply (proj2 (Hk ((("n_" ++ p) ++ "_weighted")%string)) (prefix_app "n" (("_" ++ p) ++ "_weighted"))). exact Hg. }
  split; [apply scaled_length; auto; apply weighted_length; auto|].
  intros k lo hi v Hlo Hhi Hf Hv.
  destruct (scaled_weights events true edges centers cuts alpha mn mx Hnd Hlen Hinc Hcl Hcne Ha Hmn Hmx Hpi
     (fun e => String.eqb (ev_p e) p) k lo hi v eq_refl Hlo Hhi Hf Hv)
    as (th & m & H9 & Hm & Ev).
  exists th, m. split; auto. split; auto.
  clear -Hm. induction Hm as [|a l r Ha Hm IH|a l r Ha Hm IH]; [constructor|apply (wo_yes (fun e => ev_w (bg_ev e)))|apply wo_no]; auto;
    rewrite String.eqb_eq in Ha; tauto.
Qed.
