(** * ColumnsProofs *)
From Coq Require Import String Reals List Bool ZArith Arith Lia Lra.
From Verif Require Import Num Numpy Table Binning BinningProofs Utils Cuts SpecUtils SpecColumns UtilsProofs.
Import ListNotations.
Open Scope R_scope.

Lemma neqb_plain x y : neqb x y = true <-> x <> NaN /\ x = y.
Proof. rewrite neqb_eq. assert (is_nan x = false <-> x <> NaN) by (destruct x; simpl; split; congruence). tauto. Qed.
Lemma neqb_sym x y : neqb x y = neqb y x.
Proof. destruct (neqb y x) eqn:E; [|destruct (neqb x y) eqn:F; auto]. - apply neqb_plain in E as (N & ->). apply neqb_plain. auto. - apply neqb_plain in F as (N & ->). rewrite <- E. symmetry. apply neqb_plain; auto. Qed.
Lemma plain_agree l1 l2 : List.length l1 = List.length l2 -> exists bs, np_zip neqb l1 l2 = Ok bs /\ (forallb (fun b => b) bs = true <-> agree_plain l1 l2).
Proof.
  intros H. rewrite np_zip_eq by auto. eexists. split; [reflexivity|]. rewrite zipwith_forallb by auto. unfold agree_plain.
  split; intros G i x y Hx Hy; apply neqb_plain; eauto.
Qed.
Lemma unit_agree u v l1 l2 : List.length l1 = List.length l2 -> 0 < u_scale u -> 0 < u_scale v -> u_dim u = u_dim v ->
  exists bs, np_zip neqb l1 (map (convert_val v u) l2) = Ok bs /\ (forallb (fun b => b) bs = true <-> same_edges l1 u l2 v).
Proof.
  intros H U V D. destruct (col_eq_edges l1 u l2 v U V H) as (bs & E & I). unfold col_eq in E. cbn [a_unit a_val] in E. rewrite D, Nat.eqb_refl in E. eauto.
Qed.
Lemma zero_inf l : (forall x, In x l -> x <> NaN) -> (forallb arbitrary_unit_ok l = true <-> only_zero_inf l).
Proof.
  intros N. rewrite forallb_forall. unfold only_zero_inf. split; intros H x I; specialize (H x I); specialize (N x I).
  - destruct x as [r| | |]; cbn in H; auto; [|congruence]. apply Reqb_true in H. subst. auto.
  - destruct H as [-> |[-> | ->]]; cbn; auto. now apply Reqb_true.
Qed.
Lemma agree_no_nan l1 l2 : List.length l1 = List.length l2 -> agree_plain l1 l2 -> l1 = l2 /\ forall x, In x l2 -> x <> NaN.
Proof.
  revert l2. induction l1 as [|x l1 IH]; intros [|y l2] L H; try discriminate; [split; [reflexivity|intros ? []]|].
  destruct (H 0%nat x y eq_refl eq_refl) as (N & ->). destruct (IH l2) as (-> & M); [now injection L|intros i a c; apply (H (S i))|].
  split; [reflexivity|]. intros z [<- |I]; auto.
Qed.
Lemma mixed_agree (l1 l2 l : list num) : List.length l1 = List.length l2 -> l = l1 \/ l = l2 ->
  exists bs, (if forallb arbitrary_unit_ok l then np_zip neqb l1 l2 else Ok [false]) = Ok bs /\ (forallb (fun b => b) bs = true <-> only_zero_inf l /\ agree_plain l1 l2).
Proof.
  intros L O. destruct (plain_agree l1 l2 L) as (bs & E & I). destruct (forallb arbitrary_unit_ok l) eqn:F.
  - exists bs. split; auto. rewrite I. split; [|tauto]. intros A. split; auto. destruct (agree_no_nan _ _ L A) as (-> & N).
    apply zero_inf; auto. destruct O as [-> | ->]; auto.
  - exists [false]. split; auto. split; [discriminate|]. intros (Z & A). destruct (agree_no_nan _ _ L A) as (-> & N).
    apply zero_inf in Z; [congruence|]. destruct O as [-> | ->]; auto.
Qed.
Lemma same_edges_sym l1 u l2 v : List.length l1 = List.length l2 -> 0 < u_scale u -> 0 < u_scale v -> same_edges l1 u l2 v -> same_edges l2 v l1 u.
Proof.
  intros L U V (D & H). split; [auto|]. intros i y x Hy Hx. destruct (H i x y Hx Hy) as (N & E). split; [|auto].
  intros ->. apply N. unfold physical in E. destruct x as [r| | |]; cbn in E; auto; unfold inf_signed in E; revert E; rsolve; discriminate.
Qed.
Lemma col_agree a b : positive_unit a -> positive_unit b -> List.length (a_val a) = List.length (a_val b) ->
  exists bs, col_eq a b = Ok bs /\ (forallb (fun b => b) bs = true <-> columns_agree a b).
Proof.
  destruct a as [l1 [u|]], b as [l2 [v|]]; unfold positive_unit, columns_agree; cbn [a_unit a_val]; intros U V L.
  - apply col_eq_edges; auto.
  - unfold col_eq. cbn [a_unit a_val]. destruct (Nat.eqb_spec (u_dim u) dimless_dim) as [D|D].
    + destruct (unit_agree u one_unit l1 l2 L U) as (bs & E & I); [cbn; lra|exact D|]. exists bs. split; auto. rewrite I. split; [left; split; auto|].
      intros [(_ & A)|(C & _)]; [exact A|contradiction].
    + destruct (mixed_agree l1 l2 l2 L) as (bs & E & I); [auto|]. exists bs. split; auto. rewrite I. split; [right; split; auto|].
      intros [(C & _)|(_ & A)]; [contradiction|exact A].
  - unfold col_eq. cbn [a_unit a_val]. destruct (Nat.eqb_spec (u_dim v) dimless_dim) as [D|D].
    + destruct (unit_agree v one_unit l2 l1 (eq_sym L) V) as (bs & E & I); [cbn; lra|exact D|]. exists bs.
      assert (S : same_edges l2 v l1 one_unit <-> same_edges l1 (mkUnit 1 0) l2 v).
      { split; intros S; apply same_edges_sym; auto; cbn; lra. }
      split.
      * rewrite np_zip_eq in * by (rewrite map_length; auto). rewrite <- E. f_equal. clear. revert l2. induction l1 as [|x l1 IH]; intros [|y l2]; try reflexivity. cbn. rewrite IH, neqb_sym. reflexivity.
      * rewrite I, S. split; [left; split; auto|]. intros [(_ & A)|(C & _)]; [exact A|contradiction].
    + destruct (mixed_agree l1 l2 l1 L) as (bs & E & I); [auto|]. exists bs. split; auto. rewrite I. split; [right; split; auto|].
      intros [(C & _)|(_ & A)]; [contradiction|exact A].
  - apply plain_agree; auto.
Qed.
Lemma histograms_agree h1 h2 key lo1 ce1 hi1 lo2 ce2 hi2 :
  (forall c, In c [lo1; ce1; hi1; lo2; ce2; hi2] -> positive_unit c) ->
  List.length (a_val lo1) = List.length (a_val lo2) -> List.length (a_val ce1) = List.length (a_val ce2) -> List.length (a_val hi1) = List.length (a_val hi2) ->
  getitem h1 (key ++ "_low")%string = Some lo1 -> getitem h1 (key ++ "_center")%string = Some ce1 -> getitem h1 (key ++ "_high")%string = Some hi1 ->
  getitem h2 (key ++ "_low")%string = Some lo2 -> getitem h2 (key ++ "_center")%string = Some ce2 -> getitem h2 (key ++ "_high")%string = Some hi2 ->
  (check_histograms h1 h2 key = Ok tt /\ columns_agree lo1 lo2 /\ columns_agree ce1 ce2 /\ columns_agree hi1 hi2) \/
  (check_histograms h1 h2 key = Err ValueError /\ ~ (columns_agree lo1 lo2 /\ columns_agree ce1 ce2 /\ columns_agree hi1 hi2)).
Proof.
  intros P L1 L2 L3 A1 A2 A3 B1 B2 B3.
  destruct (col_agree lo1 lo2) as (b1 & E1 & I1); [apply P; cbn; auto 7..|auto|].
  destruct (col_agree ce1 ce2) as (b2 & E2 & I2); [apply P; cbn; auto 7..|auto|].
  destruct (col_agree hi1 hi2) as (b3 & E3 & I3); [apply P; cbn; auto 8..|auto|].
  unfold check_histograms. cbn [check_keys]. unfold get_col.
  change (key ++ "_" ++ "low")%string with (key ++ "_low")%string.
  change (key ++ "_" ++ "center")%string with (key ++ "_center")%string.
  change (key ++ "_" ++ "high")%string with (key ++ "_high")%string.
  rewrite A1, A2, A3, B1, B2, B3. cbn [rbind]. rewrite E1. cbn [rbind].
  destruct (forallb (fun b => b) b1); [|right; split; auto; intros (H & _); apply I1 in H; discriminate].
  rewrite E2. cbn [rbind].
  destruct (forallb (fun b => b) b2); [|right; split; auto; intros (_ & H & _); apply I2 in H; discriminate].
  rewrite E3. cbn [rbind].
  destruct (forallb (fun b => b) b3); [|right; split; auto; intros (_ & _ & H); apply I3 in H; discriminate].
  left. split; auto. split; [apply I1|split; [apply I2|apply I3]]; auto.
Qed.
(** ** cuts by index *)
Lemma index_python {A} (l : list A) z : (exists a, np_index l z = Ok a /\ python_index l z a) \/ (np_index l z = Err IndexError /\ forall a, ~ python_index l z a).
Proof.
  unfold np_index, python_index. set (n := List.length l). destruct (Z.ltb_spec z 0) as [N|N].
  - destruct (Z.ltb_spec (z + Z.of_nat n) 0) as [M|M]; cbn [orb]; [right; split; [reflexivity|]; intros a [(C & _)|(C & _)]; lia|].
    destruct (Z.leb_spec (Z.of_nat n) (z + Z.of_nat n)) as [K|K]; [lia|].
    destruct (nth_error l (Z.to_nat (z + Z.of_nat n))) as [a|] eqn:E.
    + left. exists a. split; auto. right. split; [lia|]. now rewrite Z.add_comm.
    + apply nth_error_None in E. fold n in E. lia.
  - destruct (Z.ltb_spec z 0) as [M|M]; [lia|]. cbn [orb].
    destruct (Z.leb_spec (Z.of_nat n) z) as [K|K]; [right; split; [reflexivity|]; intros a [(C & _)|(C & _)]; lia|].
    destruct (nth_error l (Z.to_nat z)) as [a|] eqn:E.
    + left. exists a. split; auto.
    + apply nth_error_None in E. fold n in E. lia.
Qed.
Lemma rows_by_index op cuts values : forall idx valid, List.length idx = List.length values -> List.length valid = List.length values ->
  (exists m, eval_rows op cuts values idx valid = Ok m /\ List.length m = List.length values /\
     forall i x z, nth_error values i = Some x -> nth_error idx i = Some z ->
       (nth_error valid i = Some false -> nth_error m i = Some false) /\
       (nth_error valid i = Some true -> exists c, python_index cuts z c /\ nth_error m i = Some (op x c))) \/
  (eval_rows op cuts values idx valid = Err IndexError /\
     exists i z, nth_error valid i = Some true /\ nth_error idx i = Some z /\ forall c, ~ python_index cuts z c).
Proof.
  induction values as [|x values IH]; intros [|z idx] [|v valid] L1 L2; try discriminate.
  - left. exists []. split; [reflexivity|]. split; [reflexivity|]. intros [|i] ? ? H; discriminate.
  - injection L1 as L1. injection L2 as L2. cbn [eval_rows].
    assert (R : (exists k, (if v then do c <- np_index cuts z; Ok (op x c) else Ok false) = Ok k /\
                  (v = false -> k = false) /\ (v = true -> exists c, python_index cuts z c /\ k = op x c)) \/
                ((if v then do c <- np_index cuts z; Ok (op x c) else Ok false) = Err IndexError /\ v = true /\ forall c, ~ python_index cuts z c)).
    { destruct v; [|left; exists false; repeat split; discriminate || auto].
      destruct (index_python cuts z) as [(a & -> & P)|(-> & P)]; cbn [rbind].
      - left. eexists. split; [reflexivity|]. split; [discriminate|eauto].
      - right. auto. }
    destruct R as [(k & -> & K1 & K2)|(-> & -> & K)]; cbn [rbind].
    + destruct (IH idx valid L1 L2) as [(m & -> & Lm & H)|(-> & i & w & H)]; cbn [rbind].
      * left. exists (k :: m). split; [reflexivity|]. split; [cbn; congruence|]. intros [|i] y w Hy Hw; cbn [nth_error] in *; [|apply H; auto].
        injection Hy as <-. injection Hw as <-. split; intros E; injection E as ->; [now rewrite K1|]. destruct K2 as (c & P & ->); eauto.
      * right. split; [reflexivity|]. exists (S i), w. exact H.
    + right. split; [reflexivity|]. exists 0%nat, z. auto.
Qed.
Lemma by_index values idx valid cuts op : List.length idx = List.length values -> List.length valid = List.length values ->
  (exists m, evaluate_binned_cut_by_index true values idx valid cuts op = Ok m /\ List.length m = List.length values /\
     forall i x z, nth_error values i = Some x -> nth_error idx i = Some z ->
       (nth_error valid i = Some false -> nth_error m i = Some false) /\
       (nth_error valid i = Some true -> exists c, python_index cuts z c /\ nth_error m i = Some (op x c))) \/
  (evaluate_binned_cut_by_index true values idx valid cuts op = Err IndexError /\
     exists i z, nth_error valid i = Some true /\ nth_error idx i = Some z /\ forall c, ~ python_index cuts z c).
Proof.
  intros L1 L2. unfold evaluate_binned_cut_by_index. cbn [negb]. rewrite L1, L2, Nat.eqb_refl. cbn [negb]. apply rows_by_index; auto.
Qed.
