(** * Numpy: list primitives and numpy functions by their documented behaviour. *)
From Coq Require Import Reals List Bool ZArith Lia Lra Permutation.
From Verif Require Import Num.
Import ListNotations.
Open Scope R_scope.

(** ** counting and summation over lists *)
Definition count {A} (p : A -> bool) (l : list A) : nat := length (filter p l).
Definition rsum (l : list R) : R := fold_right Rplus 0 l.
Definition zsum (l : list Z) : Z := fold_right Z.add 0%Z l.
Arguments rsum : simpl never.
Arguments zsum : simpl never.
Definition nsumn (l : list nat) : nat := fold_right Nat.add 0%nat l.

Lemma count_nil {A} (p : A -> bool) : count p [] = 0%nat.
Proof. reflexivity. Qed.
Lemma count_cons {A} (p : A -> bool) a l :
  count p (a :: l) = ((if p a then 1 else 0) + count p l)%nat.
Proof. unfold count; simpl; destruct (p a); reflexivity. Qed.
Lemma count_app {A} (p : A -> bool) l1 l2 : count p (l1 ++ l2) = (count p l1 + count p l2)%nat.
Proof. unfold count. rewrite filter_app, app_length. reflexivity. Qed.
Lemma count_ext {A} (p q : A -> bool) l : (forall x, In x l -> p x = q x) -> count p l = count q l.
Proof.
  induction l as [|a l IH]; intros H; auto. rewrite !count_cons, (H a), IH; auto.
  - intros; apply H; right; auto.
  - left; auto.
Qed.
Lemma count_perm {A} (p : A -> bool) l1 l2 : Permutation l1 l2 -> count p l1 = count p l2.
Proof.
  induction 1; auto; rewrite ?count_cons; try lia.
Qed.
Lemma count_le {A} (p q : A -> bool) l :
  (forall x, In x l -> p x = true -> q x = true) -> (count p l <= count q l)%nat.
Proof.
  induction l as [|a l IH]; intros H; auto. rewrite !count_cons.
  assert (count p l <= count q l)%nat by (apply IH; intros; apply H; auto; right; auto).
  destruct (p a) eqn:Ep; [rewrite (H a); auto; try lia; left; auto| destruct (q a); lia].
Qed.
Lemma count_split {A} (p q r : A -> bool) l :
  (forall x, In x l -> (if r x then 1 else 0) = (if p x then 1 else 0) + (if q x then 1 else 0))%nat ->
  count r l = (count p l + count q l)%nat.
Proof.
  induction l as [|a l IH]; intros H; auto. rewrite !count_cons, (H a), IH; try lia.
  - intros; apply H; right; auto.
  - left; auto.
Qed.
Lemma count_bound {A} (p : A -> bool) l : (count p l <= length l)%nat.
Proof. induction l as [|a l IH]; auto. rewrite count_cons; simpl; destruct (p a); lia. Qed.
Lemma count_filter {A} (p q : A -> bool) l :
  count p (filter q l) = count (fun x => p x && q x) l.
Proof.
  induction l as [|a l IH]; auto. simpl. destruct (q a) eqn:E; rewrite !count_cons, ?IH, E.
  - rewrite andb_true_r; auto.
  - rewrite andb_false_r; auto.
Qed.
Lemma count_map {A B} (p : B -> bool) (f : A -> B) l : count p (map f l) = count (fun x => p (f x)) l.
Proof. induction l as [|a l IH]; auto. simpl. rewrite !count_cons, IH; auto. Qed.

Lemma rsum_cons a l : rsum (a :: l) = a + rsum l.
Proof. reflexivity. Qed.
Lemma rsum_nil : rsum [] = 0.
Proof. reflexivity. Qed.
Lemma zsum_nil : zsum [] = 0%Z.
Proof. reflexivity. Qed.
Lemma rsum_app l1 l2 : rsum (l1 ++ l2) = rsum l1 + rsum l2.
Proof. induction l1 as [|a l1 IH]; simpl; rewrite ?rsum_nil, ?rsum_cons; lra. Qed.
Lemma rsum_perm l1 l2 : Permutation l1 l2 -> rsum l1 = rsum l2.
Proof. induction 1; rewrite ?rsum_cons; lra. Qed.
Lemma rsum_scale c l : rsum (map (fun x => c * x) l) = c * rsum l.
Proof. induction l as [|a l IH]; simpl; [unfold rsum; simpl; lra|]. rewrite !rsum_cons, IH; lra. Qed.
Lemma rsum_nonneg l : (forall x, In x l -> 0 <= x) -> 0 <= rsum l.
Proof.
  induction l as [|a l IH]; intros H; [unfold rsum; simpl; lra|].
  rewrite rsum_cons. assert (0 <= a) by (apply H; left; auto).
  assert (0 <= rsum l) by (apply IH; intros; apply H; right; auto). lra.
Qed.
Lemma rsum_map_plus {A} (f g : A -> R) l :
  rsum (map (fun x => f x + g x) l) = rsum (map f l) + rsum (map g l).
Proof. induction l as [|a l IH]; simpl; [unfold rsum; simpl; lra|]. rewrite !rsum_cons, IH; lra. Qed.
Lemma rsum_map_const0 {A} (l : list A) : rsum (map (fun _ => 0) l) = 0.
Proof. induction l as [|a l IH]; simpl; auto. rewrite rsum_cons, IH; lra. Qed.
Lemma rsum_map_ext {A} (f g : A -> R) l :
  (forall x, In x l -> f x = g x) -> rsum (map f l) = rsum (map g l).
Proof.
  induction l as [|a l IH]; intros H; auto. simpl. rewrite !rsum_cons, (H a), IH; auto.
  - intros; apply H; right; auto.
  - left; auto.
Qed.
Lemma zsum_cons a l : zsum (a :: l) = (a + zsum l)%Z.
Proof. reflexivity. Qed.
Lemma zsum_app l1 l2 : zsum (l1 ++ l2) = (zsum l1 + zsum l2)%Z.
Proof. induction l1 as [|a l1 IH]; simpl; auto. rewrite !zsum_cons, IH; lia. Qed.

(** sum of the weights of the elements satisfying [p] *)
Definition wsum {A} (w : A -> R) (p : A -> bool) (l : list A) : R := rsum (map w (filter p l)).
Lemma wsum_cons {A} (w : A -> R) p a l :
  wsum w p (a :: l) = (if p a then w a else 0) + wsum w p l.
Proof. unfold wsum; simpl; destruct (p a); simpl; rewrite ?rsum_cons; lra. Qed.
Lemma wsum_nil {A} (w : A -> R) p : wsum w p [] = 0.
Proof. reflexivity. Qed.
Lemma wsum_app {A} (w : A -> R) p l1 l2 : wsum w p (l1 ++ l2) = wsum w p l1 + wsum w p l2.
Proof. unfold wsum. rewrite filter_app, map_app, rsum_app. reflexivity. Qed.
Lemma wsum_perm {A} (w : A -> R) p l1 l2 : Permutation l1 l2 -> wsum w p l1 = wsum w p l2.
Proof. induction 1; auto; rewrite ?wsum_cons; try lra. Qed.
Lemma wsum_ext {A} (w : A -> R) p q l :
  (forall x, In x l -> p x = q x) -> wsum w p l = wsum w q l.
Proof.
  induction l as [|a l IH]; intros H; auto. rewrite !wsum_cons, (H a), IH; auto.
  - intros; apply H; right; auto.
  - left; auto.
Qed.
Lemma wsum_split {A} (w : A -> R) (p q r : A -> bool) l :
  (forall x, In x l -> (if r x then 1 else 0) = (if p x then 1 else 0) + (if q x then 1 else 0))%nat ->
  wsum w r l = wsum w p l + wsum w q l.
Proof.
  induction l as [|a l IH]; intros H; [unfold wsum; simpl; unfold rsum; simpl; lra|].
  rewrite !wsum_cons, IH by (intros; apply H; right; auto).
  specialize (H a (or_introl eq_refl)).
  destruct (r a), (p a), (q a); simpl in H; try lia; lra.
Qed.
Lemma wsum_filter {A} (w : A -> R) (p q : A -> bool) l :
  wsum w p (filter q l) = wsum w (fun x => p x && q x) l.
Proof.
  induction l as [|a l IH]; auto. simpl. destruct (q a) eqn:E; rewrite !wsum_cons, ?IH, E.
  - rewrite andb_true_r; auto.
  - rewrite andb_false_r; lra.
Qed.
Lemma wsum_one {A} (p : A -> bool) l : wsum (fun _ => 1) p l = INR (count p l).
Proof.
  induction l as [|a l IH]; [unfold wsum; reflexivity|]. rewrite wsum_cons, count_cons, IH, plus_INR.
  destruct (p a); simpl; lra.
Qed.
Lemma wsum_nonneg {A} (w : A -> R) p l : (forall x, In x l -> 0 <= w x) -> 0 <= wsum w p l.
Proof.
  induction l as [|a l IH]; intros H; [unfold wsum, rsum; simpl; lra|]. rewrite wsum_cons.
  assert (0 <= w a) by (apply H; left; auto).
  assert (0 <= wsum w p l) by (apply IH; intros; apply H; right; auto).
  destruct (p a); lra.
Qed.
Lemma wsum_scale {A} (w : A -> R) c p l : wsum (fun x => c * w x) p l = c * wsum w p l.
Proof.
  induction l as [|a l IH]; [unfold wsum, rsum; simpl; lra|]. rewrite !wsum_cons, IH.
  destruct (p a); lra.
Qed.
Lemma wsum_plus {A} (w v : A -> R) p l : wsum (fun x => w x + v x) p l = wsum w p l + wsum v p l.
Proof.
  induction l as [|a l IH]; [unfold wsum, rsum; simpl; lra|]. rewrite !wsum_cons, IH.
  destruct (p a); lra.
Qed.

(** ** slicing *)
(** [a[:-1]] *)
Fixpoint but_last {A} (l : list A) : list A :=
  match l with [] => [] | [_] => [] | a :: l' => a :: but_last l' end.
Lemma but_last_length {A} (l : list A) : length (but_last l) = (length l - 1)%nat.
Proof.
  induction l as [|a l IH]; auto. destruct l as [|b l']; auto.
  cbn [but_last] in *. cbn [length] in *. rewrite IH. lia.
Qed.
Lemma but_last_snoc {A} (l : list A) a : but_last (l ++ [a]) = l.
Proof.
  induction l as [|b l IH]; auto. cbn [app].
  destruct (l ++ [a]) eqn:E; [destruct l; discriminate|]. cbn [but_last]. f_equal; auto.
Qed.
Lemma but_last_last {A} (l : list A) d : l <> [] -> l = but_last l ++ [last l d].
Proof.
  intros. rewrite (app_removelast_last d H) at 1. f_equal.
  clear H. induction l as [|a l IH]; auto. destruct l; auto. cbn [removelast but_last].
  f_equal. auto.
Qed.
Lemma nth_error_but_last {A} (l : list A) i :
  (S i < length l)%nat -> nth_error (but_last l) i = nth_error l i.
Proof.
  revert i; induction l as [|a l IH]; intros i H; [simpl in H; lia|].
  destruct l as [|b l']; [simpl in H; lia|]. destruct i; auto.
  cbn [but_last nth_error]. apply IH. simpl in *; lia.
Qed.
Lemma nth_error_tl {A} (l : list A) i : nth_error (tl l) i = nth_error l (S i).
Proof. destruct l; simpl; auto. destruct i; auto. Qed.

(** [np.diff] *)
Fixpoint diffZ (l : list Z) : list Z :=
  match l with a :: ((b :: _) as l') => (b - a)%Z :: diffZ l' | _ => [] end.
Fixpoint diffR (l : list R) : list R :=
  match l with a :: ((b :: _) as l') => (b - a) :: diffR l' | _ => [] end.
Lemma diffZ_length l : length (diffZ l) = (length l - 1)%nat.
Proof. induction l as [|a l IH]; auto. destruct l; auto. cbn [diffZ length] in *. lia. Qed.
Lemma diffR_length l : length (diffR l) = (length l - 1)%nat.
Proof. induction l as [|a l IH]; auto. destruct l; auto. cbn [diffR length] in *. lia. Qed.
Lemma diffZ_nth l i a b : nth_error l i = Some a -> nth_error l (S i) = Some b ->
  nth_error (diffZ l) i = Some (b - a)%Z.
Proof.
  revert i; induction l as [|x l IH]; intros i Ha Hb; [destruct i; discriminate|].
  destruct l as [|y l']; [destruct i; simpl in Hb; try discriminate; destruct i; discriminate|].
  destruct i; cbn [nth_error diffZ] in *; [congruence|]. apply IH; auto.
Qed.
Lemma diffR_nth l i a b : nth_error l i = Some a -> nth_error l (S i) = Some b ->
  nth_error (diffR l) i = Some (b - a).
Proof.
  revert i; induction l as [|x l IH]; intros i Ha Hb; [destruct i; discriminate|].
  destruct l as [|y l']; [destruct i; simpl in Hb; try discriminate; destruct i; discriminate|].
  destruct i; cbn [nth_error diffR] in *; [congruence|]. apply IH; auto.
Qed.
Lemma diffZ_sum l d : l <> [] -> zsum (diffZ l) = (last l d - hd d l)%Z.
Proof.
  induction l as [|a l IH]; [congruence|]. intros _. destruct l as [|b l']; [unfold zsum; simpl; lia|].
  change (diffZ (a :: b :: l')) with ((b - a)%Z :: diffZ (b :: l')).
  rewrite zsum_cons, IH by congruence. cbn [hd last]. lia.
Qed.
Lemma diffR_sum l d : l <> [] -> rsum (diffR l) = last l d - hd d l.
Proof.
  induction l as [|a l IH]; [congruence|]. intros _. destruct l as [|b l']; [unfold rsum; simpl; lra|].
  change (diffR (a :: b :: l')) with ((b - a) :: diffR (b :: l')).
  rewrite rsum_cons, IH by congruence. cbn [hd last]. lra.
Qed.

(** ** zipping *)
Fixpoint zipwith {A B C} (f : A -> B -> C) (l : list A) (m : list B) : list C :=
  match l, m with a :: l', b :: m' => f a b :: zipwith f l' m' | _, _ => [] end.
Lemma zipwith_length {A B C} (f : A -> B -> C) l m :
  length (zipwith f l m) = Nat.min (length l) (length m).
Proof. revert m; induction l as [|a l IH]; intros [|b m]; simpl; auto. Qed.
Lemma zipwith_nth {A B C} (f : A -> B -> C) l m i a b :
  nth_error l i = Some a -> nth_error m i = Some b -> nth_error (zipwith f l m) i = Some (f a b).
Proof.
  revert m i; induction l as [|x l IH]; intros [|y m] [|i]; simpl; intros; try discriminate.
  - congruence.
  - auto.
Qed.

(** ** digitize *)
(** numpy's C [check_array_monotonic]: 1 non-decreasing, -1 non-increasing, 0 otherwise. *)
Fixpoint mono_up (last : num) (l : list num) : bool :=
  match l with [] => true | x :: l' => if ngt last x then false else mono_up x l' end.
Fixpoint mono_down (last : num) (l : list num) : bool :=
  match l with [] => true | x :: l' => if nlt last x then false else mono_down x l' end.
Fixpoint skip_equal (last : num) (l : list num) : list num :=
  match l with [] => [] | x :: l' => if neqb x last then skip_equal last l' else l end.
Definition monotonicity (l : list num) : Z :=
  match l with
  | [] => 1%Z
  | last :: l' =>
      match skip_equal last l' with
      | [] => 1%Z
      | next :: rest =>
          if nlt last next then (if mono_up next rest then 1%Z else 0%Z)
          else (if mono_down next rest then (-1)%Z else 0%Z)
      end
  end.

(** order used by numpy sorting/searching: NaN is larger than every number *)
Definition np_lt (a b : num) : bool := nlt a b || (negb (is_nan a) && is_nan b).
(** [np.searchsorted(a, x, side)] for sorted [a]: number of entries that go
    before the insertion point. *)
Definition searchsorted_right (a : list num) (x : num) : nat :=
  count (fun e => negb (np_lt x e)) a.
Definition searchsorted_left (a : list num) (x : num) : nat :=
  count (fun e => np_lt e x) a.

(** [np.digitize(x, bins)] (right=False), from numpy/lib/function_base.py *)
Definition digitize1 (x : num) (bins : list num) : res nat :=
  let mono := monotonicity bins in
  if Z.eqb mono 0 then Err ValueError
  else if Z.eqb mono (-1) then Ok (length bins - searchsorted_right (rev bins) x)%nat
  else Ok (searchsorted_right bins x).

(** [np.histogram(a, edges)] with an explicit edge array (the non-uniform code
    path of numpy/lib/histograms.py): [diff] of cumulative counts, all edges but
    the last searched with side='left', the last with side='right'; raises
    ValueError if some edge is larger than the next one.  Weighted version:
    the same with cumulative weights. Data sorted by numpy first; NaN entries
    sort to the end and are never counted.  Without edges the result is empty, as is the [diff]
    of the single value the model computes. *)
Fixpoint decreases (l : list num) : bool :=
  match l with a :: ((b :: _) as l') => ngt a b || decreases l' | _ => false end.

Definition cum_counts {A} (x : A -> num) (evs : list A) (edges : list num) : list Z :=
  map (fun e => Z.of_nat (count (fun v => np_lt (x v) e) evs)) (but_last edges)
  ++ [Z.of_nat (count (fun v => negb (np_lt (last edges NaN) (x v))) evs)].
Definition np_histogram {A} (x : A -> num) (evs : list A) (edges : list num) : res (list Z) :=
  if decreases edges then Err ValueError else Ok (diffZ (cum_counts x evs edges)).
Definition cum_weights {A} (x : A -> num) (w : A -> R) (evs : list A) (edges : list num) : list R :=
  map (fun e => wsum w (fun v => np_lt (x v) e) evs) (but_last edges)
  ++ [wsum w (fun v => negb (np_lt (last edges NaN) (x v))) evs].
Definition np_histogram_w {A} (x : A -> num) (w : A -> R) (evs : list A) (edges : list num)
  : res (list R) :=
  if decreases edges then Err ValueError else Ok (diffR (cum_weights x w evs edges)).
