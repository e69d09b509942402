(** * Lists: neighbouring pairs, matrices and sums used by the remaining modules *)
From Coq Require Import Reals List Bool ZArith Lia Lra.
From Verif Require Import Num Numpy.
Import ListNotations.
Open Scope R_scope.

Lemma bl_nth {A} (l : list A) k x : nth_error l k = Some x -> (S k < length l)%nat -> nth_error (but_last l) k = Some x.
Proof.
  revert k; induction l as [|a [|b l] IH]; intros k H Hk; try (simpl in Hk; lia).
  destruct k as [|k]; [exact H|]. cbn [but_last nth_error] in *. apply IH; auto. simpl in *; lia.
Qed.
Lemma bl_inv {A} (l : list A) k x : nth_error (but_last l) k = Some x -> nth_error l k = Some x.
Proof.
  revert k; induction l as [|a [|b l] IH]; intros k H; try (destruct k; discriminate).
  destruct k as [|k]; [exact H|]. cbn [nth_error]. apply IH. exact H.
Qed.
Lemma tl_nth {A} (l : list A) k : nth_error (tl l) k = nth_error l (S k).
Proof. destruct l; simpl; auto. destruct k; auto. Qed.
Lemma tl_len {A} (l : list A) : length (tl l) = (length l - 1)%nat.
Proof. destruct l; simpl; lia. Qed.
Lemma nth_some_lt {A} (l : list A) k x : nth_error l k = Some x -> (k < length l)%nat.
Proof. intros H. apply nth_error_Some. congruence. Qed.
Lemma nth_some_ex {A} (l : list A) k : (k < length l)%nat -> exists x, nth_error l k = Some x.
Proof. intros H. destruct (nth_error l k) eqn:E; eauto. apply nth_error_None in E. lia. Qed.
Lemma adj_length {A B} (f : A -> A -> B) l : length (zipwith f (but_last l) (tl l)) = (length l - 1)%nat.
Proof. rewrite zipwith_length, but_last_length, tl_len. lia. Qed.
Lemma adj_nth {A B} (f : A -> A -> B) l k a b : nth_error l k = Some a -> nth_error l (S k) = Some b ->
  nth_error (zipwith f (but_last l) (tl l)) k = Some (f a b).
Proof.
  intros Ha Hb. apply zipwith_nth; [|rewrite tl_nth; auto]. apply bl_nth; auto. apply nth_some_lt in Hb. auto.
Qed.
Lemma adj_ex {A} (l : list A) k : (k < length l - 1)%nat -> exists a b, nth_error l k = Some a /\ nth_error l (S k) = Some b.
Proof.
  intros H. destruct (nth_some_ex l k) as [a Ha]; [lia|]. destruct (nth_some_ex l (S k)) as [b Hb]; [lia|]. eauto.
Qed.
Lemma adj_inv {A B} (f : A -> A -> B) l k v : nth_error (zipwith f (but_last l) (tl l)) k = Some v ->
  exists a b, nth_error l k = Some a /\ nth_error l (S k) = Some b /\ v = f a b.
Proof.
  intros H. assert (Hk := nth_some_lt _ _ _ H). rewrite adj_length in Hk. destruct (adj_ex l k Hk) as (a & b & Ha & Hb).
  exists a, b. rewrite (adj_nth f l k a b Ha Hb) in H. repeat split; auto. congruence.
Qed.
Lemma map_nth_some {A B} (f : A -> B) l k a : nth_error l k = Some a -> nth_error (map f l) k = Some (f a).
Proof. intros H. rewrite nth_error_map, H. reflexivity. Qed.
Lemma map_nth_inv {A B} (f : A -> B) l k v : nth_error (map f l) k = Some v -> exists a, nth_error l k = Some a /\ v = f a.
Proof. rewrite nth_error_map. destruct (nth_error l k) eqn:E; intros H; [|discriminate]. cbn in H. injection H as <-. eauto. Qed.
Lemma zw_nth_inv {A B C} (f : A -> B -> C) l m k v : nth_error (zipwith f l m) k = Some v ->
  exists a b, nth_error l k = Some a /\ nth_error m k = Some b /\ v = f a b.
Proof.
  revert m k. induction l as [|a l IH]; intros [|b m] [|k] H; cbn in H; try discriminate.
  - injection H as <-. exists a, b. auto.
  - apply IH in H. auto.
Qed.
Lemma nth_ext_eq {A} (l m : list A) : length l = length m ->
  (forall k a b, nth_error l k = Some a -> nth_error m k = Some b -> a = b) -> l = m.
Proof.
  revert m. induction l as [|a l IH]; intros [|b m] HL H; try discriminate; auto.
  f_equal; [apply (H 0%nat); auto|]. apply IH; [simpl in HL; lia|]. intros k x y Hx Hy. apply (H (S k)); auto.
Qed.
Lemma repeat_nth {A} (x : A) n k : (k < n)%nat -> nth_error (repeat x n) k = Some x.
Proof. revert k. induction n; intros [|k] H; try lia; simpl; auto. apply IHn; lia. Qed.
Lemma repeat_inv {A} (x : A) n k y : nth_error (repeat x n) k = Some y -> y = x.
Proof. revert k. induction n; intros [|k] H; simpl in *; try discriminate; try congruence. eauto. Qed.

(** ** sums *)
Lemma nsum_cons a l : nsum (a :: l) = nadd a (nsum l).
Proof. reflexivity. Qed.
(** the sum of finite numbers *)
Fixpoint rtotal (l : list R) : R := match l with [] => 0 | a :: l' => a + rtotal l' end.
Lemma nsum_fin l : nsum (map Fin l) = Fin (rtotal l).
Proof. induction l; auto. cbn [map]. rewrite nsum_cons, IHl. reflexivity. Qed.
Lemma rtotal_app a b : rtotal (a ++ b) = rtotal a + rtotal b.
Proof. induction a; simpl; lra. Qed.
Lemma rtotal_scale k l : rtotal (map (Rmult k) l) = k * rtotal l.
Proof. induction l; simpl; [ring|]. rewrite IHl. ring. Qed.
Lemma rtotal_nonneg l : (forall x, In x l -> 0 <= x) -> 0 <= rtotal l.
Proof. induction l; simpl; intros H; [lra|]. assert (0 <= a) by (apply H; auto). assert (0 <= rtotal l) by auto. lra. Qed.
Lemma rtotal_telescope (q : R -> R) : forall l first last, nth_error l 0 = Some first -> nth_error l (length l - 1) = Some last ->
  rtotal (zipwith (fun a b => q b - q a) (but_last l) (tl l)) = q last - q first.
Proof.
  induction l as [|a [|b l] IH]; intros f la Hf Hl; cbn in Hf; try discriminate.
  - cbn in Hl. injection Hf as <-. injection Hl as <-. cbn. ring.
  - injection Hf as <-. specialize (IH b la eq_refl).
    change (rtotal (zipwith (fun a b => q b - q a) (but_last (a :: b :: l)) (tl (a :: b :: l))))
      with (q b - q a + rtotal (zipwith (fun a b => q b - q a) (but_last (b :: l)) (tl (b :: l)))).
    rewrite IH; [ring|]. rewrite <- Hl. cbn [length]. replace (S (S (length l)) - 1)%nat with (S (length l)) by lia.
    replace (S (length l) - 1)%nat with (length l) by lia. reflexivity.
Qed.
