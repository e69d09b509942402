(** * UtilsProofs2: check_table for any required units *)
From Coq Require Import Reals String List Arith Lia.
From Verif Require Import Num Numpy Table Utils SpecUtils UtilsProofs.
Import ListNotations.
Open Scope R_scope.

Lemma c40_units_exact t units :
  (check_table t None (Some units) = TableOk /\ forall c u, In (c, u) units -> has_unit t c u) \/
  (exists before c expected after, units = before ++ (c, expected) :: after /\
     (forall c' u', In (c', u') before -> has_unit t c' u') /\
     ((getitem t c = None /\ check_table t None (Some units) = TableMissing [c]) \/
      (exists a, getitem t c = Some a /\ a_unit a = None /\ check_table t None (Some units) = TableTypeError) \/
      (exists a u, getitem t c = Some a /\ a_unit a = Some u /\ u_dim u <> u_dim expected /\
         check_table t None (Some units) = TableWrongUnit c u expected))).
Proof.
  change (check_table t None (Some units)) with (check_units t units).
  induction units as [|[c e] units IH].
  - left. split; auto. intros ? ? [].
  - cbn [check_units].
    destruct (getitem t c) as [a|] eqn:Ha.
    2:{ right. exists [], c, e, units. repeat split; auto. intros ? ? []. }
    destruct (a_unit a) as [u|] eqn:Hu.
    2:{ right. exists [], c, e, units. repeat split; auto. intros ? ? []. right. left. exists a. auto. }
    destruct (Nat.eqb_spec (u_dim e) (u_dim u)) as [E|E].
    2:{ right. exists [], c, e, units. repeat split; auto. intros ? ? []. right. right. exists a, u. auto. }
    assert (Hc : has_unit t c e) by (exists a, u; auto).
    destruct IH as [[I1 I2]|(b & c' & e' & f & -> & I2 & I3)].
    + left. split; auto. intros c' u' [X|X]; [|auto]. injection X as <- <-. auto.
    + right. exists ((c, e) :: b), c', e', f. split; [reflexivity|]. split; [|exact I3].
      intros c1 u1 [X|X]; [|auto]. injection X as <- <-. auto.
Qed.
