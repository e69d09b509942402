(** * PlainBoundsProofs: bounds of cuts in percent *)
From Coq Require Import Reals List Bool PeanoNat Lra.
From Verif Require Import Num Table Binning Percentile Cuts.
Open Scope R_scope.

Lemma c12_plain_values is_int values xs bins fill l h s pc sm me :
  calculate_percentile_cut is_int (mkArr values None) xs bins fill pc (Some (mkScalar (Fin l) (Some (mkUnit s dimless_dim)))) (Some (mkScalar (Fin h) (Some (mkUnit s dimless_dim)))) sm me =
  calculate_percentile_cut is_int (mkArr values None) xs bins fill pc (Some (mkScalar (Fin (l * s)) None)) (Some (mkScalar (Fin (h * s)) None)) sm me.
Proof.
  assert (B : forall b, bound_to None (Some (mkScalar (Fin b) (Some (mkUnit s dimless_dim)))) = bound_to None (Some (mkScalar (Fin (b * s)) None))).
  { intros b. cbn [bound_to s_unit s_val u_dim]. rewrite Nat.eqb_refl. unfold convert_val, one_unit. cbn [u_scale nmul]. f_equal. f_equal. f_equal. field. }
  unfold calculate_percentile_cut. cbn [a_unit]. rewrite !B. reflexivity.
Qed.
