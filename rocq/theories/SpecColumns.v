(** * SpecColumns: edge columns with or without units; cuts picked by index *)
From Coq Require Import String Reals List Bool ZArith.
From Verif Require Import Num Table SpecUtils.
Import ListNotations.
Open Scope R_scope.

(** two columns agree.  Without units: equal numbers, no NaN.  A column without unit counts as dimensionless when it is compared with a
    column with unit, except that 0 and the infinities agree with themselves in any unit *)
Definition agree_plain (l1 l2 : list num) : Prop :=
  forall i x y, nth_error l1 i = Some x -> nth_error l2 i = Some y -> x <> NaN /\ x = y.
Definition only_zero_inf (l : list num) : Prop := forall x, In x l -> x = Fin 0 \/ x = PInf \/ x = NInf.
Definition columns_agree (a b : arr) : Prop :=
  match a_unit a, a_unit b with
  | Some u, Some v => same_edges (a_val a) u (a_val b) v
  | None, None => agree_plain (a_val a) (a_val b)
  | Some u, None => (u_dim u = 0%nat /\ same_edges (a_val a) u (a_val b) (mkUnit 1 0)) \/
                    (u_dim u <> 0%nat /\ only_zero_inf (a_val b) /\ agree_plain (a_val a) (a_val b))
  | None, Some v => (u_dim v = 0%nat /\ same_edges (a_val a) (mkUnit 1 0) (a_val b) v) \/
                    (u_dim v <> 0%nat /\ only_zero_inf (a_val a) /\ agree_plain (a_val a) (a_val b))
  end.
Definition positive_unit (a : arr) : Prop := match a_unit a with Some u => 0 < u_scale u | None => True end.
(** Python indices: negative ones count from the end *)
Definition python_index {A} (l : list A) (z : Z) (a : A) : Prop :=
  let n := Z.of_nat (List.length l) in
  ((0 <= z < n)%Z /\ nth_error l (Z.to_nat z) = Some a) \/ ((- n <= z < 0)%Z /\ nth_error l (Z.to_nat (n + z)) = Some a).
