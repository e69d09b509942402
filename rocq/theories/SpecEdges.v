(** * SpecEdges: the columns of the bin edges in the tables of histograms *)
From Coq Require Import String Reals List Bool ZArith.
From Verif Require Import Num Table Estimators Aliasing.
Import ListNotations.
Open Scope R_scope.

(** [lo], [hi]: lower and upper edge of every bin *)
Definition edges_of (bins lo hi : list num) : Prop :=
  List.length lo = (List.length bins - 1)%nat /\ List.length hi = (List.length bins - 1)%nat /\
  forall i a b, nth_error bins i = Some a -> nth_error bins (S i) = Some b -> nth_error lo i = Some a /\ nth_error hi i = Some b.
(** [c]: the middle of every bin, infinite for a bin with one infinite edge *)
Definition centres_of (bins c : list num) : Prop :=
  List.length c = (List.length bins - 1)%nat /\
  forall i a b, nth_error bins i = Some a -> nth_error bins (S i) = Some b ->
    match a, b with
    | Fin x, Fin y => nth_error c i = Some (Fin ((x + y) / 2))
    | Fin _, PInf => nth_error c i = Some PInf
    | NInf, Fin _ => nth_error c i = Some NInf
    | _, _ => True
    end.
(** no column of a particle type is called like the columns of the edges *)
Definition key_free (key : string) (labels : list string) : Prop :=
  forall p, In p labels -> forall s, In s ["_low"; "_high"; "_center"]%string -> ("n_" ++ p)%string <> (key ++ s)%string.
(** a class that is an interpolator iff [a], an extrapolator iff [b]; it reads the templates late, copies them, or reads them in its constructor *)
Definition class_with (a b : bool) (c : cls) : Prop :=
  (exists f, c = Lazy a b f) \/ (exists pick over f, c = Copying a b pick over f) \/ (exists f, c = Eager a b f).
