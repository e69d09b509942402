(** * SpecPipeline: what the numbers of a sensitivity table mean, from the events on *)
From Coq Require Import String Reals List Bool ZArith Lia Lra.
From Verif Require Import Num Binning SpecStatistics SpecSensitivity.
Import ListNotations.
Open Scope R_scope.

(** the weight of one event; a table without a weight column counts every event once *)
Definition weight_in (has_weight : bool) (e : event) : R := if has_weight then ev_w e else 1.
(** a root is inside the bracket the code searches: with more than one off event ten times
    the naive 5 sigma excess is significant enough, otherwise the source needs between
    1/10000 and 100 times its flux *)
Definition bracketed (W B alpha s : R) : Prop :=
  (1 < B /\ s <= lima (10 * (s * sqrt (alpha * B)) + alpha * B) B alpha) \/
  (B <= 1 /\ lima (W * (1 / 10000) + alpha * B) B alpha <= s <= lima (W * 100 + alpha * B) B alpha).
(** [rel] is the relative sensitivity of a bin: a source of the reference flux gives [W]
    events after cuts, [B] off events are expected with exposure ratio [alpha].  Without
    signal it is infinite; otherwise it is, up to the tolerance of the root finder, the
    smallest multiple of the reference flux that is detectable; it is NaN exactly when
    the bracket misses the root. *)
Definition smallest_detectable (W B alpha s m e : R) (rel : num) : Prop :=
  (W = 0 -> rel = PInf) /\
  (0 < W -> (bracketed W B alpha s -> exists r, rel = Fin r /\ 0 < r /\ m <= W * r /\ e * (alpha * B) <= W * r /\
               (forall r', r + brentq_tol r <= r' -> detectable W B alpha s m e r') /\
               (forall r', detectable W B alpha s m e r' -> r - brentq_tol r <= r')) /\
            (~ bracketed W B alpha s -> rel = NaN)).
(** the energy falls in bin [k] of the theta-cut table and the angle passes that bin's cut *)
Definition passes_table (low high cuts : list num) (op : num -> num -> bool) (energy value : num) : Prop :=
  exists j a b c, nth_error low j = Some a /\ nth_error high j = Some b /\ nth_error cuts j = Some c /\
    nle a energy = true /\ nlt energy b = true /\ op value c = true.
