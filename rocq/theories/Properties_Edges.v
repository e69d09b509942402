(** * C05, C74, C76, C77: edge columns, shapes and ranges in double precision *)
From Coq Require Import String Reals List Bool ZArith Lia Lra.
From Verif Require Import Num Numpy Table Binning Statistics SpecEdges Double SpecDouble HistDouble BinsDouble BinsDoubleProofs PercentileDoubleProofs EdgeProofs.
Import ListNotations.
Open Scope R_scope.

(** create_histogram_table: lower edge, upper edge and centre of every bin *)
Theorem C05_edges : forall ev bins key t, key_free key (map ev_p (et_rows ev)) -> create_histogram_table ev bins key = Ok t ->
  exists lo hi c, getitem t (key ++ "_low") = Some (CN lo) /\ getitem t (key ++ "_high") = Some (CN hi) /\ getitem t (key ++ "_center") = Some (CN c) /\
    edges_of bins lo hi /\ centres_of bins c.
Proof. exact c05_edges. Qed.
Print Assumptions C05_edges.
(** a particle type can overwrite an edge column: key "n", type "low" *)
Theorem C05_edges_overwritten_refuted : exists t, create_histogram_table (mkEvents [mkEvent (Fin 1) 1 "low"] false true) [Fin 0; Fin 2] "n" = Ok t /\
  getitem t "n_low" = Some (CZ [1%Z]).
Proof. exact edges_overwritten. Qed.
Print Assumptions C05_edges_overwritten_refuted.
(** in double precision: the edges as given, the centres of [C77_bin_center] *)
Theorem C76_edges : forall argsort ev edges key t, key_free key (map ev_p (et_rows ev)) -> create_histogram_table_double argsort ev (map Fin edges) key = Ok t ->
  (forall e, In e edges -> double e /\ Rabs e <= 10 ^ 300) ->
  exists lo hi c, getitem t (key ++ "_low") = Some (CN lo) /\ getitem t (key ++ "_high") = Some (CN hi) /\ getitem t (key ++ "_center") = Some (CN c) /\
    edges_of (map Fin edges) lo hi /\ List.length c = (List.length edges - 1)%nat /\
    forall i a b, nth_error edges i = Some a -> nth_error edges (S i) = Some b -> a <= b ->
      exists m, nth_error c i = Some (Fin m) /\ a <= m <= b /\ Rabs (m - (a + b) / 2) <= 4 * eps53 * Rabs ((a + b) / 2) + / 2 ^ 1075.
Proof.
  intros argsort ev edges key t K E D. destruct (c76_edges argsort ev edges key t K E) as (lo & hi & c & H1 & H2 & H3 & H4 & ->).
  exists lo, hi, (bin_center_double (map Fin edges)). split; [auto|]. split; [auto|]. split; [auto|]. split; [auto|]. apply bin_center_double_ok. auto.
Qed.
Print Assumptions C76_edges.
(** percentiles: an error outside of 0..100 (up to rounding) and for NaN *)
Theorem C77_percentile_range : forall l p, p <= -1 \/ 101 <= p -> nanpercentile_double l (Fin p) = Err ValueError.
Proof. exact c77_percentile_range. Qed.
Print Assumptions C77_percentile_range.
Theorem C77_no_bins : forall log10f powf lo hi, create_bins_per_decade_double log10f powf lo hi 0 = Err ZeroDivisionError.
Proof. reflexivity. Qed.
Print Assumptions C77_no_bins.
(** a number for a number, an array for an array; an exception if the lengths differ *)
Theorem C74_shape : forall log x b alpha, exists s,
  li_ma_significance_double log (Sc x) (Sc b) alpha = Ok (Sc s) /\ li_ma_significance_double log (Sc x) (Ar [b]) alpha = Ok (Sc s) /\
  li_ma_significance_double log (Ar [x]) (Sc b) alpha = Ok (Ar [s]) /\ li_ma_significance_double log (Ar [x]) (Ar [b]) alpha = Ok (Ar [s]).
Proof. exact c74_shape. Qed.
Print Assumptions C74_shape.
Theorem C74_lengths : forall log on off alpha, List.length on <> List.length off ->
  li_ma_significance_double log (Ar on) (Ar off) alpha = Err (if (Nat.eqb (List.length on) 1 || Nat.eqb (List.length off) 1)%bool then IndexError else ValueError).
Proof. exact c74_lengths. Qed.
Print Assumptions C74_lengths.
Example C05_edges_example : key_free "reco_energy" ["gamma"; "proton"]%string /\ edges_of [Fin 1; Fin 10; PInf] [Fin 1; Fin 10] [Fin 10; PInf] /\
  centres_of [Fin 1; Fin 10; PInf] [Fin (11 / 2); PInf] /\ ~ key_free "n" ["low"]%string.
Proof.
  split; [|split; [|split]].
  - intros p [<-|[<-|[]]] s [<-|[<-|[<-|[]]]]; discriminate.
  - split; [auto|]. split; [auto|]. intros [|[|[|i]]] a b Ha Hb; cbn in *; try discriminate; inversion Ha; inversion Hb; subst; auto.
  - split; [auto|]. intros [|[|[|i]]] a b Ha Hb; cbn in Ha, Hb; try discriminate; inversion Ha; inversion Hb; subst; cbn; auto; try (repeat f_equal; lra).
  - intros H. apply (H "low"%string (or_introl eq_refl) "_low"%string); cbn; auto.
Qed.
