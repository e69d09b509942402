(** * Specifications used in the properties of pyirf/io/gadf.py *)
From Coq Require Import String Ascii Reals List Bool ZArith Arith Lia Lra.
From Verif Require Import Num Numpy Table Tensor Binning Benchmarks Gadf.
Import ListNotations.
Open Scope R_scope.
Open Scope string_scope.

(** the number [y] in unit [to] for the number [x] in unit [from] *)
Definition in_unit (from to : unit_) (x y : num) : Prop :=
  match x with Fin r => y = Fin (r * u_scale from / u_scale to) | _ => y = x end.
(** a column for the lower and one for the upper edges, with one row *)
Definition axis (t : fits_table) (name : string) (unit : option unit_) (edges : list num) : Prop :=
  exists lo hi, getitem t (name ++ "_LO") = Some (lo, unit) /\ getitem t (name ++ "_HI") = Some (hi, unit) /\
    shape lo = [1; List.length edges - 1]%nat /\ shape hi = [1; List.length edges - 1]%nat /\
    forall i, (i < List.length edges - 1)%nat -> nth_error edges i = Some (at_ lo [0; i]%nat) /\ nth_error edges (S i) = Some (at_ hi [0; i]%nat).
(** the edges converted to a unit *)
Definition axis_in (t : fits_table) (name : string) (to : unit_) (edges : arr) : Prop :=
  exists from es, a_unit edges = Some from /\ Forall2 (in_unit from to) (a_val edges) es /\ axis t name (Some to) es.
(** an index of an array *)
Definition in_range (dims ix : list nat) : Prop := Forall2 (fun n i => (i < n)%nat) dims ix.
(** the numbers of an array as they are stored: the last axis varies fastest *)
Fixpoint c_order (dims : list nat) (f : list nat -> num) : list num :=
  match dims with [] => [f []] | n :: ds => flat_map (fun i => c_order ds (fun ix => f (i :: ix))) (seq 0 n) end.
(** FITS: the first axis varies fastest *)
Fixpoint fits_position (dims ix : list nat) : nat :=
  match dims, ix with n :: ds, i :: ix' => (i + n * fits_position ds ix')%nat | _, _ => 0%nat end.
(** a column with one row holding the array [x] in the order of FITS *)
Definition stored (t : fits_table) (name : string) (to : unit_) (from : unit_) (x : tensor) : Prop :=
  exists col, getitem t name = Some (col, Some to) /\ shape col = (1 :: rev (shape x))%nat /\
    forall ix, in_range (shape x) ix ->
      in_unit from to (at_ x ix) (at_ col (0 :: rev ix)%nat) /\
      nth_error (c_order (shape col) (at_ col)) (fits_position (shape x) ix) = Some (at_ col (0 :: rev ix)%nat).
(** the keyword that names the axes of a column: their order is the one of FITS *)
Fixpoint cref_list (axes : list string) : string :=
  match axes with [] => "" | [a] => a ++ "_LO:" ++ a ++ "_HI" | a :: axes' => a ++ "_LO:" ++ a ++ "_HI," ++ cref_list axes' end.
Definition axes_keyword (h : hdu) (name : string) (axes : list string) : Prop :=
  exists n, nth_error (colnames (hdu_table h)) n = Some name /\ getitem (hdu_header h) ("CREF" ++ decimal (S n)) = Some (HStr ("(" ++ cref_list axes ++ ")")).
(** the values of a column for an axis *)
Definition row_values (t : tensor) : list num := map (fun i => at_ t [0; i]%nat) (seq 0 (nth 1 (shape t) 0%nat)).

(** ** headers *)
(** the last of the cards with this keyword (in any case) *)
Definition last_card (cards : list (string * hval)) (k : string) (v : hval) : Prop :=
  exists pre k' post, cards = (pre ++ (k', v) :: post)%list /\ upper k' = k /\ forall kv, In kv post -> upper (fst kv) <> k.
Definition no_card (cards : list (string * hval)) (k : string) : Prop := forall kv, In kv cards -> upper (fst kv) <> k.
(** keywords that describe the table itself (XTENSION, NAXIS, ...): astropy derives them from the table *)
Definition table_keyword (k : string) : Prop :=
  In k ["SIMPLE"; "XTENSION"; "BITPIX"; "NAXIS"; "EXTEND"; "PCOUNT"; "GCOUNT"; "GROUPS"; "BSCALE"; "BZERO"; "TFIELDS"]%string.
(** arguments of a call *)
Definition call_cards (c : call) : list (string * hval) :=
  match c with CAeff _ _ _ _ _ _ k | CPsf _ _ _ _ _ _ k | CEdisp _ _ _ _ _ _ _ k | CBkg2 _ _ _ _ _ k | CBkg3 _ _ _ _ _ _ _ k | CRad _ _ _ _ _ _ k => k end.
Definition call_extname (c : call) : string :=
  match c with CAeff _ _ _ _ n _ _ | CPsf _ _ _ _ _ n _ | CEdisp _ _ _ _ _ _ n _ | CBkg2 _ _ _ _ n _ | CBkg3 _ _ _ _ _ _ n _ | CRad _ _ _ _ _ n _ => n end.
Definition call_now (c : call) : string :=
  match c with CAeff now _ _ _ _ _ _ | CPsf now _ _ _ _ _ _ | CEdisp now _ _ _ _ _ _ _ | CBkg2 now _ _ _ _ _ | CBkg3 now _ _ _ _ _ _ _ | CRad now _ _ _ _ _ _ => now end.
(** HDUCLAS2, HDUCLAS3, HDUCLAS4 of the GADF specification *)
Definition gadf_class (c : call) : string * string * string :=
  match c with
  | CAeff _ _ _ _ _ p _ => ("EFF_AREA", if p then "POINT-LIKE" else "FULL-ENCLOSURE", "AEFF_2D")
  | CPsf _ _ _ _ _ _ _ => ("PSF", "FULL-ENCLOSURE", "PSF_TABLE")
  | CEdisp _ _ _ _ _ p _ _ => ("EDISP", if p then "POINT-LIKE" else "FULL-ENCLOSURE", "EDISP_2D")
  | CBkg2 _ _ _ _ _ _ => ("BKG", "FULL-ENCLOSURE", "BKG_2D")
  | CBkg3 _ _ _ _ _ _ _ _ => ("BKG", "FULL-ENCLOSURE", "BKG_3D")
  | CRad _ _ _ _ _ _ _ => ("RAD_MAX", "POINT-LIKE", "RAD_MAX_2D")
  end.
(** keywords that every HDU has *)
Definition gadf_keyword (version : string) (c : call) (k v : string) : Prop :=
  let '(c2, c3, c4) := gadf_class c in
  (k = "CREATOR" /\ v = ("pyirf v" ++ version)%string) \/ (k = "HDUDOC" /\ v = "https://github.com/open-gamma-ray-astro/gamma-astro-data-formats") \/
  (k = "HDUVERS" /\ v = "0.2") \/ (k = "HDUCLASS" /\ v = "GADF") \/ (k = "HDUCLAS1" /\ v = "RESPONSE") \/ (k = "HDUCLAS2" /\ v = c2) \/
  (k = "HDUCLAS3" /\ v = c3) \/ (k = "HDUCLAS4" /\ v = c4) \/ (k = "DATE" /\ v = call_now c).
(** a quantity whose unit can be converted *)
Definition has_unit_of (u : option unit_) (target : unit_) : Prop := exists v, u = Some v /\ u_dim v = u_dim target.
(** the arguments of the call have the units of the documentation *)
Definition documented_units (c : call) : Prop :=
  match c with
  | CAeff _ x e th _ _ _ => has_unit_of (q_unit x) u_m2 /\ has_unit_of (a_unit e) u_TeV /\ has_unit_of (a_unit th) u_deg
  | CPsf _ x e s th _ _ => has_unit_of (q_unit x) u_per_sr /\ has_unit_of (a_unit e) u_TeV /\ has_unit_of (a_unit s) u_deg /\ has_unit_of (a_unit th) u_deg
  | CEdisp _ x e _ th _ _ _ => (q_unit x = None \/ has_unit_of (q_unit x) one_unit) /\ has_unit_of (a_unit e) u_TeV /\ has_unit_of (a_unit th) u_deg
  | CBkg2 _ x e th _ _ => has_unit_of (q_unit x) u_background /\ has_unit_of (a_unit e) u_TeV /\ has_unit_of (a_unit th) u_deg
  | CBkg3 _ x e lon lat _ _ _ => has_unit_of (q_unit x) u_background /\ has_unit_of (a_unit e) u_TeV /\ has_unit_of (a_unit lon) u_deg /\ has_unit_of (a_unit lat) u_deg
  | CRad _ x e th _ _ _ => has_unit_of (q_unit x) u_deg /\ has_unit_of (a_unit e) u_TeV /\ has_unit_of (a_unit th) u_deg
  end.
Definition documented_alignment (c : call) : Prop :=
  match c with CBkg3 _ _ _ _ _ a _ _ => a = "ALTAZ" \/ a = "RADEC" | _ => True end.
