(** * Specifications used in C81: the same numbers in other units *)
From Coq Require Import String Reals List Bool ZArith.
From Verif Require Import Num Numpy Table Binning Cuts Benchmarks.
Import ListNotations.
Open Scope R_scope.

(** no units, or two units that can be converted into each other *)
Definition same_kind (u u' : option unit_) : Prop :=
  match u, u' with
  | None, None => True
  | Some v, Some w => 0 < u_scale v /\ 0 < u_scale w /\ u_dim v = u_dim w
  | _, _ => False
  end.
(** number of base units *)
Definition in_base (u : option unit_) (x : num) : num := match u with Some v => nmul (Fin (u_scale v)) x | None => x end.
Definition same_numbers (u u' : option unit_) (l l' : list num) : Prop :=
  same_kind u u' /\ map (in_base u) l = map (in_base u') l'.
Definition same_array (a a' : arr) : Prop := same_numbers (a_unit a) (a_unit a') (a_val a) (a_val a').
Definition same_scalar (s s' : scalar) : Prop := same_numbers (s_unit s) (s_unit s') [s_val s] [s_val s'].
Definition same_optional (s s' : option scalar) : Prop :=
  match s, s' with Some a, Some b => same_scalar a b | None, None => True | _, _ => False end.
Definition same_events (events events' : columns) : Prop :=
  Forall2 (fun c c' : string * arr => fst c = fst c' /\ same_array (snd c) (snd c')) events events'.
(** the same exception, or results that are related *)
Definition same_result {A} (same : A -> A -> Prop) (r r' : res A) : Prop :=
  match r, r' with Ok a, Ok a' => same a a' | Err e, Err e' => e = e' | _, _ => False end.

(** tables of cuts *)
Definition same_column (u u' : option unit_) (c c' : cut_column) : Prop :=
  match c, c' with
  | Cut1 l, Cut1 l' => same_numbers u u' l l'
  | Cut2 r, Cut2 r' => same_kind u u' /\ Forall2 (same_numbers u u') r r'
  | _, _ => False
  end.
Definition same_cuts (t t' : cut_table) : Prop :=
  same_numbers (ct_edge_unit t) (ct_edge_unit t') (ct_low t) (ct_low t') /\
  same_numbers (ct_edge_unit t) (ct_edge_unit t') (ct_high t) (ct_high t') /\
  same_numbers (ct_edge_unit t) (ct_edge_unit t') (ct_center t) (ct_center t') /\
  ct_n_events t = ct_n_events t' /\ same_column (ct_cut_unit t) (ct_cut_unit t') (ct_cut t) (ct_cut t').
(** tables of benchmarks; [u], [u']: units of the columns *)
Definition same_benchmark (u u' : option unit_) (t t' : bench_table) : Prop :=
  same_numbers (bt_unit t) (bt_unit t') (bt_low t) (bt_low t') /\
  same_numbers (bt_unit t) (bt_unit t') (bt_high t) (bt_high t') /\
  same_numbers (bt_unit t) (bt_unit t') (bt_center t) (bt_center t') /\
  bt_n_events t = bt_n_events t' /\
  Forall2 (fun c c' : string * list num => fst c = fst c' /\ same_numbers u u' (snd c) (snd c')) (bt_cols t) (bt_cols t').
(** the functions of the module operator used as comparison *)
Definition comparison (op : num -> num -> bool) : Prop := In op [nlt; nle; ngt; nge; neqb].
