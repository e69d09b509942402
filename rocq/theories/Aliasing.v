(** * Aliasing: which numpy arrays the estimators of pyirf/interpolation share with their caller.
    The other files model the estimators as functions; here arrays live in memory, so that calls, and
    assignments of the caller to arrays, can be observed in later calls. *)
From Coq Require Import Reals List Bool ZArith Arith Lia.
From Verif Require Import Num Numpy Sort Table Binning Utils Morph Geometry Quantile Estimators.
Import ListNotations.
Open Scope R_scope.

(** the memory: arrays whose first axis are the grid points; the entry of one grid point is flattened *)
Definition rows := list (list R).
Definition heap := list rows.
(** [array[row]] with an integer: numpy returns a view (basic indexing), no copy *)
Record view := mkView { v_buf : nat; v_row : nat }.
Definition read_rows (h : heap) (b : nat) : rows := nth b h [].
Definition read_view (h : heap) (v : view) : list R := nth (v_row v) (read_rows h (v_buf v)) [].
Fixpoint set_nth {A} (n : nat) (x : A) (l : list A) : list A :=
  match l, n with
  | [], _ => []
  | _ :: l', O => x :: l'
  | y :: l', S n' => y :: set_nth n' x l'
  end.
(** [array[row][...] = content] *)
Definition write_view (h : heap) (v : view) (content : list R) : heap :=
  set_nth (v_buf v) (set_nth (v_row v) content (read_rows h (v_buf v))) h.
(** [array[...] = content] *)
Definition write_rows (h : heap) (b : nat) (content : rows) : heap := set_nth b content h.
(** a new array *)
Definition alloc (h : heap) (content : rows) : heap * nat := (h ++ [content], length h).
Definition alloc_view (h : heap) (content : list R) : heap * view := (h ++ [[content]], mkView (length h) 0).

(** the classes of inter- and extrapolators, by what they do with the array of the templates
    - [Searcher]: keeps the array, returns [self.values[index, :]], a view (nearest_neighbor_searcher.py:97);
    - [Lazy]: keeps the array, computes a new one in each call (griddata_interpolator.py:66-70,
      nearest_simplex_extrapolator.py:58-94, visible_edges_extrapolator.py:155-198);
    - [Copying]: keeps the array; each call copies some rows (indexing with an index array) and overwrites
      parts of this copy (moment_morph_interpolator.py:215, 301-340, nearest_simplex_extrapolator.py:172-251);
    - [Eager]: computes new arrays in the constructor (quantile_interpolator.py:199-232) *)
Inductive cls :=
| Searcher (norm_ord : nat)
| Lazy (is_interp is_extrap : bool) (f : list coords -> rows -> coords -> res (list R))
| Copying (is_interp is_extrap : bool) (pick : list coords -> coords -> res (list nat))
    (overwrite : rows -> rows) (f : list coords -> rows -> coords -> res (list R))
| Eager (is_interp is_extrap : bool) (f : list coords -> rows -> res (coords -> res (list R))).
(** the same class as function of the content of the array, as in Estimators.v *)
Definition as_method (c : cls) : method (list R) (list R) :=
  match c with
  | Searcher p => nearest_method p
  | Lazy i e f => mkMethod i e false (fun points templates => Ok (f points templates))
  | Copying i e pick overwrite f => mkMethod i e false (fun points templates => Ok (fun t =>
      do ix <- pick points t;
      f points (overwrite (map (fun k => nth k templates []) ix)) t))
  | Eager i e f => mkMethod i e false f
  end.
(** an object of the class: the points, the array it keeps, what was computed by the constructor *)
Record object := mkObj { o_cls : cls; o_points : list coords; o_array : nat; o_computed : option (coords -> res (list R)) }.
Definition construct (h : heap) (c : cls) (points : list coords) (b : nat) : res object :=
  match c with
  | Eager _ _ f => do g <- f points (read_rows h b); Ok (mkObj c points b (Some g))
  | _ => Ok (mkObj c points b None)
  end.
Definition return_new (h : heap) (r : res (list R)) : heap * res view :=
  match r with
  | Ok l => let (h', v) := alloc_view h l in (h', Ok v)
  | Err e => (h, Err e)
  end.
(** base_interpolators.py:53-65, base_extrapolators.py:35-48 [__call__] *)
Definition call_object (h : heap) (o : object) (t : coords) : heap * res view :=
  match o_cls o with
  | Searcher p => (h,
      do i <- nn_index (o_points o) p t;
      if Nat.ltb i (length (read_rows h (o_array o))) then Ok (mkView (o_array o) i) else Err IndexError)
  | Lazy _ _ f => return_new h (f (o_points o) (read_rows h (o_array o)) t)
  | Copying _ _ pick overwrite f =>
      match pick (o_points o) t with
      | Err e => (h, Err e)
      | Ok ix =>
          let (h1, b) := alloc h (map (fun k => nth k (read_rows h (o_array o)) []) ix) in
          let h2 := write_rows h1 b (overwrite (read_rows h1 b)) in
          return_new h2 (f (o_points o) (read_rows h2 b) t)
      end
  | Eager _ _ _ => match o_computed o with Some g => return_new h (g t) | None => (h, Err TypeError) end
  end.

(** component_estimators.py:285-376 [ParametrizedComponentEstimator.__init__] (the part of the templates of
    162-273 [DiscretePDFComponentEstimator.__init__] is the same): [b] is the caller's array.  One dimension: sorting
    makes a copy (indexing with an index array), else the caller's array itself is kept *)
Record estimator_obj := mkEO { eo_dim : nat; eo_grid : list coords; eo_interp : object; eo_extrap : option object }.
Definition init_obj (h : heap) (grid_points : grid_arg) (b : nat) (i : cls) (e : option cls) : heap * res estimator_obj :=
  match base_init grid_points with
  | Err x => (h, Err x)
  | Ok (dim, points) =>
      if Nat.eqb (length points) (length (read_rows h b)) then
        let s := sort_points dim points (read_rows h b) in
        let (h1, b1) := if Nat.eqb dim 1 then alloc h (map snd s) else (h, b) in
        if is_interpolator (as_method i) then
          match construct h1 i (map fst s) b1 with
          | Err x => (h1, Err x)
          | Ok oi =>
              match e with
              | None => (h1, Ok (mkEO dim (map fst s) oi None))
              | Some e =>
                  if is_extrapolator (as_method e) then
                    match construct h1 e (map fst s) b1 with
                    | Err x => (h1, Err x)
                    | Ok oe => (h1, Ok (mkEO dim (map fst s) oi (Some oe)))
                    end
                  else (h1, Err TypeError)
              end
          end
        else (h1, Err TypeError)
      else (h, Err ValueError)
  end.
(** component_estimators.py:103-151 [BaseComponentEstimator.__call__] *)
Definition call_obj (inside : list coords -> coords -> bool) (h : heap) (e : estimator_obj) (target : target_arg)
  : heap * res (bool * view) :=
  match check_target (eo_dim e) target with
  | Err x => (h, Err x)
  | Ok t =>
      if target_in_grid inside (eo_dim e) (eo_grid e) t then
        match call_object h (eo_interp e) t with (h', Ok v) => (h', Ok (false, v)) | (h', Err x) => (h', Err x) end
      else match eo_extrap e with
           | Some o => match call_object h o t with (h', Ok v) => (h', Ok (true, v)) | (h', Err x) => (h', Err x) end
           | None => (h, Err ValueError)
           end
  end.

(** component_estimators.py:433-453 [EffectiveAreaEstimator.__init__].  [unit]: None if the areas are in m2, then
    [to_value] returns a view of the caller's array; else the factor, and the result is a new array.  [np.log] is new *)
Definition init_area (h : heap) (grid_points : grid_arg) (b : nat) (unit : option R) (min_effective_area : R) (i : cls) (e : option cls)
  : heap * res estimator_obj :=
  let (h1, b1) := match unit with
                  | None => (h, b)
                  | Some s => alloc h (map (map (fun a => a * s)) (read_rows h b))
                  end in
  let h2 := write_rows h1 b1 (map (map (floor_at min_effective_area)) (read_rows h1 b1)) in
  let (h3, b3) := alloc h2 (map (map ln) (read_rows h2 b1)) in
  init_obj h3 grid_points b3 i e.
(** component_estimators.py:455-477 [__call__]: [np.exp] makes a new array *)
Definition call_area (inside : list coords -> coords -> bool) (h : heap) (e : estimator_obj) (min_effective_area : R) (target : target_arg)
  : heap * res (bool * view) :=
  match call_obj inside h e target with
  | (h1, Err x) => (h1, Err x)
  | (h1, Ok (w, v)) =>
      let (h2, v2) := alloc_view h1 (map exp (read_view h1 v)) in
      (write_view h2 v2 (map (fun a => if Rltb a min_effective_area then 0 else a) (read_view h2 v2)), Ok (w, v2))
  end.

(** component_estimators.py:483-558 [RadMaxEstimator.__init__]: [self.params] is the caller's array *)
Record rad_max_obj := mkRMO { rmo_est : estimator_obj; rmo_params : nat; rmo_fill : option R;
  rmo_interp_nearest : bool; rmo_extrap_nearest : bool }.
Definition init_rad_max (h : heap) (grid_points : grid_arg) (b : nat) (fill_value : fill_arg) (i : cls) (e : option cls)
  : heap * res rad_max_obj :=
  match init_obj h grid_points b i e with
  | (h1, Err x) => (h1, Err x)
  | (h1, Ok est) =>
      let f := match fill_value with FillNone => None | FillInfer => Some (list_max (concat (read_rows h1 b))) | FillValue v => Some v end in
      let r := mkRMO est b f (is_nearest (as_method i)) match e with Some e => is_nearest (as_method e) | None => false end in
      match active_fill f with
      | Some _ => if Nat.leb 3 (eo_dim est) then (h1, Err ValueError) else (h1, Ok r)
      | None => (h1, Ok r)
      end
  end.
(** component_estimators.py:583-669: the handling of fill values; None: early exit with the array as it is *)
Definition fill_entries (tri : triangulation) (find : coords -> option nat) (two_axes : bool) (dim : nat) (grid : list coords)
    (params : rows) (fill : option R) (interp_nearest extrap_nearest : bool) (target : target_arg) (full : list R) : res (option (list R)) :=
  do t <- check_target dim target;
  let points := concat grid in
  let x := hd 0 t in
  match active_fill fill with
  | None => Ok None
  | Some fill =>
      if Nat.eqb dim 1 then
        if ((Rltb x (list_min points) || Rltb (list_max points) x) && extrap_nearest) || interp_nearest then Ok None
        else
          do s <- rm_segment points x;
          do a <- pyget params (fst s);
          do b <- pyget params (snd s);
          if two_axes then Ok (Some (zip3 (fill_1D fill) a b full)) else Err IndexError
      else
        if (match find t with None => extrap_nearest | Some _ => false end) || interp_nearest then Ok None
        else
          do i <- match find t with
                  | Some i => Ok i
                  | None => match target with
                            | TFlat _ => find_nearest_simplex tri (nth 0 t 0, nth 1 t 0)
                            | _ => Err ValueError
                            end
                  end;
          match nth_error (simplices tri) i with
          | None => Err IndexError
          | Some (p, q, r) =>
              do a <- pyget params (Z.of_nat p);
              do b <- pyget params (Z.of_nat q);
              do c <- pyget params (Z.of_nat r);
              if two_axes then Ok (Some (zip3 (fun ab c e => fill_2D fill (fst ab) (snd ab) c e) (combine a b) c full)) else Err IndexError
          end
  end.
(** component_estimators.py:560-669 [__call__]: [np.clip(..., out=full_estimation)] writes into the array returned by
    the inter- or extrapolator, as do the assignments to [full_estimation[...]] in one dimension; in two dimensions
    [np.where] makes a new array first *)
Definition call_rad_max (inside : list coords -> coords -> bool) (tri : triangulation) (find : coords -> option nat) (two_axes : bool)
    (h : heap) (r : rad_max_obj) (target : target_arg) : heap * res (bool * view) :=
  match call_obj inside h (rmo_est r) target with
  | (h1, Err x) => (h1, Err x)
  | (h1, Ok (w, v)) =>
      let h2 := write_view h1 v (map min_entry (read_view h1 v)) in
      match fill_entries tri find two_axes (eo_dim (rmo_est r)) (eo_grid (rmo_est r)) (read_rows h2 (rmo_params r)) (rmo_fill r)
              (rmo_interp_nearest r) (rmo_extrap_nearest r) target (read_view h2 v) with
      | Err x => (h2, Err x)
      | Ok None => (h2, Ok (w, v))
      | Ok (Some l) =>
          if Nat.eqb (eo_dim (rmo_est r)) 1 then (write_view h2 v l, Ok (w, v))
          else let (h3, v3) := alloc_view h2 l in (h3, Ok (w, v3))
      end
  end.

(** ** Programs of the caller *)
(** calls of one estimator, and assignments to arrays: [SetResult k content]: the caller overwrites the array returned
    by its k-th call (if this call did return one); [SetInput i content]: row i of the array given to the constructor *)
Inductive action := Call (t : target_arg) | SetResult (k : nat) (content : list R) | SetInput (i : nat) (content : list R).
(** what the caller has: the memory, the arrays returned so far (None: the call raised an exception), and the outcomes
    of the calls as seen directly after them *)
Record session := mkSession { s_heap : heap; s_returned : list (option view); s_seen : list (res (bool * list R)) }.
Definition step (call : heap -> target_arg -> heap * res (bool * view)) (input : nat) (s : session) (a : action) : session :=
  match a with
  | Call t =>
      match call (s_heap s) t with
      | (h, Ok (w, v)) => mkSession h (s_returned s ++ [Some v]) (s_seen s ++ [Ok (w, read_view h v)])
      | (h, Err e) => mkSession h (s_returned s ++ [None]) (s_seen s ++ [Err e])
      end
  | SetResult k content =>
      match nth k (s_returned s) None with
      | Some v => mkSession (write_view (s_heap s) v content) (s_returned s) (s_seen s)
      | None => s
      end
  | SetInput i content => mkSession (write_view (s_heap s) (mkView input i) content) (s_returned s) (s_seen s)
  end.
Definition run (call : heap -> target_arg -> heap * res (bool * view)) (input : nat) (h : heap) (program : list action) : session :=
  fold_left (step call input) program (mkSession h [] []).
(** the content of the returned arrays at the end *)
Definition final (s : session) : list (option (list R)) := map (option_map (read_view (s_heap s))) (s_returned s).
