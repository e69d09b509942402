(** * Gadf: pyirf/io/gadf.py *)
From Coq Require Import String Ascii Reals List Bool ZArith Arith Lia Lra DecimalString.
From Verif Require Import Num Numpy Table Tensor Cuts Benchmarks.
Import ListNotations.
Open Scope R_scope.
Open Scope string_scope.

(** ** headers of astropy *)
Inductive hval := HStr (s : string) | HNum (x : R) | HBool (b : bool).
Definition header := list (string * hval).
(** keywords are not case sensitive (longer ones than 8 characters are HIERARCH cards, found by the same name; COMMENT, HISTORY
    and blank keywords, which are appended, are not modelled) *)
Definition upper_char (c : ascii) : ascii := let n := nat_of_ascii c in if Nat.leb 97 n && Nat.leb n 122 then ascii_of_nat (n - 32) else c.
Fixpoint upper (s : string) : string := match s with EmptyString => EmptyString | String c s' => String (upper_char c) (upper s') end.
(** the headers that exist; the first one is gadf.DEFAULT_HEADER *)
Definition heap := list header.
Definition DEFAULT : nat := 0%nat.
(** [header.copy()] *)
Definition copy_header (hp : heap) (loc : nat) : heap * nat := ((hp ++ [nth loc hp []])%list, List.length hp).
(** [header[key] = value] *)
Definition set_card (hp : heap) (loc : nat) (key : string) (v : hval) : heap := list_set hp loc (setitem (nth loc hp []) (upper key) v).
Definition set_cards (hp : heap) (loc : nat) (cards : list (string * hval)) : heap := fold_left (fun h kv => set_card h loc (fst kv) (snd kv)) cards hp.
(** gadf.py:19-24: DEFAULT_HEADER when the module is loaded *)
Definition default_header (version : string) : header :=
  nth 0 (set_cards [[]] 0 [("CREATOR", HStr ("pyirf v" ++ version)); ("HDUDOC", HStr "https://github.com/open-gamma-ray-astro/gamma-astro-data-formats");
                           ("HDUVERS", HStr "0.2"); ("HDUCLASS", HStr "GADF")]) [].
(** gadf.py:27-29 [_add_header_cards] *)
Definition add_header_cards := set_cards.

(** ** tables: numpy arrays with units *)
Definition fits_table := list (string * (tensor * option unit_)).
Record qarray := mkQ { q_data : tensor; q_unit : option unit_ }.
(** units, up to the scale of the dimension: TeV, deg, m2, 1/sr, 1/(MeV s sr) *)
Definition u_TeV := mkUnit 1 1.
Definition u_deg := mkUnit 1 2.
Definition u_m2 := mkUnit 1 3.
Definition u_per_sr := mkUnit 1 4.
Definition u_background := mkUnit 1 5.
(** decorator [u.quantity_input] *)
Definition check_unit (q : option unit_) (target : unit_) : res unit :=
  match q with None => Err TypeError | Some u => if Nat.eqb (u_dim u) (u_dim target) then Ok tt else Err UnitsError end.
(** [x.to(unit)] *)
Definition to_unit (q : qarray) (target : unit_) : res (tensor * option unit_) :=
  match q_unit q with
  | None => Err AttributeError
  | Some u => if Nat.eqb (u_dim u) (u_dim target) then Ok (tmap (convert_val u target) (q_data q), Some target) else Err UnitConversionError
  end.
(** [edges[np.newaxis, :]] *)
Definition row (edges : arr) : qarray := mkQ (newaxis 0 (vec (a_val edges))) (a_unit edges).
(** binning.py:50-69 [split_bin_lo_hi] along the last axis *)
Definition split_last (t : tensor) : tensor * tensor :=
  let s := (but_last (shape t) ++ [(last (shape t) 0 - 1)%nat])%list in
  (mkT s (at_ t), mkT s (fun ix => at_ t (but_last ix ++ [S (last ix 0%nat)])%list)).
(** [t[name + "_LO"], t[name + "_HI"] = split_bin_lo_hi(x)] *)
Definition put_axis (t : fits_table) (name : string) (x : tensor * option unit_) : fits_table :=
  let '(lo, hi) := split_last (fst x) in
  setitem (setitem t (name ++ "_LO") (lo, snd x)) (name ++ "_HI") (hi, snd x).
(** [x.T[np.newaxis, ...]] *)
Definition transposed (x : qarray) : qarray := mkQ (newaxis 0 (transpose2 (q_data x))) (q_unit x).
(** [colnames.index(name) + 1] *)
Fixpoint index_from (i : nat) (names : list string) (name : string) : nat :=
  match names with [] => i | n :: names' => if String.eqb n name then i else index_from (S i) names' name end.
Definition column_number (t : fits_table) (name : string) : nat := index_from 1 (colnames t) name.
Definition CREF (t : fits_table) (name : string) : string := "CREF" ++ decimal (column_number t name).

Record hdu := mkHdu { hdu_table : fits_table; hdu_header : header }.
(** keywords of astropy that describe the table are removed from the given header (TFORMn, ... only if it has TFIELDS) *)
Definition structural (k : string) : bool :=
  existsb (String.eqb k) ["SIMPLE"; "XTENSION"; "BITPIX"; "NAXIS"; "EXTEND"; "PCOUNT"; "GCOUNT"; "GROUPS"; "BSCALE"; "BZERO"; "TFIELDS"].
(** [BinTableHDU(table, header=header, name=extname)]: copies the header; the name in upper case, if given *)
Definition bin_table_hdu (t : fits_table) (h : header) (extname : string) : hdu :=
  let h' := filter (fun kv => negb (structural (fst kv))) h in
  mkHdu t (if String.eqb extname "" then h' else setitem h' "EXTNAME" (HStr (upper extname))).

(** the second half of all functions: header keywords in the order in which they are set *)
Definition finish (hp : heap) (t : fits_table) (cards : list (string * hval)) (extname : string) (header_cards : list (string * hval)) : heap * res hdu :=
  let '(hp1, loc) := copy_header hp DEFAULT in
  let hp2 := set_cards hp1 loc cards in
  let hp3 := add_header_cards hp2 loc header_cards in
  (hp3, Ok (bin_table_hdu t (nth loc hp3 []) extname)).
Definition enclosure (point_like : bool) : hval := HStr (if point_like then "POINT-LIKE" else "FULL-ENCLOSURE").
Definition clas (c1 c2 : string) (c3 : hval) (c4 : string) : list (string * hval) :=
  [("HDUCLAS1", HStr c1); ("HDUCLAS2", HStr c2); ("HDUCLAS3", c3); ("HDUCLAS4", HStr c4)].
Definition with_table (hp : heap) (t : res fits_table) (f : fits_table -> heap * res hdu) : heap * res hdu :=
  match t with Ok t => f t | Err e => (hp, Err e) end.

(** gadf.py:32-83 [create_aeff2d_hdu]; [now]: the time *)
Definition create_aeff2d_hdu (hp : heap) (now : string) (effective_area : qarray) (true_energy_bins fov_offset_bins : arr) (extname : string) (point_like : bool)
    (header_cards : list (string * hval)) : heap * res hdu :=
  with_table hp
    (do _ <- check_unit (q_unit effective_area) u_m2; do _ <- check_unit (a_unit true_energy_bins) u_TeV; do _ <- check_unit (a_unit fov_offset_bins) u_deg;
     do e <- to_unit (row true_energy_bins) u_TeV;
     do th <- to_unit (row fov_offset_bins) u_deg;
     do d <- to_unit (transposed effective_area) u_m2;
     Ok (setitem (put_axis (put_axis [] "ENERG" e) "THETA" th) "EFFAREA" d))
    (fun t => finish hp t (clas "RESPONSE" "EFF_AREA" (enclosure point_like) "AEFF_2D" ++
       [("DATE", HStr now); (CREF t "EFFAREA", HStr "(ENERG_LO:ENERG_HI,THETA_LO:THETA_HI)")])%list extname header_cards).
(** gadf.py:86-142 [create_psf_table_hdu] *)
Definition create_psf_table_hdu (hp : heap) (now : string) (psf : qarray) (true_energy_bins source_offset_bins fov_offset_bins : arr) (extname : string)
    (header_cards : list (string * hval)) : heap * res hdu :=
  with_table hp
    (do _ <- check_unit (q_unit psf) u_per_sr; do _ <- check_unit (a_unit true_energy_bins) u_TeV; do _ <- check_unit (a_unit source_offset_bins) u_deg;
     do _ <- check_unit (a_unit fov_offset_bins) u_deg;
     do e <- to_unit (row true_energy_bins) u_TeV;
     do th <- to_unit (row fov_offset_bins) u_deg;
     do r <- to_unit (row source_offset_bins) u_deg;
     do d <- to_unit (transposed psf) u_per_sr;
     Ok (setitem (put_axis (put_axis (put_axis [] "ENERG" e) "THETA" th) "RAD" r) "RPSF" d))
    (fun t => finish hp t (clas "RESPONSE" "PSF" (HStr "FULL-ENCLOSURE") "PSF_TABLE" ++
       [("DATE", HStr now); (CREF t "RPSF", HStr "(ENERG_LO:ENERG_HI,THETA_LO:THETA_HI,RAD_LO:RAD_HI)")])%list extname header_cards).
(** gadf.py:145-202 [create_energy_dispersion_hdu]; the migration edges keep their unit, or have none *)
Definition create_energy_dispersion_hdu (hp : heap) (now : string) (energy_dispersion : qarray) (true_energy_bins migration_bins fov_offset_bins : arr)
    (point_like : bool) (extname : string) (header_cards : list (string * hval)) : heap * res hdu :=
  with_table hp
    (do _ <- check_unit (a_unit true_energy_bins) u_TeV; do _ <- check_unit (a_unit fov_offset_bins) u_deg;
     do e <- to_unit (row true_energy_bins) u_TeV;
     let m := (q_data (row migration_bins), a_unit migration_bins) in
     do th <- to_unit (row fov_offset_bins) u_deg;
     (* u.Quantity(x): an array without unit is dimensionless *)
     do d <- to_unit (mkQ (q_data (transposed energy_dispersion)) (Some match q_unit energy_dispersion with Some u => u | None => one_unit end)) one_unit;
     Ok (setitem (put_axis (put_axis (put_axis [] "ENERG" e) "MIGRA" m) "THETA" th) "MATRIX" d))
    (fun t => finish hp t (clas "RESPONSE" "EDISP" (enclosure point_like) "EDISP_2D" ++
       [("DATE", HStr now); (CREF t "MATRIX", HStr "(ENERG_LO:ENERG_HI,MIGRA_LO:MIGRA_HI,THETA_LO:THETA_HI)")])%list extname header_cards).
(** gadf.py:212-260 [create_background_2d_hdu]; the decorator names an argument that does not exist, so the background is not checked *)
Definition create_background_2d_hdu (hp : heap) (now : string) (background_2d : qarray) (reco_energy_bins fov_offset_bins : arr) (extname : string)
    (header_cards : list (string * hval)) : heap * res hdu :=
  with_table hp
    (do _ <- check_unit (a_unit reco_energy_bins) u_TeV; do _ <- check_unit (a_unit fov_offset_bins) u_deg;
     do e <- to_unit (row reco_energy_bins) u_TeV;
     do th <- to_unit (row fov_offset_bins) u_deg;
     do d <- to_unit (transposed background_2d) u_background;
     Ok (setitem (put_axis (put_axis [] "ENERG" e) "THETA" th) "BKG" d))
    (fun t => finish hp t (clas "RESPONSE" "BKG" (HStr "FULL-ENCLOSURE") "BKG_2D" ++
       [("DATE", HStr now); (CREF t "BKG", HStr "(ENERG_LO:ENERG_HI,THETA_LO:THETA_HI)")])%list extname header_cards).
(** gadf.py:263-327 [create_background_3d_hdu] *)
Definition create_background_3d_hdu (hp : heap) (now : string) (background_3d : qarray) (reco_energy_bins fov_lon_bins fov_lat_bins : arr) (alignment extname : string)
    (header_cards : list (string * hval)) : heap * res hdu :=
  with_table hp
    (do _ <- check_unit (a_unit reco_energy_bins) u_TeV; do _ <- check_unit (a_unit fov_lon_bins) u_deg; do _ <- check_unit (a_unit fov_lat_bins) u_deg;
     do e <- to_unit (row reco_energy_bins) u_TeV;
     do x <- to_unit (row fov_lon_bins) u_deg;
     do y <- to_unit (row fov_lat_bins) u_deg;
     do d <- to_unit (transposed background_3d) u_background;
     Ok (setitem (put_axis (put_axis (put_axis [] "ENERG" e) "DETX" x) "DETY" y) "BKG" d))
    (fun t =>
       if existsb (String.eqb alignment) ["ALTAZ"; "RADEC"] then
         finish hp t (clas "RESPONSE" "BKG" (HStr "FULL-ENCLOSURE") "BKG_3D" ++
           [("FOVALIGN", HStr alignment); ("DATE", HStr now); (CREF t "BKG", HStr "(ENERG_LO:ENERG_HI,DETX_LO:DETX_HI,DETY_LO:DETY_HI)")])%list extname header_cards
       else
         let '(hp1, loc) := copy_header hp DEFAULT in
         (set_cards hp1 loc (clas "RESPONSE" "BKG" (HStr "FULL-ENCLOSURE") "BKG_3D"), Err ValueError)).
(** gadf.py:330-382 [create_rad_max_hdu] *)
Definition create_rad_max_hdu (hp : heap) (now : string) (rad_max : qarray) (reco_energy_bins fov_offset_bins : arr) (point_like : bool) (extname : string)
    (header_cards : list (string * hval)) : heap * res hdu :=
  with_table hp
    (do _ <- check_unit (q_unit rad_max) u_deg; do _ <- check_unit (a_unit reco_energy_bins) u_TeV; do _ <- check_unit (a_unit fov_offset_bins) u_deg;
     do e <- to_unit (row reco_energy_bins) u_TeV;
     do th <- to_unit (row fov_offset_bins) u_deg;
     do d <- to_unit (transposed rad_max) u_deg;
     Ok (setitem (put_axis (put_axis [] "ENERG" e) "THETA" th) "RAD_MAX" d))
    (fun t => finish hp t (clas "RESPONSE" "RAD_MAX" (HStr "POINT-LIKE") "RAD_MAX_2D" ++
       [("DATE", HStr now); (CREF t "RAD_MAX", HStr "(ENERG_LO:ENERG_HI,THETA_LO:THETA_HI)")])%list extname header_cards).

(** ** histories: any sequence of calls *)
Inductive call :=
| CAeff (now : string) (x : qarray) (e th : arr) (extname : string) (point_like : bool) (cards : list (string * hval))
| CPsf (now : string) (x : qarray) (e s th : arr) (extname : string) (cards : list (string * hval))
| CEdisp (now : string) (x : qarray) (e m th : arr) (point_like : bool) (extname : string) (cards : list (string * hval))
| CBkg2 (now : string) (x : qarray) (e th : arr) (extname : string) (cards : list (string * hval))
| CBkg3 (now : string) (x : qarray) (e lon lat : arr) (alignment extname : string) (cards : list (string * hval))
| CRad (now : string) (x : qarray) (e th : arr) (point_like : bool) (extname : string) (cards : list (string * hval)).
Definition run_call (hp : heap) (c : call) : heap * res hdu :=
  match c with
  | CAeff now x e th n p k => create_aeff2d_hdu hp now x e th n p k
  | CPsf now x e s th n k => create_psf_table_hdu hp now x e s th n k
  | CEdisp now x e m th p n k => create_energy_dispersion_hdu hp now x e m th p n k
  | CBkg2 now x e th n k => create_background_2d_hdu hp now x e th n k
  | CBkg3 now x e lon lat a n k => create_background_3d_hdu hp now x e lon lat a n k
  | CRad now x e th p n k => create_rad_max_hdu hp now x e th p n k
  end.
Fixpoint run_calls (hp : heap) (cs : list call) : heap * list (res hdu) :=
  match cs with [] => (hp, []) | c :: cs' => let '(h1, r) := run_call hp c in let '(h2, rs) := run_calls h1 cs' in (h2, r :: rs) end.
