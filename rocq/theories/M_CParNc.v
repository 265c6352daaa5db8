(** Model of the client's NetCDF parameter files: src/client/ParameterFile/Netcdf.cpp (ParameterFileNetcdf).  Files are as in M_CNc, with names of the dimensions;
    parameters as in M_CPar.
    Simplifications: as in M_CNc; entering and leaving define mode and messages are left out.  A file is written once, after it was made. *)
From Coq Require Import Ascii String.
From Verif Require Import Base M_COpt M_CUtil M_CCal M_CTree M_CDown M_CKrig M_CFile M_CNc M_CPar.
Local Open Scope Z_scope.

(** the file and the names of its dimensions *)
Record pn_file := { pn_x : netcdf; pn_names : list (str * Z) }.
(** the options dimName, varName, xDim and yDim, Netcdf.cpp:11-20 *)
Record pn_options := { po_dim : str; po_var : str; po_xdim : str; po_ydim : str }.
Definition pn_defaults : pn_options := {| po_dim := txt "coeff"; po_var := txt "coefficient"; po_xdim := []; po_ydim := [] |}.
Definition or_abort {A} (o : option A) : res A := match o with Some a => Ok a | None => Abort end.
(** getDim after hasDim for one name after the other; likewise getVar after hasVar *)
Fixpoint first_name {A} (l : list (str * A)) (names : list str) : option A :=
  match names with [] => None | n :: t => match find_name l n with Some a => Some a | None => first_name l t end end.
(** getLatDim and getLonDim, Netcdf.cpp:422-451 *)
Definition pn_dim (F : pn_file) (asked : str) (usual : list str) : res Z :=
  or_abort (if str_eqb asked [] then first_name (pn_names F) usual else find_name (pn_names F) asked).
Definition pn_lat_dim (o : pn_options) (F : pn_file) : res Z := pn_dim F (po_ydim o) [txt "lat"; txt "latitude"; txt "y"].
Definition pn_lon_dim (o : pn_options) (F : pn_file) : res Z := pn_dim F (po_xdim o) [txt "lon"; txt "longitude"; txt "x"].
(** nc_get_var_float: the whole variable *)
Definition whole (X : netcdf) (v : nc_var) : vec := map (n_data v) (indices (map (dim_size X) (n_dims v))).
Definition last_of (d : Z) (ds : list Z) : Z := fold_left (fun p kd => let '(k, e) := kd in if e =? d then k else p) (combine (zrange 0 (zlen ds)) ds) (-999).
(** getGridValues, Netcdf.cpp:520-608.  In lines 591-592 the whole variable is written into an array for the rows and columns only *)
Definition pn_grid (X : netcdf) (dLat dLon : Z) (v : nc_var) : res (list vec) :=
  let nLat := dim_size X dLat in let nLon := dim_size X dLon in
  match n_dims v with
  | [k] =>
      if k =? dLat then tab2 nLat nLon (fun i j => znth (whole X v) i)
      else if k =? dLon then tab2 nLat nLon (fun i j => znth (whole X v) j)
      else Abort
  | ds =>
      let y := last_of dLat ds in let x := fold_left (fun p kd => let '(k, e) := kd in if e =? dLat then p else if e =? dLon then k else p) (combine (zrange 0 (zlen ds)) ds) (-999) in
      if negb (ivalid y) || negb (ivalid x) then Abort else
      if product (map (fun k => if k =? dLat then nLat else if k =? dLon then nLon else 1) ds) <? zlen (whole X v) then UB else
      tab2 nLat nLon (fun i j => znth (whole X v) (if y <? x then i * nLon + j else j * nLat + i))
  end.
(** getNcFloats, Netcdf.cpp:498-518 *)
Definition pn_floats (X : netcdf) (v : nc_var) : res vec :=
  if product (map (dim_size X) (n_dims v)) <=? 0 then Abort else Ok (map (fun a => if veqb a (fill_of v) then CMV else a) (whole X v)).
(** the place of a point of the grid *)
Definition pn_place (lats lons elevs : list vec) (i j : Z) : res location :=
  la <- get2 lats i j ;; lo <- get2 lons i j ;; el <- get2 elevs i j ;; Ok {| l_lat := la; l_lon := lo; l_elev := el |}.
(** initializeEmpty, ParameterFile.cpp:282-289, for the locations of Netcdf.cpp:104-112 *)
Definition pn_empty (lats lons elevs : list vec) (nLat nLon nTime nCoeff : Z) : res entries :=
  foldM (fun m c => let '(i, j) := c in l <- pn_place lats lons elevs i j ;; if bad_key l then UB else Ok (assign m l (init1 nTime (init1 nCoeff CMV)))) [] (pairs2 nLat nLon).
(** Netcdf.cpp:140-157: the position of each dimension; each dimension counts once, in this order *)
Definition pn_positions (dLat dLon dTime dCoeff : Z) (ds : list Z) : Z * Z * Z * Z :=
  fold_left (fun p kd => let '(k, d) := kd in let '(y, x, t, c) := p in
    if d =? dLat then (k, x, t, c) else if d =? dLon then (y, k, t, c) else if d =? dTime then (y, x, k, c) else if d =? dCoeff then (y, x, t, k) else p)
    (combine (zrange 0 (zlen ds)) ds) (-999, -999, -999, -999).
(** Netcdf.cpp:172-189: the parameters of a point and time; there are four indices, whatever the number of dimensions.  getIndex, Netcdf.cpp:485-496, is that of M_CNc *)
Definition pn_set (pos : Z * Z * Z * Z) (sizes : list Z) (values : vec) (nCoeff i j t : Z) : res vec :=
  let '(py, px, pt, pc) := pos in
  mapM (fun c => a <- zset (init1 4 0) py i ;; a <- zset a px j ;; a <- set_if pt t a ;; a <- zset a pc c ;; k <- nc_index sizes a ;; znth values k) (zrange 0 nCoeff).
(** recomputeTree, ParameterFile.cpp:21-35, with isLocationDependent of Netcdf.h:23 *)
Definition pn_tree (srt : bool -> list item -> list item) (f : pfile) : res pfile :=
  let ls := map fst (p_map f) in
  t <- build_tree srt (map (fun l => [l_lat l]) ls) (map (fun l => [l_lon l]) ls) ;;
  Ok {| p_map := p_map f; p_timed := p_timed f; p_max := p_max f; p_cycle := p_cycle f; p_tree := t; p_locs := p_locs f ++ ls |}.
(** ParameterFileNetcdf::ParameterFileNetcdf for an existing file, Netcdf.cpp:30-200 *)
Definition pn_read (srt : bool -> list item -> list item) (o : pn_options) (cycle : bool) (F : pn_file) : res pfile :=
  let X := pn_x F in
  dLon <- pn_lon_dim o F ;; dLat <- pn_lat_dim o F ;; dCoeff <- or_abort (find_name (pn_names F) (po_dim o)) ;;
  let nLat := dim_size X dLat in let nLon := dim_size X dLon in let nCoeff := dim_size X dCoeff in
  vLat <- or_abort (first_name (x_vars X) [txt "lat"; txt "latitude"]) ;; lats <- pn_grid X dLat dLon vLat ;;
  vLon <- or_abort (first_name (x_vars X) [txt "lon"; txt "longitude"]) ;; lons <- pn_grid X dLat dLon vLon ;;
  elevs <- match find_name (x_vars X) (txt "altitude") with Some v => pn_grid X dLat dLon v | None => Ok (init1 nLat (init1 nLon CMV)) end ;;
  '(dTime, nTime) <- match find_name (x_vars X) (txt "time"), find_name (pn_names F) (txt "time") with
                     | Some v, Some d => if dim_size X d <? zlen (whole X v) then UB else Ok (d, dim_size X d)
                     | _, _ => Ok (-999, 1)
                     end ;;
  v <- or_abort (find_name (x_vars X) (po_var o)) ;;
  if nLat * nLon * (nTime * nCoeff) <=? 0 then Abort else
  values <- pn_floats X v ;;
  m <- pn_empty lats lons elevs nLat nLon nTime nCoeff ;;
  let '(py, px, pt, pc) := pn_positions dLat dLon dTime dCoeff (n_dims v) in
  if negb (ivalid py) then Abort else if negb (ivalid px) then Abort else if negb (ivalid pc) then Abort else
  m <- foldM (fun m c => let '(i, j) := c in
    l <- pn_place lats lons elevs i j ;;
    foldM (fun m t => p <- pn_set (py, px, pt, pc) (map (dim_size X) (n_dims v)) values nCoeff i j t ;;
      e <- find m l ;; match e with Some (_, ps) => ps <- zset ps t p ;; Ok (assign m l ps) | None => UB end) m (zrange 0 nTime)) m (pairs2 nLat nLon) ;;
  let f := {| p_map := m; p_timed := 1 <? nTime; p_max := nTime - 1; p_cycle := cycle; p_tree := Nil; p_locs := [] |} in
  if num_parameters f <=? 0 then Abort else
  pn_tree srt f.

(** ** Writing *)
(** a variable just defined, and nc_put_var_float, which writes all of it *)
Definition fresh_var (ds : list Z) : nc_var := {| n_dims := ds; n_data := fun _ => fill_float; n_fill := None; n_scale := None; n_offset := None; n_store := Some |}.
Definition put_whole (X : netcdf) (name : str) (values : vec) : res netcdf :=
  match find_name (x_vars X) name with
  | None => Abort
  | Some v => put_vara X name v (init1 (zlen (n_dims v)) 0) (map (dim_size X) (n_dims v)) (map Some values)
  end.
(** Netcdf.cpp:373-393: the values of a time and a location *)
Definition pn_row (gc : val -> val -> val -> val -> val) (f : pfile) (nCoeff t : Z) (l : location) : res vec :=
  p <- get_parameters gc f t l false ;;
  if zlen p =? nCoeff then Ok p else if zlen p =? 0 then Ok (init1 nCoeff CMV) else Abort.
(** ParameterFileNetcdf::write, Netcdf.cpp:292-406.  Variables are defined in a file without any; a name that is used twice is an error.  The array of values is filled in the order of its elements *)
Definition pn_write (gc : val -> val -> val -> val -> val) (o : pn_options) (f : pfile) : res pn_file :=
  let times := get_times f in let locs := p_locs f in
  match locs with
  | [] => Abort
  | first :: _ =>
      if zlen times =? 0 then Abort else
      nCoeff <- foldM (fun n t => p <- get_parameters gc f t first false ;; Ok (Z.max n (zlen p))) 0 times ;;
      if nCoeff =? 0 then Abort else
      if existsb (str_eqb (po_var o)) [txt "latitude"; txt "longitude"; txt "altitude"; txt "time"] then Abort else
      let X := {| x_dims := [(zlen times, false); (1, false); (zlen locs, false); (nCoeff, false)];
                  x_vars := [(po_var o, fresh_var [0; 2; 1; 3]); (txt "latitude", fresh_var [2; 1]); (txt "longitude", fresh_var [2; 1]); (txt "altitude", fresh_var [2; 1]); (txt "time", fresh_var [0])] |} in
      X <- put_whole X (txt "latitude") (map l_lat locs) ;;
      X <- put_whole X (txt "longitude") (map l_lon locs) ;;
      X <- put_whole X (txt "altitude") (map l_elev locs) ;;
      X <- put_whole X (txt "time") (map fz times) ;;
      rows <- mapM (fun t => rows <- mapM (pn_row gc f nCoeff t) locs ;; Ok (concat rows)) times ;;
      X <- put_whole X (po_var o) (concat rows) ;;
      Ok {| pn_x := X; pn_names := [(txt "time", 0); (txt "lon", 1); (txt "lat", 2); (txt "coeff", 3)] |}
  end.
