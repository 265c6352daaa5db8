(** Specification of the client's NetCDF parameter files. *)
From Coq Require Import Ascii String.
From Verif Require Import Base M_COpt S_COpt M_CUtil S_CUtil M_CTree S_CTree M_CKrig M_CFile M_CNc M_CPar S_CPar M_CParNc.
Local Open Scope Z_scope.

(** what the first of the names that are there stands for *)
Definition first_of {A} (l : list (str * A)) (names : list str) (a : A) : Prop :=
  exists before n after, names = before ++ n :: after /\ (forall m, In m before -> find_name l m = None) /\ find_name l n = Some a.
(** the dimension of the given name if there is one, otherwise of the usual names *)
Definition dimension_for (F : pn_file) (given : str) (usual : list str) (d : Z) : Prop := (given <> [] /\ find_name (pn_names F) given = Some d) \/ (given = [] /\ first_of (pn_names F) usual d).

(** a description of a file: the dimensions, the coordinate variables and the variable with the parameters; [d_time] is that of the times if there are several *)
Record shape := { d_lat : Z; d_lon : Z; d_time : option Z; d_coeff : Z; v_lat : nc_var; v_lon : nc_var; v_elev : option nc_var; v_par : nc_var }.
Definition is_time_dim (s : shape) (d : Z) : Prop := d_time s = Some d.
(** the index in a variable for a point, a time and a parameter, whatever the order of the dimensions; 0 for other dimensions *)
Definition index_at (s : shape) (i j t c d : Z) : Z :=
  if d =? d_lat s then i else if d =? d_lon s then j else if (match d_time s with Some e => d =? e | None => false end) then t else if d =? d_coeff s then c else 0.
Definition stored (s : shape) (v : nc_var) (i j t c : Z) : val := n_data v (map (index_at s i j t c) (n_dims v)).
(** a fill value stands for a missing parameter *)
Definition parameter_at (s : shape) (i j t c : Z) : val := let a := stored s (v_par s) i j t c in if veqb a (fill_of (v_par s)) then CMV else a.
Definition place_at (s : shape) (i j : Z) : location :=
  {| l_lat := stored s (v_lat s) i j 0 0; l_lon := stored s (v_lon s) i j 0 0; l_elev := match v_elev s with Some v => stored s v i j 0 0 | None => CMV end |}.
Definition rows (X : netcdf) (s : shape) : Z := dim_size X (d_lat s).
Definition columns (X : netcdf) (s : shape) : Z := dim_size X (d_lon s).
Definition coefficients (X : netcdf) (s : shape) : Z := dim_size X (d_coeff s).
Definition times_of (X : netcdf) (s : shape) : Z := match d_time s with Some d => dim_size X d | None => 1 end.
Definition set_at (X : netcdf) (s : shape) (i j t : Z) : vec := map (parameter_at s i j t) (zrange 0 (coefficients X s)).
Definition inside (X : netcdf) (s : shape) (i j : Z) : Prop := 0 <= i < rows X s /\ 0 <= j < columns X s.

(** a coordinate has the dimension of the rows, that of the columns, or both in any order *)
Definition coordinate_var (s : shape) (v : nc_var) : Prop := n_dims v <> [] /\ NoDup (n_dims v) /\ forall d, In d (n_dims v) -> d = d_lat s \/ d = d_lon s.
(** [s] describes the file *)
Definition shape_of (o : pn_options) (F : pn_file) (s : shape) : Prop :=
  let X := pn_x F in
  dimension_for F (po_ydim o) [txt "lat"; txt "latitude"; txt "y"] (d_lat s) /\ dimension_for F (po_xdim o) [txt "lon"; txt "longitude"; txt "x"] (d_lon s) /\
  find_name (pn_names F) (po_dim o) = Some (d_coeff s) /\
  first_of (x_vars X) [txt "lat"; txt "latitude"] (v_lat s) /\ first_of (x_vars X) [txt "lon"; txt "longitude"] (v_lon s) /\ find_name (x_vars X) (txt "altitude") = v_elev s /\
  find_name (x_vars X) (po_var o) = Some (v_par s) /\
  match d_time s with
  | Some d => find_name (pn_names F) (txt "time") = Some d /\ exists v, find_name (x_vars X) (txt "time") = Some v /\ n_dims v = [d]
  | None => find_name (pn_names F) (txt "time") = None \/ find_name (x_vars X) (txt "time") = None
  end.
(** the dimensions of the roles differ, coordinates are given along them, the parameters have them and at most four dimensions, none of them empty *)
Definition well_shaped (X : netcdf) (s : shape) : Prop :=
  d_lat s <> d_lon s /\ d_coeff s <> d_lat s /\ d_coeff s <> d_lon s /\ (forall d, d_time s = Some d -> d <> d_lat s /\ d <> d_lon s /\ d <> d_coeff s /\ d <> -999) /\
  coordinate_var s (v_lat s) /\ coordinate_var s (v_lon s) /\ (forall v, v_elev s = Some v -> coordinate_var s v) /\
  NoDup (n_dims (v_par s)) /\ In (d_lat s) (n_dims (v_par s)) /\ In (d_lon s) (n_dims (v_par s)) /\ In (d_coeff s) (n_dims (v_par s)) /\ zlen (n_dims (v_par s)) <= 4 /\
  (forall d, In d (n_dims (v_par s)) -> 0 <= d /\ 0 < dim_size X d) /\ 0 < times_of X s < 2147483647.
Definition well_placed (X : netcdf) (s : shape) : Prop := forall i j, inside X s i j -> exists lat lon, sited (place_at s i j) lat lon.
(** the last point at its place, row by row *)
Definition last_there (X : netcdf) (s : shape) (i j : Z) : Prop := forall i' j', inside X s i' j' -> same_place (place_at s i' j') (place_at s i j) -> i' < i \/ (i' = i /\ j' <= j).
(** the time whose parameters are used for time [t]: the first if there are no others; with cycling, the times start again after the last one *)
Definition time_for (X : netcdf) (s : shape) (cycle : bool) (t u : Z) : Prop :=
  (times_of X s = 1 /\ u = 0) \/ (1 < times_of X s /\ (cycle = false -> u = t) /\ (cycle = true -> 0 <= u < times_of X s /\ exists m, t = u + m * times_of X s)).
