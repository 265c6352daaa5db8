(** Specification of opening a NetCDF file of the client. *)
From Coq Require Import Ascii String.
From Verif Require Import Base M_COpt M_CUtil M_CTree S_CTree M_CKrig M_CFile M_CNc S_CNc M_CPar S_CPar M_CParNc S_CParNc M_CNcOpen.
Local Open Scope Z_scope.

(** the variable of the given name, otherwise the first of the usual names that is there *)
Definition used_var (F : pn_file) (given : option str) (usual : list str) (v : nc_var) : Prop :=
  match given with Some n => find_name (x_vars (pn_x F)) n = Some v | None => first_of (x_vars (pn_x F)) usual v end.
(** likewise a dimension, which may be missing if no name is given *)
Definition used_dim (F : pn_file) (given : option str) (usual : list str) (d : Z) : Prop :=
  match given with
  | Some n => find_name (pn_names F) n = Some d
  | None => first_of (pn_names F) usual d \/ (d = -999 /\ forall n, In n usual -> find_name (pn_names F) n = None)
  end.
(** an optional name with a default *)
Definition or_name (given : option str) (n : str) : str := match given with Some m => m | None => n end.
(** a description of a file *)
Record description := { s_roles : roles; s_lat : nc_var; s_lon : nc_var; s_time : option nc_var; s_elev : option (nc_var * Qc); s_laf : option nc_var; s_ref : option nc_var }.
(** the elevations: a variable and what its values are multiplied by to get metres; 1/9.81 for a geopotential *)
Definition elevation_of (X : netcdf) (given : option str) (e : option (nc_var * Qc)) : Prop :=
  match given with
  | Some n => (exists v, find_name (x_vars X) n = Some v /\ e = Some (v, 1%Qc)) \/ (find_name (x_vars X) n = None /\ e = None)
  | None => (exists v, find_name (x_vars X) (txt "altitude") = Some v /\ e = Some (v, 1%Qc)) \/
            (find_name (x_vars X) (txt "altitude") = None /\ exists v c, find_name (x_vars X) (txt "surface_geopotential") = Some v /\ e = Some (v, c) /\ (c * Q2Qc (981 # 100) = 1)%Qc) \/
            (find_name (x_vars X) (txt "altitude") = None /\ find_name (x_vars X) (txt "surface_geopotential") = None /\ e = None)
  end.
Definition describes (o : no_options) (F : pn_file) (s : description) : Prop :=
  let X := pn_x F in let R := s_roles s in
  used_var F (no_lat o) [txt "latitude"; txt "lat"] (s_lat s) /\ used_var F (no_lon o) [txt "longitude"; txt "lon"] (s_lon s) /\
  (find_name (x_vars X) (or_name (no_time o) (txt "time")) = s_time s /\ (no_time o <> None -> s_time s <> None)) /\
  used_dim F (no_y o) [txt "y"; txt "latitude"; txt "lat"] (r_y R) /\ used_dim F (no_x o) [txt "x"; txt "longitude"; txt "lon"] (r_x R) /\ used_dim F (no_tdim o) [txt "time"] (r_t R) /\
  (find_name (pn_names F) (or_name (no_ens o) (txt "ensemble_member")) = Some (r_e R) \/ (find_name (pn_names F) (or_name (no_ens o) (txt "ensemble_member")) = None /\ r_e R = -999)) /\
  elevation_of X (no_elev o) (s_elev s) /\ find_name (x_vars X) (or_name (no_laf o) (txt "land_area_fraction")) = s_laf s /\ find_name (x_vars X) (txt "forecast_reference_time") = s_ref s.
(** a missing dimension has one element *)
Definition extent (X : netcdf) (k : Z) : Z := if k =? -999 then 1 else dim_size X k.
Definition on_grid (X : netcdf) (R : roles) (i j : Z) : Prop := 0 <= i < extent X (r_y R) /\ 0 <= j < extent X (r_x R).
(** a variable along the rows, the columns, or both in any order and perhaps further dimensions, none of them empty *)
Definition grid_var (X : netcdf) (R : roles) (v : nc_var) : Prop :=
  sound X v /\ (forall k, In k (n_dims v) -> 1 <= dim_size X k) /\ ((exists k, n_dims v = [k] /\ (k = r_y R \/ k = r_x R)) \/ (zlen (n_dims v) <> 1 /\ In (r_y R) (n_dims v) /\ In (r_x R) (n_dims v))).
(** its value at a point: the first in further dimensions; missing if it is the fill value, which is not noticed in variables with one dimension *)
Definition value_there (R : roles) (v : nc_var) (i j : Z) : val :=
  let raw := n_data v (map (grid_point R i j) (n_dims v)) in if negb (zlen (n_dims v) =? 1) && veqb raw (fill_of v) then CMV else raw.
Definition full_grid (X : netcdf) (R : roles) (g : list vec) : Prop := rect (extent X (r_y R)) (extent X (r_x R)) g.
(** a file that can be opened: the grid is not empty, latitudes and longitudes are there and within limits, no longitude is 0 *)
Definition grid_ready (X : netcdf) (s : description) : Prop :=
  let R := s_roles s in
  r_y R <> r_x R /\ 1 <= extent X (r_y R) /\ 1 <= extent X (r_x R) /\ grid_var X R (s_lat s) /\ grid_var X R (s_lon s) /\ (forall v c, s_elev s = Some (v, c) -> grid_var X R v) /\ (forall v, s_laf s = Some v -> grid_var X R v) /\
  (forall i j, on_grid X R i j -> exists q, value_there R (s_lat s) i j = Fin q /\ (qz (-90) <= q <= qz 90)%Qc) /\
  (forall i j, on_grid X R i j -> exists q, value_there R (s_lon s) i j = Fin q /\ q <> 0%Qc /\ (qz (-360) <= q <= qz 360)%Qc).
(** the times are given along their dimension, or by one number if there is no such dimension; without them there is a reference time *)
Definition reference_value (s : description) : val := match s_ref s with Some v => n_data v [] | None => CMV end.
Definition times_ready (X : netcdf) (s : description) : Prop :=
  (forall v, s_ref s = Some v -> n_dims v = []) /\
  match s_time s with
  | Some v => (r_t (s_roles s) = -999 /\ n_dims v = []) \/ (n_dims v = [r_t (s_roles s)] /\ 0 <= dim_size X (r_t (s_roles s)))
  | None => exists q, present (reference_value s) q
  end.
(** the times *)
Definition times_there (X : netcdf) (s : description) : vec :=
  match s_time s with
  | Some v => if r_t (s_roles s) =? -999 then [n_data v []] else map (fun t => n_data v [t]) (zrange 0 (dim_size X (r_t (s_roles s))))
  | None => [reference_value s]
  end.
(** a value multiplied by a number, missing if it is missing *)
Definition scaled (c : Qc) (w e : val) : Prop := (forall q, present w q -> e = Fin (q * c)) /\ (absent w -> e = w).
