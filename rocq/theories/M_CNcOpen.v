(** Model of opening a NetCDF file of the client: src/client/File/Netcdf.cpp, the constructor FileNetcdf::FileNetcdf, isValid and the functions that detect dimensions and
    variables.  Files are as in M_CNc, with names of the dimensions (pn_file of M_CParNc); the library as there.
    Simplifications: as in M_CNc; the names, units and standard names of the variables (Netcdf.cpp:208-223), the check of unknown options and messages are left out; the tag is that of M_CDown.
    The size of a dimension that is missing is -999 (a negative float converted to size_t and back to int). *)
From Coq Require Import Ascii String.
From Verif Require Import Base M_COpt M_CUtil M_CCal M_CTree M_CDown M_CKrig M_CFile M_CNc M_CPar M_CParNc.
Local Open Scope Z_scope.

(** the options latVar, lonVar, timeVar, ensDim, yDim, xDim, timeDim, elevVar and lafVar, if given, Netcdf.cpp:25-96 *)
Record no_options := { no_lat : option str; no_lon : option str; no_time : option str; no_ens : option str; no_y : option str; no_x : option str; no_tdim : option str; no_elev : option str; no_laf : option str }.
(** what is known of the file afterwards *)
Record opened := { op_roles : roles; op_ens : Z; op_lats : list vec; op_lons : list vec; op_elevs : list vec; op_laf : list vec; op_times : vec; op_reference : val }.
(** detectLatVar, detectLonVar, Netcdf.cpp:671-702, or getVar, Netcdf.cpp:815-825 *)
Definition no_var (F : pn_file) (given : option str) (usual : list str) : res nc_var :=
  match given with Some n => or_abort (find_name (x_vars (pn_x F)) n) | None => or_abort (first_name (x_vars (pn_x F)) usual) end.
(** detectYDim, detectXDim, detectTimeDim, Netcdf.cpp:645-670, or getDim, Netcdf.cpp:1298-1307 *)
Definition no_dim (F : pn_file) (given : option str) (usual : list str) : res Z :=
  match given with Some n => or_abort (find_name (pn_names F) n) | None => Ok (match first_name (pn_names F) usual with Some d => d | None => -999 end) end.
(** Netcdf.cpp:42-49 and detectEnsDim, Netcdf.cpp:868-873 *)
Definition no_ensemble (F : pn_file) (given : option str) : Z :=
  match find_name (pn_names F) (match given with Some n => n | None => txt "ensemble_member" end) with Some d => d | None => -999 end.
(** Netcdf.cpp:72-90: the variable with the elevations and their scale *)
Definition no_elevation (X : netcdf) (given : option str) : option (nc_var * val) :=
  match given with
  | Some n => match find_name (x_vars X) n with Some v => Some (v, fz 1) | None => None end
  | None => match find_name (x_vars X) (txt "altitude") with
            | Some v => Some (v, fz 1)
            | None => match find_name (x_vars X) (txt "surface_geopotential") with Some v => Some (v, Fin (Q2Qc (100 # 981))) | None => None end
            end
  end.
Definition missing_grid (lats : list vec) : list vec := map (map (fun _ => CMV)) lats.
(** Netcdf.cpp:114-133, File::setElevs, File.cpp:285-291, and getElevs, File.cpp:304-315 *)
Definition no_elevs (X : netcdf) (R : roles) (lats : list vec) (e : option (nc_var * val)) : res (list vec) :=
  match e with
  | None => Ok (missing_grid lats)
  | Some (v, scale) =>
      g <- latlon X R v ;;
      g <- mapM (mapM (fun a => Ok (if cvalid a then vmul a scale else a))) g ;;
      if negb (zlen g =? zlen lats) then Ok (missing_grid lats) else
      row <- znth g 0 ;; row0 <- znth lats 0 ;; Ok (if zlen row =? zlen row0 then g else missing_grid lats)
  end.
(** Netcdf.cpp:135-147 *)
Definition no_fractions (X : netcdf) (R : roles) (lats : list vec) (given : option str) : res (list vec) :=
  match find_name (x_vars X) (match given with Some n => n | None => txt "land_area_fraction" end) with Some v => latlon X R v | None => Ok (missing_grid lats) end.
(** Netcdf.cpp:150-162 *)
Definition no_reference (X : netcdf) : res val :=
  match find_name (x_vars X) (txt "forecast_reference_time") with
  | None => Ok CMV
  | Some v => match n_dims v with [] => Ok (n_data v []) | _ => Abort end
  end.
(** Netcdf.cpp:164-205: the times and the reference time.  The whole variable is read into an array with one place for each element of the dimension, or into a single number *)
Definition no_times (X : netcdf) (R : roles) (tv : option nc_var) (ref : val) : res (vec * val) :=
  match tv with
  | Some v =>
      let size := dim_size X (r_t R) in
      times <- (if size =? 0 then Ok [] else if zlen (whole X v) =? (if ivalid size then size else 1) then Ok (whole X v) else UB) ;;
      if (0 <? size) && negb (cvalid ref) then t <- znth times 0 ;; Ok (times, t) else Ok (times, ref)
  | None => if cvalid ref then Ok ([ref], ref) else Abort
  end.
(** FileNetcdf::FileNetcdf, Netcdf.cpp:8-224 *)
Definition nc_open (o : no_options) (F : pn_file) : res opened :=
  let X := pn_x F in
  vlat <- no_var F (no_lat o) [txt "latitude"; txt "lat"] ;;
  vlon <- no_var F (no_lon o) [txt "longitude"; txt "lon"] ;;
  vtime <- match no_time o with Some n => v <- or_abort (find_name (x_vars X) n) ;; Ok (Some v) | None => Ok (find_name (x_vars X) (txt "time")) end ;;
  let e := no_ensemble F (no_ens o) in
  y <- no_dim F (no_y o) [txt "y"; txt "latitude"; txt "lat"] ;;
  x <- no_dim F (no_x o) [txt "x"; txt "longitude"; txt "lon"] ;;
  t <- no_dim F (no_tdim o) [txt "time"] ;;
  let R := {| r_t := t; r_e := e; r_y := y; r_x := x |} in
  lats <- latlon X R vlat ;;
  if existsb (existsb lat_bad) lats then Abort else
  lons <- latlon X R vlon ;;
  if existsb (existsb lon_bad) lons then Abort else
  lons <- mapM (mapM norm_lon) lons ;;
  elevs <- no_elevs X R lats (no_elevation X (no_elev o)) ;;
  laf <- no_fractions X R lats (no_laf o) ;;
  ref <- no_reference X ;;
  tr <- no_times X R vtime ref ;;
  Ok {| op_roles := R; op_ens := if ivalid e then dim_size X e else 1; op_lats := lats; op_lons := lons; op_elevs := elevs; op_laf := laf; op_times := fst tr; op_reference := snd tr |}.
(** FileNetcdf::isValid for a file that can be opened, Netcdf.cpp:526-547 *)
Definition nc_valid (o : no_options) (F : pn_file) : bool :=
  let has n := match find_name (x_vars (pn_x F)) n with Some _ => true | None => false end in
  let given (a : option str) := match a with Some _ => true | None => false end in
  (has (txt "lat") || has (txt "latitude") || given (no_lat o)) && (has (txt "lon") || has (txt "longitude") || given (no_lon o)).
