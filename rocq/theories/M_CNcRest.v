(** Model of what the client writes to a NetCDF file besides the fields: src/client/File/Netcdf.cpp, the times, the reference time and the altitude in writeCore.
    Files are as in M_CNc and M_CNcOpen.
    Simplifications: as in M_CNc; attributes are left out.  The array with the altitudes is given in the order of its elements. *)
From Coq Require Import Ascii String.
From Verif Require Import Base M_COpt M_CUtil M_CCal M_CTree M_CDown M_CKrig M_CFile M_CNc M_CPar M_CParNc M_CNcOpen.
Local Open Scope Z_scope.

(** nc_def_var in a file without the variable *)
Definition new_var (X : netcdf) (name : str) (ds : list Z) : netcdf := {| x_dims := x_dims X; x_vars := store (x_vars X) name (fresh_var ds) |}.
Definition has_var (X : netcdf) (name : str) : bool := match find_name (x_vars X) name with Some _ => true | None => false end.
(** defineAltitude, Netcdf.cpp:704-748: in the order of the latitudes, or of the geopotential; last_of is where a dimension is among those of a variable *)
Definition define_altitude (X : netcdf) (R : roles) (vlat : nc_var) : res netcdf :=
  let like := if 2 <=? zlen (n_dims vlat) then Some vlat else find_name (x_vars X) (txt "surface_geopotential") in
  let '(y, x) := match like with Some v => (last_of (r_y R) (n_dims v), last_of (r_x R) (n_dims v)) | None => (0, 1) end in
  if ivalid (r_y R) && ivalid (r_x R) then Ok (new_var X (txt "altitude") (if y <? x then [r_y R; r_x R] else [r_x R; r_y R])) else Abort.
(** defineTimes, Netcdf.cpp:1111-1125 (the dimension is added by define_dims of M_CNc), and defineReferenceTime, Netcdf.cpp:1162-1167 *)
Definition define_times (X : netcdf) (R : roles) : netcdf := if has_var X (txt "time") then X else new_var X (txt "time") [r_t R].
Definition define_reference (X : netcdf) : netcdf := if has_var X (txt "forecast_reference_time") then X else new_var X (txt "forecast_reference_time") [].
(** writeTimes, Netcdf.cpp:1136-1161; with further dimensions, start and count have too few elements *)
Definition write_times (X : netcdf) (times : vec) : res netcdf :=
  v <- or_abort (find_name (x_vars X) (txt "time")) ;;
  let values := map (fun t => if cvalid t then t else fill_float) times in
  match n_dims v with
  | [] => t <- znth values 0 ;; put_vara X (txt "time") v [] [] [Some t]
  | [_] => put_vara X (txt "time") v [0] [zlen times] (map Some values)
  | _ => UB
  end.
(** writeReferenceTime, Netcdf.cpp:1172-1179; the whole variable is written from a single number *)
Definition write_reference (X : netcdf) (ref : val) : res netcdf :=
  v <- or_abort (find_name (x_vars X) (txt "forecast_reference_time")) ;;
  match n_dims v with [] => put_vara X (txt "forecast_reference_time") v [] [] [Some (if cvalid ref then ref else fill_float)] | _ => UB end.
(** writeAltitude, Netcdf.cpp:750-814; nY * nX numbers are written into an array for the horizontal dimensions of the variable *)
Definition write_altitude (X : netcdf) (R : roles) (elevs : list vec) : res netcdf :=
  v <- or_abort (find_name (x_vars X) (txt "altitude")) ;;
  let ds := n_dims v in
  if negb (zlen ds =? (if ivalid (r_y R) then 1 else 0) + (if ivalid (r_x R) then 1 else 0)) then Abort else
  row <- znth elevs 0 ;;
  let nY := zlen elevs in let nX := zlen row in
  let count := map (fun d => if d =? r_y R then nY else if d =? r_x R then nX else 1) ds in
  if product count <? nY * nX then UB else
  let elev i j := e <- get2 elevs i j ;; Ok (if cvalid (fill_of v) && negb (cvalid e) then fill_of v else e) in
  values <- (if last_of (r_y R) ds <? last_of (r_x R) ds then tab2 nY nX elev else tab2 nX nY (fun j i => elev i j)) ;;
  put_vara X (txt "altitude") v (init1 (zlen ds) 0) count (map Some (concat values)).
(** Netcdf.cpp:366-384 and 430-435 *)
Definition write_rest (X : netcdf) (R : roles) (vlat : nc_var) (elevs : list vec) (times : vec) (ref : val) : res netcdf :=
  let valid := existsb (existsb cvalid) elevs in
  X <- (if valid && negb (has_var X (txt "altitude")) then define_altitude X R vlat else Ok X) ;;
  let X := define_reference (define_times X R) in
  X <- write_times X times ;; X <- write_reference X ref ;;
  if valid then write_altitude X R elevs else Ok X.
