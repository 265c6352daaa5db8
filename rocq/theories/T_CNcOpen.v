(** Opening NetCDF files of the client: C272-C276. *)
From Coq Require Import Ascii String Lia.
From Verif Require Import Base ListLib M_COpt S_COpt M_CUtil S_CUtil M_CTree S_CTree M_CKrig M_CFile M_CNc S_CNc M_CPar S_CPar M_CParNc S_CParNc P_CParNc6 M_CNcOpen S_CNcOpen P_CNcOpen P_CNcOpen2 M_CNcRest S_CNcRest P_CNcRest P_CNcRest2.
Local Open Scope Z_scope.

(** C272: the dimensions, latitudes and longitudes.  A longitude of 0 is undefined behaviour *)
Theorem C272_greenwich_refuted : exists o F v, find_name (x_vars (pn_x F)) (txt "lon") = Some v /\ grid_var (pn_x F) {| r_t := -999; r_e := -999; r_y := 0; r_x := 1 |} v /\ n_data v [0] = fz 0 /\ nc_open o F = UB.
Proof. exact c272_greenwich. Qed.
Print Assumptions C272_greenwich_refuted.
Theorem C272_grid_partial : forall o F s, describes o F s -> grid_ready (pn_x F) s -> times_ready (pn_x F) s -> exists P, nc_open o F = Ok P /\ op_roles P = s_roles s /\ op_ens P = extent (pn_x F) (r_e (s_roles s)) /\
  full_grid (pn_x F) (s_roles s) (op_lats P) /\ full_grid (pn_x F) (s_roles s) (op_lons P) /\ forall i j, on_grid (pn_x F) (s_roles s) i j -> get2 (op_lats P) i j = Ok (value_there (s_roles s) (s_lat s) i j) /\
    exists q r k, value_there (s_roles s) (s_lon s) i j = Fin q /\ get2 (op_lons P) i j = Ok (Fin r) /\ (qz (-180) <= r <= qz 180)%Qc /\ (q = r + qz (360 * k))%Qc.
Proof. exact c272. Qed.
Print Assumptions C272_grid_partial.
Theorem C272_named : forall o F P, nc_open o F = Ok P ->
  (forall n, no_y o = Some n -> find_name (pn_names F) n = Some (r_y (op_roles P))) /\ (forall n, no_x o = Some n -> find_name (pn_names F) n = Some (r_x (op_roles P))) /\ (forall n, no_tdim o = Some n -> find_name (pn_names F) n = Some (r_t (op_roles P))) /\
  (forall n, In (Some n) [no_lat o; no_lon o; no_time o] -> exists v, find_name (x_vars (pn_x F)) n = Some v).
Proof. exact c272_named. Qed.
Print Assumptions C272_named.
Example C272_named_example : let o y := {| no_lat := Some (txt "lat"); no_lon := None; no_time := None; no_ens := None; no_y := Some (txt y); no_x := None; no_tdim := None; no_elev := None; no_laf := None |} in
  (P <- nc_open (o "latitude"%string) globe ;; Ok (r_y (op_roles P))) = Ok 2 /\ nc_open (o "rows"%string) globe = Abort.
Proof. split; vm_compute; reflexivity. Qed.
Example C272_example : describes plain_options globe globe_shape /\ grid_ready (pn_x globe) globe_shape /\ times_ready (pn_x globe) globe_shape /\
  (P <- nc_open plain_options globe ;; Ok (op_ens P, op_lats P, op_lons P)) = Ok (3, [[fz 60; fz 62]; [fz 61; fz 63]], [[fz 10; fz (-170)]; [fz 11; fz (-169)]]).
Proof. destruct globe_ok as (A & B & C). split; [exact A|]. split; [exact B|]. split; [exact C|]. vm_compute. reflexivity. Qed.

(** C273: elevations and land fractions *)
Theorem C273_elevations : forall o F s P, describes o F s -> grid_ready (pn_x F) s -> times_ready (pn_x F) s -> nc_open o F = Ok P -> full_grid (pn_x F) (s_roles s) (op_elevs P) /\ full_grid (pn_x F) (s_roles s) (op_laf P) /\ forall i j, on_grid (pn_x F) (s_roles s) i j ->
    (exists w, get2 (op_elevs P) i j = Ok w /\ match s_elev s with Some (v, c) => scaled c (value_there (s_roles s) v i j) w | None => w = CMV end) /\
    get2 (op_laf P) i j = Ok (match s_laf s with Some v => value_there (s_roles s) v i j | None => CMV end).
Proof. exact c273. Qed.
Print Assumptions C273_elevations.
Example C273_example : describes plain_options globe globe_shape /\ grid_ready (pn_x globe) globe_shape /\ times_ready (pn_x globe) globe_shape /\
  (P <- nc_open plain_options globe ;; Ok (op_elevs P, op_laf P)) = Ok ([[fz 0; CMV]; [fz 100; fz 100]], [[CMV; CMV]; [CMV; CMV]]).
Proof. destruct globe_ok as (A & B & C). split; [exact A|]. split; [exact B|]. split; [exact C|]. vm_compute. repeat first [reflexivity|apply Qc_is_canon; reflexivity|f_equal]. Qed.

(** C274: times.  A single time without a dimension does not become the reference time; times along another dimension than the one used are undefined behaviour *)
Theorem C274_reference_refuted : exists o F P, nc_open o F = Ok P /\ op_times P = [fz 5] /\ op_reference P = CMV.
Proof. exact c274_reference. Qed.
Print Assumptions C274_reference_refuted.
Theorem C274_sizes_refuted : exists o F v, find_name (x_vars (pn_x F)) (txt "time") = Some v /\ zlen (n_dims v) = 1 /\ nc_open o F = UB.
Proof. exact c274_sizes. Qed.
Print Assumptions C274_sizes_refuted.
Theorem C274_times_partial : forall o F s P, describes o F s -> grid_ready (pn_x F) s -> times_ready (pn_x F) s -> nc_open o F = Ok P -> op_times P = times_there (pn_x F) s /\ (forall q, present (reference_value s) q -> op_reference P = reference_value s) /\
   (absent (reference_value s) -> r_t (s_roles s) <> -999 -> forall t ts, op_times P = t :: ts -> op_reference P = t).
Proof. exact c274. Qed.
Print Assumptions C274_times_partial.
Theorem C274_no_times : forall o F P, no_time o = None -> find_name (x_vars (pn_x F)) (txt "time") = None -> (forall v, find_name (x_vars (pn_x F)) (txt "forecast_reference_time") = Some v -> n_dims v <> [] \/ absent (n_data v [])) -> nc_open o F <> Ok P.
Proof. exact c274_none. Qed.
Print Assumptions C274_no_times.
Example C274_example : describes plain_options globe globe_shape /\ grid_ready (pn_x globe) globe_shape /\ times_ready (pn_x globe) globe_shape /\
  (P <- nc_open plain_options globe ;; Ok (op_times P, op_reference P)) = Ok ([fz 0; fz 3600], fz 1800).
Proof. destruct globe_ok as (A & B & C). split; [exact A|]. split; [exact B|]. split; [exact C|]. vm_compute. reflexivity. Qed.

Example C274_none_example : let F := {| pn_x := {| x_dims := x_dims (pn_x one_time); x_vars := [(txt "lat", numbers [0] (fun _ => 60)); (txt "lon", numbers [1] (fun _ => 10)); (txt "forecast_reference_time", numbers [] (fun _ => -999))] |}; pn_names := pn_names one_time |} in
  find_name (x_vars (pn_x F)) (txt "time") = None /\ nc_open plain_options F = Abort.
Proof. split; vm_compute; reflexivity. Qed.

(** C275: what can be opened is recognised *)
Theorem C275_recognised : forall o F P, nc_open o F = Ok P -> nc_valid o F = true.
Proof. exact c275. Qed.
Print Assumptions C275_recognised.
Example C275_example : (P <- nc_open plain_options globe ;; Ok (op_ens P)) = Ok 3 /\ nc_valid plain_options globe = true /\ nc_valid plain_options {| pn_x := {| x_dims := []; x_vars := [(txt "lat", glat)] |}; pn_names := [] |} = false.
Proof. split; [vm_compute; reflexivity|]. split; reflexivity. Qed.

(** C276: what is written besides the fields is read again.  Not so for a missing reference time, and altitudes that change with time cannot be written *)
Theorem C276_missing_refuted : exists o F v P X' P', used_var F (no_lat o) [txt "latitude"; txt "lat"] v /\ nc_open o F = Ok P /\ write_rest (pn_x F) (op_roles P) v (op_elevs P) (op_times P) (op_reference P) = Ok X' /\ nc_open o {| pn_x := X'; pn_names := pn_names F |} = Ok P' /\
  absent (op_reference P) /\ exists q, present (op_reference P') q /\ (q > qz 1000000000000)%Qc.
Proof. exact c276_missing. Qed.
Print Assumptions C276_missing_refuted.
Theorem C276_altitude_refuted : exists o F v P, used_var F (no_lat o) [txt "latitude"; txt "lat"] v /\ nc_open o F = Ok P /\ write_rest (pn_x F) (op_roles P) v (op_elevs P) (op_times P) (op_reference P) = Abort.
Proof. exact c276_altitude. Qed.
Print Assumptions C276_altitude_refuted.
Theorem C276_round_trip_partial : forall o F s P, describes o F s -> grid_ready (pn_x F) s -> times_ready (pn_x F) s -> nc_open o F = Ok P -> rewritable o F s P ->
  exists X' P', write_rest (pn_x F) (op_roles P) (s_lat s) (op_elevs P) (op_times P) (op_reference P) = Ok X' /\ nc_open o {| pn_x := X'; pn_names := pn_names F |} = Ok P' /\
    op_times P' = op_times P /\ op_reference P' = op_reference P /\ op_lats P' = op_lats P /\ op_lons P' = op_lons P /\ op_laf P' = op_laf P /\
    forall i j, on_grid (pn_x F) (s_roles s) i j -> exists w w', get2 (op_elevs P) i j = Ok w /\ get2 (op_elevs P') i j = Ok w' /\ kept w w'.
Proof. exact c276. Qed.
Print Assumptions C276_round_trip_partial.
Example C276_example : describes plain_options globe globe_shape /\ grid_ready (pn_x globe) globe_shape /\ times_ready (pn_x globe) globe_shape /\ nc_open plain_options globe = Ok globe_opened /\ rewritable plain_options globe globe_shape globe_opened /\
  (P <- again plain_options globe glat globe_opened ;; Ok (op_times P, op_reference P, existsb (existsb (fun e => veqb e (fz 100))) (op_elevs P))) = Ok ([fz 0; fz 3600], fz 1800, true).
Proof. destruct globe_ok as (A & B & C). destruct globe_rewritable as (D & E). split; [exact A|]. split; [exact B|]. split; [exact C|]. split; [exact D|]. split; [exact E|]. vm_compute. reflexivity. Qed.
