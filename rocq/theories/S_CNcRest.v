(** Specification of what the client writes to a NetCDF file besides the fields. *)
From Coq Require Import Ascii String.
From Verif Require Import Base M_COpt M_CUtil M_CTree S_CTree M_CKrig M_CFile M_CNc S_CNc M_CPar S_CPar M_CParNc S_CParNc M_CNcOpen S_CNcOpen.
Local Open Scope Z_scope.

(** a value is the same, or missing as before *)
Definition kept (w w' : val) : Prop := (forall q, present w q -> w' = Fin q) /\ (absent w -> absent w').
Definition written_names : list str := [txt "altitude"; txt "time"; txt "forecast_reference_time"].
(** an opened file that can be written: it has a dimension for rows, columns and times, a variable for the times, which are all known; the altitude, if it is there, has the
    two dimensions of the grid, and no elevation is its fill value; the numbers are stored as they are; options do not name other variables for the times and the elevation,
    or these variables for other things *)
Definition rewritable (o : no_options) (F : pn_file) (s : description) (P : opened) : Prop :=
  let X := pn_x F in let R := s_roles s in
  no_time o = None /\ no_elev o = None /\ (forall n, In (Some n) [no_lat o; no_lon o; no_laf o] -> ~ In n written_names) /\
  r_y R <> -999 /\ r_x R <> -999 /\ r_t R <> -999 /\ 0 <= r_y R < zlen (x_dims X) /\ 0 <= r_x R < zlen (x_dims X) /\
  (exists v, s_time s = Some v /\ stores_all v) /\ 0 < dim_size X (r_t R) /\ (forall t, In t (op_times P) -> exists q, present t q) /\
  (forall v, s_ref s = Some v -> stores_all v) /\
  (forall v, find_name (x_vars X) (txt "altitude") = Some v -> (n_dims v = [r_y R; r_x R] \/ n_dims v = [r_x R; r_y R]) /\ stores_all v) /\
  (forall i j q, get2 (op_elevs P) i j = Ok (Fin q) -> Fin q <> match find_name (x_vars X) (txt "altitude") with Some v => fill_of v | None => fill_float end).
