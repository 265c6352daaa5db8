(** The ensemble analysis with correlations computed from the ensemble (C119-C123). *)
From Verif Require Import Base QcTac ListLib RBase M_Geo S_Geo M_Stat S_Near M_OI M_EnsMulti M_Ensi M_EnsDyn S_OI P_OIRef S_EnsMulti S_Ensi S_EnsDyn P_RInv P_RSum P_EnsiWit P_EnsiRoot P_EnsDynRef.
Local Open Scope Z_scope.

(** C119.  False with the correlations of the ensemble: the code multiplies them by m/(m-1). *)
Theorem C119_dynamic_analysis_refuted : exists E G L RL S t blas blos bpts las los pts loc rho bg nE bratios background background_corr pobs pratios pbg pbg_corr out r ratio b s p1 pos g x v d o,
  setting G L S t blas blos bpts las los pts loc rho bg /\ rlib_ok RL /\
  dyn_input (zlen blas) (zlen las) nE nE bratios background background_corr pobs pratios pbg pbg_corr /\
  ebe E G L RL S bpts bratios background background_corr pts pobs pratios pbg pbg_corr 0 true = Ok out /\
  known_ratios pts (zlen las) rho pratios r ratio /\ members_at (zlen las) nE pbg_corr b /\
  znth bratios 0 = Ok (Fin s) /\ bpoint G t blas blos bpts 0 p1 pos /\ known_cell pts bg p1 g /\
  (forall e, 0 <= e < nE -> get2 background_corr 0 e = Ok (Fin (x e))) /\ get2 background 0 0 = Ok (Fin v) /\ departures (col 0 pobs) (col 0 pbg) d /\
  get2 out 0 0 = Ok o /\
  forall U, chosen G t las los pts (col 0 pobs) (col 0 pobs) loc bg 0 p1 pos U -> ~ dynamic_analysis 1 (zrange 0 nE) U x b r ratio g d s true v o.
Proof. exact c119_refuted. Qed.
Print Assumptions C119_dynamic_analysis_refuted.
(** False when a member with missing values comes before a complete one. *)
Theorem C119_missing_members_refuted : exists E G L RL S t blas blos bpts las los pts loc rho bg background pobs pbg,
  setting G L S t blas blos bpts las los pts loc rho bg /\ rlib_ok RL /\ rect 1 2 background /\ rect 1 2 pobs /\ rect 1 2 pbg /\
  complete 1 background /\ complete 1 pbg /\ complete 0 pbg /\ get2 background 0 0 = Ok NaN /\
  ebe E G L RL S bpts [fz 1] background background pts pobs [fz 1] pbg pbg 0 true = Throw LogicError.
Proof. exact c119_missing_refuted. Qed.
Print Assumptions C119_missing_members_refuted.
(** missing: correlations multiplied by m/(m-1) instead of 1; incomplete members before complete ones *)
Theorem C119_dynamic_analysis_partial : forall E G L RL S t blas blos bpts las los pts loc rho bg nE m bratios background background_corr pobs pratios pbg pbg_corr mp ex out r ratio b,
  setting G L S t blas blos bpts las los pts loc rho bg -> rlib_ok RL ->
  dyn_input (zlen blas) (zlen las) nE m bratios background background_corr pobs pratios pbg pbg_corr -> 0 <= mp ->
  ebe E G L RL S bpts bratios background background_corr pts pobs pratios pbg pbg_corr mp ex = Ok out ->
  known_ratios pts (zlen las) rho pratios r ratio ->
  (forall k o e, get2 pobs k 0 = Ok (Fin o) -> 0 <= e < m -> exists o', get2 pobs k e = Ok (Fin o')) ->
  members_at (zlen las) m pbg_corr b ->
  rect (zlen blas) nE out /\
  (forall y e v, m <= e < nE -> get2 background y e = Ok v -> get2 out y e = Ok (v2r v)) /\
  (forall y s p1 pos g x, znth bratios y = Ok (Fin s) -> bpoint G t blas blos bpts y p1 pos -> known_cell pts bg p1 g ->
     (forall e, 0 <= e < m -> get2 background_corr y e = Ok (Fin (x e))) ->
     exists U, chosen G t las los pts (col 0 pobs) (col 0 pobs) loc bg mp p1 pos U /\
       forall e v d, 0 <= e < m -> get2 background y e = Ok (Fin v) -> departures (col e pobs) (col e pbg) d ->
       exists o, get2 out y e = Ok o /\ dynamic_analysis (IZR m / IZR (m - 1)) (zrange 0 m) U x b r ratio g d s ex v o).
Proof. exact c119_partial. Qed.
Print Assumptions C119_dynamic_analysis_partial.
Example C119_example :
  setting G0 L0 (sf0 (qz 10)) Cartesian (zeros [0]) (map qz [0]) (xpts [0]) (zeros [0]) (map qz [0]) (xpts [0]) (fun _ => Fin (qz 10)) kern kern /\ rlib_ok RL0 /\
  dyn_input 1 1 2 2 [fz 1] [[fz 0; fz 2]] [[fz 0; fz 2]] [[fz 3; fz 3]] [fz 1] [[fz 0; fz 2]] [[fz 0; fz 2]] /\
  known_ratios (xpts [0]) 1 kern [fz 1] (fun _ _ => 1%Qc) (fun _ => 1%Qc) /\ members_at 1 2 [[fz 0; fz 2]] (fun _ => f2 (qz 0) (qz 2)) /\
  (exists out, ebe E0 G0 L0 RL0 (sf0 (qz 10)) (xpts [0]) [fz 1] [[fz 0; fz 2]] [[fz 0; fz 2]] (xpts [0]) [[fz 3; fz 3]] [fz 1] [[fz 0; fz 2]] [[fz 0; fz 2]] 0 true = Ok out /\
     get2 out 0 0 = Ok (RF 2)).
Proof. split; [exact set02|]. split; [exact rlib_ok_RL0|]. split; [exact in_dyn02|]. split; [exact ratios02|]. split; [exact at02|exact ex119]. Qed.

(** C120.  False when there are more stations than background points: an array with one row per background point is indexed by station. *)
Theorem C120_analysis_defined_refuted : exists E G L RL S t blas blos bpts las los pts loc rho bg nE bratios background background_corr pobs pratios pbg pbg_corr r ratio,
  setting G L S t blas blos bpts las los pts loc rho bg /\ rlib_ok RL /\
  dyn_input (zlen blas) (zlen las) nE nE bratios background background_corr pobs pratios pbg pbg_corr /\ blas <> [] /\
  known_ratios pts (zlen las) rho pratios r ratio /\ (forall k, 0 <= k < zlen las -> (0 < ratio k)%Qc) /\
  (forall U c, NoDup U -> (forall k, In k U -> 0 <= k < zlen las) -> (0 <= rtot U (fun k => rtot U (fun j => c k * c j * qr (r k j))))%R) /\
  ebe E G L RL S bpts bratios background background_corr pts pobs pratios pbg pbg_corr 0 true = UB.
Proof. exact c120_refuted. Qed.
Print Assumptions C120_analysis_defined_refuted.
Theorem C120_more_stations_than_points : forall E G L RL S t blas blos bpts las los pts loc rho bg nE m bratios background background_corr pobs pratios pbg pbg_corr mp ex,
  setting G L S t blas blos bpts las los pts loc rho bg -> rlib_ok RL ->
  dyn_input (zlen blas) (zlen las) nE m bratios background background_corr pobs pratios pbg pbg_corr -> 0 <= mp -> blas <> [] -> 0 < m -> zlen blas < zlen las ->
  ebe E G L RL S bpts bratios background background_corr pts pobs pratios pbg pbg_corr mp ex = UB.
Proof. exact c120_more_stations. Qed.
Print Assumptions C120_more_stations_than_points.
(** missing: more stations than background points *)
Theorem C120_analysis_defined_partial : forall E G L RL S t blas blos bpts las los pts loc rho bg nE m bratios background background_corr pobs pratios pbg pbg_corr mp ex,
  setting G L S t blas blos bpts las los pts loc rho bg -> rlib_ok RL ->
  dyn_input (zlen blas) (zlen las) nE m bratios background background_corr pobs pratios pbg pbg_corr -> 0 <= mp -> (blas <> [] \/ las = []) -> zlen las <= zlen blas ->
  ((exists out, ebe E G L RL S bpts bratios background background_corr pts pobs pratios pbg pbg_corr mp ex = Ok out) \/
   (ebe E G L RL S bpts bratios background background_corr pts pobs pratios pbg pbg_corr mp ex = Throw RuntimeError /\ exists M, r_inv RL M = Throw RuntimeError)) /\
  (forall r ratio, known_ratios pts (zlen las) rho pratios r ratio ->
     (forall U c, NoDup U -> (forall k, In k U -> 0 <= k < zlen las) -> (0 <= rtot U (fun k => rtot U (fun j => c k * c j * qr (r k j))))%R) ->
     (forall k, 0 <= k < zlen las -> (0 < ratio k)%Qc) ->
     exists out, ebe E G L RL S bpts bratios background background_corr pts pobs pratios pbg pbg_corr mp ex = Ok out).
Proof. exact c120_partial. Qed.
Print Assumptions C120_analysis_defined_partial.
(** the case of C119_example has one station and one background point; colocated stations without error are a singular system *)
Example C120_example :
  dyn_input 1 1 2 2 [fz 1] [[fz 0; fz 2]] [[fz 0; fz 2]] [[fz 3; fz 3]] [fz 1] [[fz 0; fz 2]] [[fz 0; fz 2]] /\ zlen (zeros [0]) <= zlen (zeros [0]) /\
  (forall U c, NoDup U -> (forall k, In k U -> 0 <= k < 1) -> (0 <= rtot U (fun k => rtot U (fun j => c k * c j * qr ((fun _ _ => 1%Qc) k j))))%R).
Proof. split; [exact in_dyn02|]. split; [reflexivity|]. apply (psd1 (fun _ _ => 1%Qc)); [reflexivity|discriminate]. Qed.

(** C121 *)
Theorem C121_argument_checks : forall E G L RL S bpts bratios background background_corr pts pobs pratios pbg pbg_corr mp ex,
  (mp < 0 \/ points_type bpts <> points_type pts \/ zlen background <> points_size bpts \/ zlen background_corr <> points_size bpts \/ zlen bratios <> points_size bpts \/
   zlen pobs <> points_size pts \/ zlen pratios <> points_size pts \/ zlen pbg <> points_size pts \/ zlen pbg_corr <> points_size pts) ->
  ebe E G L RL S bpts bratios background background_corr pts pobs pratios pbg pbg_corr mp ex = Throw InvalidArgument.
Proof. exact c121_all. Qed.
Print Assumptions C121_argument_checks.
Example C121_example : ebe E0 G0 L0 RL0 (sf0 (qz 10)) (xpts [0]) [fz 1] [[fz 0; fz 2]] [] (xpts [0]) [[fz 3; fz 3]] [fz 1] [[fz 0; fz 2]] [[fz 0; fz 2]] 0 true = Throw InvalidArgument /\
  zlen ([] : vec2) <> points_size (xpts [0]).
Proof. split; [reflexivity|vm_compute; discriminate]. Qed.

(** C122 *)
Theorem C122_grid_version : forall E G L RL S t Y X lats lons g las los pts loc rho bg bratios background background_corr pobs pratios pbg pbg_corr mp ex nE,
  gsetting G L S t Y X lats lons g las los pts loc rho bg -> las <> [] -> 0 <= mp ->
  rect Y X bratios -> rect3 Y X nE background -> rect3 Y X nE background_corr -> rect (zlen las) nE pobs -> zlen pratios = zlen las ->
  rect (zlen las) nE pbg -> rect (zlen las) nE pbg_corr ->
  exists P, to_points g = Ok P /\ setting G L S t (concat lats) (concat lons) P las los pts loc rho bg /\
  (forall o1, ebe E G L RL S P (concat bratios) (concat background) (concat background_corr) pts pobs pratios pbg pbg_corr mp ex = Ok o1 ->
     exists out, ebe_grid E G L RL S g bratios background background_corr pts pobs pratios pbg pbg_corr mp ex = Ok out /\ rect3 Y X nE out /\
       forall y x e, 0 <= y < Y -> 0 <= x < X -> get3 out y x e = get2 o1 (y * X + x) e) /\
  (forall er, ebe E G L RL S P (concat bratios) (concat background) (concat background_corr) pts pobs pratios pbg pbg_corr mp ex = Throw er ->
     ebe_grid E G L RL S g bratios background background_corr pts pobs pratios pbg pbg_corr mp ex = Throw er).
Proof. exact c122_all. Qed.
Print Assumptions C122_grid_version.
(** without values in any member the background is returned *)
Example C122_example :
  gsetting G0 L0 (sf0 (qz 10)) Cartesian 2 2 [[qz 0; qz 0]; [qz 1; qz 1]] [[qz 0; qz 1]; [qz 0; qz 1]] grid22 (zeros [0; 1]) (map qz [0; 1]) (xpts [0; 1]) (fun _ => Fin (qz 10)) kern kern /\
  ebe_grid E0 G0 L0 RL0 (sf0 (qz 10)) grid22 [[fz 1; fz 1]; [fz 1; fz 2]] [[[fz 7]; [NaN]]; [[fz 9]; [fz 10]]] [[[fz 7]; [fz 8]]; [[fz 9]; [fz 10]]] (xpts [0; 1]) [[fz 1]; [fz 5]] [fz 1; fz 1] [[fz 2]; [fz 2]] [[fz 2]; [fz 2]] 0 true =
    Ok (map (map (map v2r)) [[[fz 7]; [NaN]]; [[fz 9]; [fz 10]]]).
Proof. split; [apply gsetting0; [grid_now|pts_now]|]. reflexivity. Qed.

(** C123 *)
Theorem C123_no_spread_or_departures : forall E G L RL S t blas blos bpts las los pts loc rho bg nE m bratios background background_corr pobs pratios pbg pbg_corr mp ex out r ratio,
  setting G L S t blas blos bpts las los pts loc rho bg -> rlib_ok RL ->
  dyn_input (zlen blas) (zlen las) nE m bratios background background_corr pobs pratios pbg pbg_corr -> 0 <= mp ->
  ebe E G L RL S bpts bratios background background_corr pts pobs pratios pbg pbg_corr mp ex = Ok out ->
  known_ratios pts (zlen las) rho pratios r ratio ->
  (forall k o e, get2 pobs k 0 = Ok (Fin o) -> 0 <= e < m -> exists o', get2 pobs k e = Ok (Fin o')) ->
  forall y s p1 pos g x, znth bratios y = Ok (Fin s) -> bpoint G t blas blos bpts y p1 pos -> known_cell pts bg p1 g ->
    (forall e, 0 <= e < m -> get2 background_corr y e = Ok (Fin (x e))) ->
    (steady (zrange 0 m) x -> forall e v, 0 <= e < m -> get2 background y e = Ok (Fin v) -> get2 out y e = Ok (RF (qr v))) /\
    (forall e v, 0 <= e < m -> (forall k o, get2 pobs k e = Ok (Fin o) -> get2 pbg k e = Ok (Fin o)) -> get2 background y e = Ok (Fin v) -> get2 out y e = Ok (RF (qr v))).
Proof. exact c123_all. Qed.
Print Assumptions C123_no_spread_or_departures.
Example C123_example : steady (zrange 0 2) (fun _ => qz 7) /\ ~ steady (zrange 0 2) (f2 (qz 0) (qz 2)).
Proof. exact ex123. Qed.
