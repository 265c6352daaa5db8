(** Correlations to knots (C95) and smart neighbours (C96). *)
From Verif Require Import Base M_Geo S_Stat S_Geo S_Near M_OI S_OI M_CorrPts S_CorrPts P_Geo P_OIInv P_OIRef P_CorrPts.
Local Open Scope Z_scope.

(** C95 *)
Theorem C95_static_correlations : forall G L S t blas blos las los pts knots loc rho bg mp, setting G L S t blas blos pts las los knots loc rho bg -> 0 <= mp ->
  exists out, staticcorr_points G L S pts knots mp = Ok out /\ zlen out = zlen blas /\
  forall y p1 pos, bpoint G t blas blos pts y p1 pos ->
  exists row, znth out y = Ok row /\ corr_row_ok (linked G t las los knots loc bg p1 pos) (zlen las) mp row.
Proof. exact c95_all. Qed.
Print Assumptions C95_static_correlations.
Theorem C95_invalid_arguments : forall G L S pts knots mp, mp < 0 \/ points_type pts <> points_type knots ->
  staticcorr_points G L S pts knots mp = Throw InvalidArgument.
Proof. exact c95_errors. Qed.
Print Assumptions C95_invalid_arguments.
(** two knots in reach, one kept *)
Example C95_example :
  setting G0 L0 (sf0 (qz 10)) Cartesian (zeros [2; 50]) (map qz [2; 50]) (xpts [2; 50]) (zeros [0; 1]) (map qz [0; 1]) (xpts [0; 1]) (fun _ => Fin (qz 10)) kern kern /\
  staticcorr_points G0 L0 (sf0 (qz 10)) (xpts [2; 50]) (xpts [0; 1]) 0 = Ok [[fq (1 # 5); fq (1 # 2)]; [fz 0; fz 0]] /\
  staticcorr_points G0 L0 (sf0 (qz 10)) (xpts [2; 50]) (xpts [0; 1]) 1 = Ok [[fz 0; fq (1 # 2)]; [fz 0; fz 0]].
Proof. split; [apply setting0; pts_now|]. split; vcalc. Qed.

Ltac rect_now := split; [reflexivity | cbn; intuition (subst; reflexivity)].
Ltac grid_now := split; [lia|]; split; [lia|]; split; [rect_now|]; split; [rect_now|];
  exists [], []; split; [auto|]; split; [auto|]; cbn; reflexivity.
Notation lats23 := [[qz 0; qz 0; qz 0]; [qz 1; qz 1; qz 1]].
Notation lons23 := [[qz 0; qz 1; qz 3]; [qz 0; qz 1; qz 3]].
(** C96 *)
Theorem C96_smart_neighbours : forall G L loc corr rho ig og t Y X lats lons t' Y' X' lats' lons' iv num,
  geo_ok G -> lib_ok L -> (forall p q, corr p q = Ok (rho p q)) ->
  is_grid G t Y X lats lons ig -> is_grid G t' Y' X' lats' lons' og -> rect Y X iv -> valid_all2 t lats' ->
  exists out, smart G L (fun p => Ok (loc p)) corr ig og iv num = Ok out /\ rect Y' X' out /\
  forall i j la lo p1, get2 lats' i j = Ok la -> get2 lons' i j = Ok lo -> grid_get og i j = Ok p1 ->
  exists v, get2 out i j = Ok v /\ smart_value (neighbour_cell G t lats lons ig loc rho p1 (position G t la lo)) iv num v.
Proof. exact c96_all. Qed.
Print Assumptions C96_smart_neighbours.
Example C96_example : geo_ok G0 /\ lib_ok L0 /\ exists g og, is_grid G0 Cartesian 2 3 lats23 lons23 g /\ is_grid G0 Cartesian 1 2 [[qz 0; qz 0]] [[qz 0; qz 9]] og /\
  smart G0 L0 (fun _ => Ok (fq (3 # 2))) (fun p q => Ok (kern p q)) g og [[fz 2; fz 5; fz 7]; [fz 4; NaN; fz 9]] 2 = Ok [[fz 3; NaN]].
Proof. split; [exact geo_ok_G0|]. split; [exact lib_ok_L0|]. eexists. eexists. split; [grid_now|]. split; [grid_now|]. vcalc. Qed.
