(** The ensemble-based analysis (C110-C118). *)
From Verif Require Import Base QcTac ListLib RBase M_Geo S_Geo M_Stat S_Near M_OI M_EnsMulti M_Ensi S_OI P_OIRef S_EnsMulti S_Ensi P_EnsiRoot P_EnsiWit P_EnsiFin.
Local Open Scope Z_scope.

(** C110.  False when a member that is left out (it has no value at some background point) has a background value at a station. *)
Theorem C110_ensemble_mean_refuted : exists E G L EL S t blas blos bpts las los pts loc rho bg nE background pobs psigmas pbg b s o out p1 pos g x ms a,
  setting G L S t blas blos bpts las los pts loc rho bg /\ elib_ok EL /\
  ensi_input (zlen blas) (zlen las) nE background pobs psigmas pbg /\
  (forall k e, 0 <= k < zlen las -> 0 <= e < nE -> get2 pbg k e = Ok (Fin (b k e))) /\
  (forall k, 0 <= k < zlen las -> znth psigmas k = Ok (Fin (s k)) /\ s k <> 0%Qc) /\
  (forall k, 0 <= k < zlen las -> znth pobs k = Ok (Fin (o k)) /\ o k = avg ms (b k)) /\
  bpoint G t blas blos bpts 0 p1 pos /\ known_cell pts bg p1 g /\ row_data nE background 0 x /\
  members_of nE background ms /\ chosen G t las los pts pobs pobs loc bg 0 p1 pos [0] /\
  ensi E G L EL S bpts background pts pobs psigmas pbg 0 true = Ok out /\
  (forall e, In e ms -> get2 out 0 e = Ok (RF (a e))) /\
  kalman_mean [0] ms x b o s g (avg ms x) /\ ravg ms a <> qr (avg ms x).
Proof. exact c110_refuted. Qed.
Print Assumptions C110_ensemble_mean_refuted.
(** missing: members that are left out but have a background value at a station; points where the eigenvalue solver gives up *)
Theorem C110_ensemble_mean_partial : forall E G L EL S t blas blos bpts las los pts loc rho bg nE background pobs psigmas pbg mp b s o out y p1 pos g x,
  setting G L S t blas blos bpts las los pts loc rho bg -> elib_ok EL ->
  ensi_input (zlen blas) (zlen las) nE background pobs psigmas pbg -> ensi_data (zlen las) nE background pobs psigmas pbg b s o -> 0 <= mp ->
  ensi E G L EL S bpts background pts pobs psigmas pbg mp true = Ok out ->
  bpoint G t blas blos bpts y p1 pos -> known_cell pts bg p1 g -> row_data nE background y x ->
  exists ms U, members_of nE background ms /\ chosen G t las los pts pobs pobs loc bg mp p1 pos U /\
    (U = [] \/ zlen ms <= 1 -> unchanged background out y) /\
    (U <> [] -> 2 <= zlen ms ->
      (solver_failed EL ms (precision U ms b s g) /\ unchanged background out y) \/
      exists a m, (forall e, In e ms -> get2 out y e = Ok (RF (a e))) /\ kalman_mean U ms x b o s g m /\ ravg ms a = qr m).
Proof. exact c110_partial. Qed.
Print Assumptions C110_ensemble_mean_partial.
Example C110_example : let bg2 := [[fz 2; fz (-2); NaN]; [fz 5; fz 6; fz 7]] in
  setting G0 L0 (sf0 (qz 10)) Cartesian (zeros [0; 50]) (map qz [0; 50]) (xpts [0; 50]) (zeros [0]) (map qz [0]) (xpts [0]) (fun _ => Fin (qz 10)) kern kern /\ elib_ok EL0 /\
  ensi_input 2 1 3 bg2 [fz 1] [fz 1] [[fz 2; fz (-2); NaN]] /\ ensi_data 1 3 bg2 [fz 1] [fz 1] [[fz 2; fz (-2); NaN]] (fun _ => f2 (qz 2) (qz (-2))) (fun _ => qz 1) (fun _ => qz 1) /\
  (exists p1 pos, bpoint G0 Cartesian (zeros [0; 50]) (map qz [0; 50]) (xpts [0; 50]) 0 p1 pos /\ known_cell (xpts [0]) kern p1 (fun _ => 1%Qc) /\
     chosen G0 Cartesian (zeros [0]) (map qz [0]) (xpts [0]) [fz 1] [fz 1] (fun _ => Fin (qz 10)) kern 0 p1 pos [0]) /\
  row_data 3 bg2 0 (f2 (qz 2) (qz (-2))) /\ members_of 3 bg2 [0; 1].
Proof. exact ex110_in. Qed.
(** mean 8/9: the background mean 0 and the observation 1 have variances 8 and 1 *)
Example C110_example_result :
  ensi E0 G0 L0 EL0 (sf0 (qz 10)) (xpts [0; 50]) [[fz 2; fz (-2); NaN]; [fz 5; fz 6; fz 7]] (xpts [0]) [fz 1] [fz 1] [[fz 2; fz (-2); NaN]] 0 true =
  Ok [[RF (qr (Q2Qc (14 # 9))); RF (qr (Q2Qc (2 # 9))); RNaN]; map v2r [fz 5; fz 6; fz 7]].
Proof. exact ex110. Qed.

(** C111: missing as in C110; the example of C110 has variance 8/9, from 8 and 1 *)
Theorem C111_ensemble_spread_partial : forall E G L EL S t blas blos bpts las los pts loc rho bg nE background pobs psigmas pbg mp b s o out y p1 pos g x,
  setting G L S t blas blos bpts las los pts loc rho bg -> elib_ok EL ->
  ensi_input (zlen blas) (zlen las) nE background pobs psigmas pbg -> ensi_data (zlen las) nE background pobs psigmas pbg b s o -> 0 <= mp ->
  ensi E G L EL S bpts background pts pobs psigmas pbg mp true = Ok out ->
  bpoint G t blas blos bpts y p1 pos -> known_cell pts bg p1 g -> row_data nE background y x ->
  exists ms U, members_of nE background ms /\ chosen G t las los pts pobs pobs loc bg mp p1 pos U /\
    (U = [] \/ zlen ms <= 1 -> unchanged background out y) /\
    (U <> [] -> 2 <= zlen ms ->
      (solver_failed EL ms (precision U ms b s g) /\ unchanged background out y) \/
      exists a q, (forall e, In e ms -> get2 out y e = Ok (RF (a e))) /\ kalman_var U ms x b s g q /\ rvar ms a = qr q /\ (0 <= q <= cov ms x x)%Qc).
Proof. exact c111_partial. Qed.
Print Assumptions C111_ensemble_spread_partial.
Example C111_example : kalman_var [0] [0; 1] (f2 (qz 2) (qz (-2))) (fun _ => f2 (qz 2) (qz (-2))) (fun _ => qz 1) (fun _ => 1%Qc) (Q2Qc (8 # 9)) /\
  cov [0; 1] (f2 (Q2Qc (14 # 9)) (Q2Qc (2 # 9))) (f2 (Q2Qc (14 # 9)) (Q2Qc (2 # 9))) = Q2Qc (8 # 9).
Proof. split; [exact ex111|vcalc]. Qed.

(** C112: missing as in C110; the example of C110 is one *)
Theorem C112_ensemble_transform_partial : forall E G L EL S t blas blos bpts las los pts loc rho bg nE background pobs psigmas pbg mp b s o out y p1 pos g x,
  setting G L S t blas blos bpts las los pts loc rho bg -> elib_ok EL ->
  ensi_input (zlen blas) (zlen las) nE background pobs psigmas pbg -> ensi_data (zlen las) nE background pobs psigmas pbg b s o -> 0 <= mp ->
  ensi E G L EL S bpts background pts pobs psigmas pbg mp true = Ok out ->
  bpoint G t blas blos bpts y p1 pos -> known_cell pts bg p1 g -> row_data nE background y x ->
  exists ms U, members_of nE background ms /\ chosen G t las los pts pobs pobs loc bg mp p1 pos U /\
    (U = [] \/ zlen ms <= 1 -> unchanged background out y) /\
    (U <> [] -> 2 <= zlen ms ->
      (solver_failed EL ms (precision U ms b s g) /\ unchanged background out y) \/
      exists a T, (forall e, In e ms -> get2 out y e = Ok (RF (a e))) /\ transform U ms b s g T /\
        (forall T', transform U ms b s g T' -> forall e f, In e ms -> In f ms -> T' e f = T e f) /\
        forall e, In e ms -> (a e - ravg ms a = rtot ms (fun f => qr (dev ms x f) * T f e))%R).
Proof. exact c112_partial. Qed.
Print Assumptions C112_ensemble_transform_partial.
Example C112_example : transform [0] [0; 1] (fun _ => f2 (qz 2) (qz (-2))) (fun _ => qz 1) (fun _ => 1%Qc) (fun e f => qr (if e =? f then Q2Qc (2 # 3) else Q2Qc (1 # 3))).
Proof. exact ex112. Qed.

(** C113.  False for several stations: the filter uses the background of another station and member. *)
Theorem C113_no_extrapolation_refuted : exists E G L EL S t blas blos bpts las los pts loc rho bg nE background pobs psigmas pbg b s o out p1 pos g x z,
  setting G L S t blas blos bpts las los pts loc rho bg /\ elib_ok EL /\
  ensi_input (zlen blas) (zlen las) nE background pobs psigmas pbg /\ ensi_data (zlen las) nE background pobs psigmas pbg b s o /\
  (forall e, 0 <= e < nE -> complete e background) /\
  bpoint G t blas blos bpts 0 p1 pos /\ known_cell pts bg p1 g /\ row_data nE background 0 x /\
  ensi E G L EL S bpts background pts pobs psigmas pbg 0 false = Ok out /\
  (forall k, 0 <= k < zlen las -> znth pobs k = Ok (Fin (o k)) /\ (o k - b k 0%Z)%Qc = 1%Qc) /\
  get2 out 0 0 = Ok (RF z) /\ (z - qr (x 0%Z) > 1)%R.
Proof. exact c113_refuted. Qed.
Print Assumptions C113_no_extrapolation_refuted.
(** missing: points with several observations; and as in C110 *)
Theorem C113_no_extrapolation_partial : forall E G L EL S t blas blos bpts las los pts loc rho bg nE background pobs psigmas pbg mp b s o out y p1 pos g x,
  setting G L S t blas blos bpts las los pts loc rho bg -> elib_ok EL ->
  ensi_input (zlen blas) (zlen las) nE background pobs psigmas pbg -> ensi_data (zlen las) nE background pobs psigmas pbg b s o -> 0 <= mp ->
  ensi E G L EL S bpts background pts pobs psigmas pbg mp false = Ok out ->
  bpoint G t blas blos bpts y p1 pos -> known_cell pts bg p1 g -> row_data nE background y x ->
  exists ms U, members_of nE background ms /\ chosen G t las los pts pobs pobs loc bg mp p1 pos U /\
    (U = [] \/ zlen ms <= 1 -> unchanged background out y) /\
    forall k, U = [k] -> 2 <= zlen ms ->
      (solver_failed EL ms (precision U ms b s g) /\ unchanged background out y) \/
      exists a, kalman_update U ms x b o s g a /\
        forall e, In e ms -> exists z, get2 out y e = Ok (RF z) /\ rlimited (qr (o k - b k e)%Qc) (a e - qr (x e)) (z - qr (x e)).
Proof. exact c113_partial. Qed.
Print Assumptions C113_no_extrapolation_partial.
Example C113_example :
  setting G0 L0 (sf0 (qz 10)) Cartesian (zeros [0]) (map qz [0]) (xpts [0]) (zeros [0]) (map qz [0]) (xpts [0]) (fun _ => Fin (qz 10)) kern kern /\ elib_ok EL0 /\
  ensi_input 1 1 2 [[fz 6; fz (-6)]] [fz 1] [fz 1] [[fz 2; fz (-2)]] /\
  ensi_data 1 2 [[fz 6; fz (-6)]] [fz 1] [fz 1] [[fz 2; fz (-2)]] (fun _ => f2 (qz 2) (qz (-2))) (fun _ => qz 1) (fun _ => qz 1) /\
  (exists p1 pos, bpoint G0 Cartesian (zeros [0]) (map qz [0]) (xpts [0]) 0 p1 pos /\ known_cell (xpts [0]) kern p1 (fun _ => 1%Qc) /\
     chosen G0 Cartesian (zeros [0]) (map qz [0]) (xpts [0]) [fz 1] [fz 1] (fun _ => Fin (qz 10)) kern 0 p1 pos [0]) /\
  row_data 2 [[fz 6; fz (-6)]] 0 (f2 (qz 6) (qz (-6))) /\ members_of 2 [[fz 6; fz (-6)]] [0; 1].
Proof. exact ex113_in. Qed.
Example C113_example_result : ensi E0 G0 L0 EL0 (sf0 (qz 10)) (xpts [0]) [[fz 6; fz (-6)]] (xpts [0]) [fz 1] [fz 1] [[fz 2; fz (-2)]] 0 false =
  Ok [[RF (qr (qz 5)); RF (qr (qz (-3)))]].
Proof. exact ex113. Qed.

(** C114; the third member and the second point of the example of C110 *)
Theorem C114_left_alone : forall E G L EL S t blas blos bpts las los pts loc rho bg nE background pobs psigmas pbg mp ex out,
  setting G L S t blas blos bpts las los pts loc rho bg -> elib_ok EL ->
  ensi_input (zlen blas) (zlen las) nE background pobs psigmas pbg -> 0 <= mp ->
  ensi E G L EL S bpts background pts pobs psigmas pbg mp ex = Ok out ->
  rect (zlen blas) nE out /\
  (forall y e v, ~ complete e background -> get2 background y e = Ok v -> get2 out y e = Ok (v2r v)) /\
  (forall y p1 pos, bpoint G t blas blos bpts y p1 pos ->
     exists U, chosen G t las los pts pobs pobs loc bg mp p1 pos U /\ (U = [] -> unchanged background out y)).
Proof. exact c114_all. Qed.
Print Assumptions C114_left_alone.
Example C114_example : ~ complete 2 [[fz 2; fz (-2); NaN]; [fz 5; fz 6; fz 7]] /\
  get2 [[RF (qr (Q2Qc (14 # 9))); RF (qr (Q2Qc (2 # 9))); RNaN]; map v2r [fz 5; fz 6; fz 7]] 0 2 = Ok (v2r NaN).
Proof. split; [|reflexivity]. intros H. destruct (H NaN) as [q Hq]; [cbn; auto|discriminate]. Qed.

(** C115; the example of C110 *)
Theorem C115_analysis_defined : forall E G L EL S t blas blos bpts las los pts loc rho bg nE background pobs psigmas pbg mp ex,
  setting G L S t blas blos bpts las los pts loc rho bg -> elib_ok EL ->
  ensi_input (zlen blas) (zlen las) nE background pobs psigmas pbg -> 0 <= mp -> (blas <> [] \/ las = []) ->
  ((exists out, ensi E G L EL S bpts background pts pobs psigmas pbg mp ex = Ok out) \/
   (ensi E G L EL S bpts background pts pobs psigmas pbg mp ex = Throw RuntimeError /\ exists M, l_inv L M = Throw RuntimeError)) /\
  (forall b s o, ensi_data (zlen las) nE background pobs psigmas pbg b s o ->
     (forall y p1 pos, bpoint G t blas blos bpts y p1 pos -> exists g, known_cell pts bg p1 g) ->
     exists out, ensi E G L EL S bpts background pts pobs psigmas pbg mp ex = Ok out).
Proof. exact c115_all. Qed.
Print Assumptions C115_analysis_defined.
Example C115_example : ensi_input 1 1 1 [[fz 2]] [fz 1] [fz 0] [[fz 1]] /\ ensi E0 G0 L0 EL0 (sf0 (qz 10)) (xpts [0]) [[fz 2]] (xpts [0]) [fz 1] [fz 0] [[fz 1]] 0 true = Ok [[v2r (fz 2)]].
Proof. split; [constructor; (reflexivity || rect_now)|reflexivity]. Qed.

(** C116 *)
Theorem C116_argument_checks : forall E G L EL S bpts background pts pobs psigmas pbg mp ex,
  (mp < 0 \/ points_type bpts <> points_type pts \/ zlen background <> points_size bpts \/
   zlen pobs <> points_size pts \/ zlen psigmas <> points_size pts \/ zlen pbg <> points_size pts) ->
  ensi E G L EL S bpts background pts pobs psigmas pbg mp ex = Throw InvalidArgument.
Proof. exact c116_all. Qed.
Print Assumptions C116_argument_checks.
Example C116_example : ensi E0 G0 L0 EL0 (sf0 (qz 10)) (xpts [0]) [[fz 2]] (xpts [0]) [fz 1] [fz 0; fz 1] [[fz 1]] 0 true = Throw InvalidArgument /\ zlen [fz 0; fz 1] <> points_size (xpts [0]).
Proof. split; [reflexivity|vm_compute; discriminate]. Qed.

(** C117 *)
Theorem C117_grid_version : forall E G L EL S t Y X lats lons g las los pts loc rho bg background pobs psigmas pbg mp ex nE,
  gsetting G L S t Y X lats lons g las los pts loc rho bg -> elib_ok EL -> las <> [] -> 0 <= mp ->
  rect3 Y X nE background -> zlen pobs = zlen las -> zlen psigmas = zlen las -> rect (zlen las) nE pbg ->
  exists P, to_points g = Ok P /\ setting G L S t (concat lats) (concat lons) P las los pts loc rho bg /\
  (forall o1, ensi E G L EL S P (concat background) pts pobs psigmas pbg mp ex = Ok o1 ->
     exists out, ensi_grid E G L EL S g background pts pobs psigmas pbg mp ex = Ok out /\ rect3 Y X nE out /\
       forall y x e, 0 <= y < Y -> 0 <= x < X -> get3 out y x e = get2 o1 (y * X + x) e) /\
  (forall er, ensi E G L EL S P (concat background) pts pobs psigmas pbg mp ex = Throw er ->
     ensi_grid E G L EL S g background pts pobs psigmas pbg mp ex = Throw er).
Proof. exact c117_all. Qed.
Print Assumptions C117_grid_version.
Example C117_example :
  gsetting G0 L0 (sf0 (qz 10)) Cartesian 2 2 [[qz 0; qz 0]; [qz 1; qz 1]] [[qz 0; qz 1]; [qz 0; qz 1]] grid22 (zeros [0; 1]) (map qz [0; 1]) (xpts [0; 1]) (fun _ => Fin (qz 10)) kern kern /\
  ensi_grid E0 G0 L0 EL0 (sf0 (qz 10)) grid22 [[[fz 7]; [fz 8]]; [[fz 9]; [fz 10]]] (xpts [0; 1]) [fz 1; fz 5] [fz 1; fz 1] [[fz 2]; [fz 2]] 0 true =
    Ok (map (map (map v2r)) [[[fz 7]; [fz 8]]; [[fz 9]; [fz 10]]]).
Proof. split; [apply gsetting0; [grid_now|pts_now]|]. reflexivity. Qed.

(** C118: missing as in C110 *)
Theorem C118_mean_kept_and_spread_reduced_partial : forall E G L EL S t blas blos bpts las los pts loc rho bg nE background pobs psigmas pbg mp b s o out y p1 pos g x,
  setting G L S t blas blos bpts las los pts loc rho bg -> elib_ok EL ->
  ensi_input (zlen blas) (zlen las) nE background pobs psigmas pbg -> ensi_data (zlen las) nE background pobs psigmas pbg b s o -> 0 <= mp ->
  ensi E G L EL S bpts background pts pobs psigmas pbg mp true = Ok out ->
  bpoint G t blas blos bpts y p1 pos -> known_cell pts bg p1 g -> row_data nE background y x ->
  exists ms a, members_of nE background ms /\ (forall e, In e ms -> get2 out y e = Ok (RF (a e))) /\
    (rvar ms a <= rvar ms (fun e => qr (x e)))%R /\
    ((forall k v, znth pobs k = Ok (Fin v) -> v = avg ms (b k)) -> ravg ms a = ravg ms (fun e => qr (x e))).
Proof. exact c118_partial. Qed.
Print Assumptions C118_mean_kept_and_spread_reduced_partial.
Example C118_example : cov [0; 1] (f2 (qz 2) (qz (-2))) (f2 (qz 2) (qz (-2))) = qz 8 /\ avg [0; 1] (f2 (qz 2) (qz (-2))) = 0%Qc.
Proof. split; vcalc. Qed.
