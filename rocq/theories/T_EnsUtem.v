(** The ensemble transform with correlations computed from the ensemble (C124-C131). *)
From Verif Require Import Base QcTac ListLib RBase M_Geo S_Geo M_Stat S_Near M_OI M_EnsMulti M_Ensi M_EnsDyn M_EnsUtem S_OI P_OIRef S_EnsMulti S_Ensi S_EnsDyn S_EnsUtem P_RInv P_XLib P_RSum P_EnsiWit P_EnsiRoot P_EnsDynRef P_EnsUtemSpec P_EnsUtemTop.
Local Open Scope Z_scope.

(** C124 *)
Theorem C124_transform : forall E G L RL XL S t blas blos bpts las los pts loc rho bg nE bratios background background_corr pobs pratios pbg pbg_corr mp b bc x xc s o out y c p1 pos g,
  setting G L S t blas blos bpts las los pts loc rho bg -> rlib_ok RL -> xlib_ok XL ->
  utem_input (zlen blas) (zlen las) nE bratios background background_corr pobs pratios pbg pbg_corr ->
  utem_data (zlen blas) (zlen las) nE background background_corr pbg pbg_corr pobs pratios b bc x xc s o -> 0 <= mp ->
  utem E G L RL XL S bpts bratios background background_corr pts pobs pratios pbg pbg_corr mp true = Ok out ->
  znth bratios y = Ok (Fin c) -> bpoint G t blas blos bpts y p1 pos -> known_cell pts bg p1 g ->
  exists ms U, members_all_of nE [background; background_corr; pbg; pbg_corr] ms /\ chosen G t las los pts pobs pobs loc bg mp p1 pos U /\
    (U = [] \/ zlen ms <= 1 -> unchanged background out y) /\
    (U <> [] -> 2 <= zlen ms ->
      ((exists zs, (forall k, In k U -> standardized ms (bc k) (zs k)) /\ rsolver_failed XL ms (rprecision U ms zs s g)) /\ unchanged background out y) \/
      exists a, (forall e, In e ms -> get2 out y e = Ok (RF (a e))) /\ utem_analysis ms U (x y) (xc y) bc s g (fun k => o k - avg ms (b k))%Qc c a).
Proof. exact c124_all. Qed.
Print Assumptions C124_transform.
(** the description determines the analysis *)
Theorem C124_determined : forall ms U x xc bc ratio g d s a a', NoDup ms -> utem_analysis ms U x xc bc ratio g d s a -> utem_analysis ms U x xc bc ratio g d s a' ->
  forall e, In e ms -> a e = a' e.
Proof. exact analysis_determined. Qed.
Print Assumptions C124_determined.
(** two members 0 and 2 at the point and at a station in the same place, observation 3: mean 7/3, variance 2/3 *)
Example C124_example :
  setting G0 L0 (sf0 (qz 10)) Cartesian (zeros [0]) (map qz [0]) (xpts [0]) (zeros [0]) (map qz [0]) (xpts [0]) (fun _ => Fin (qz 10)) kern kern /\ rlib_ok RL0 /\ xlib_ok XL0 /\
  utem_input 1 1 2 [fz 1] [[fz 0; fz 2]] [[fz 0; fz 2]] [fz 3] [fz 1] [[fz 0; fz 2]] [[fz 0; fz 2]] /\
  utem_data 1 1 2 [[fz 0; fz 2]] [[fz 0; fz 2]] [[fz 0; fz 2]] [[fz 0; fz 2]] [fz 3] [fz 1] (fun _ => f2 (qz 0) (qz 2)) (fun _ => f2 (qz 0) (qz 2)) (fun _ => f2 (qz 0) (qz 2)) (fun _ => f2 (qz 0) (qz 2)) (fun _ => 1%Qc) (fun _ => qz 3) /\
  (exists out a, utem E0 G0 L0 RL0 XL0 (sf0 (qz 10)) (xpts [0]) [fz 1] [[fz 0; fz 2]] [[fz 0; fz 2]] (xpts [0]) [fz 3] [fz 1] [[fz 0; fz 2]] [[fz 0; fz 2]] 0 true = Ok out /\
     (forall e, In e [0; 1] -> get2 out 0 e = Ok (RF (a e))) /\ ravg [0; 1] a = (7 / 3)%R /\ rvar [0; 1] a = (2 / 3)%R).
Proof. split; [exact set02|]. split; [exact rlib_ok_RL0|]. split; [exact xlib_ok_XL0|]. split; [exact (one_in 0 2 0 2 0 2 0 2 3)|]. split; [exact (one_data 0 2 0 2 0 2 0 2 3)|exact ex124]. Qed.

(** C125.  False when the ensemble for the correlations differs from the background: its perturbations replace those of the background. *)
Theorem C125_uninformative_refuted : exists E G L RL XL S t blas blos bpts las los pts loc rho bg nE bratios background background_corr pobs pratios pbg pbg_corr b bc x xc s o out,
  setting G L S t blas blos bpts las los pts loc rho bg /\ rlib_ok RL /\ xlib_ok XL /\
  utem_input (zlen blas) (zlen las) nE bratios background background_corr pobs pratios pbg pbg_corr /\
  utem_data (zlen blas) (zlen las) nE background background_corr pbg pbg_corr pobs pratios b bc x xc s o /\
  (forall k e, 0 <= k < zlen las -> 0 <= e < nE -> get2 pbg_corr k e = Ok (fz 0)) /\
  utem E G L RL XL S bpts bratios background background_corr pts pobs pratios pbg pbg_corr 0 true = Ok out /\
  get2 background 0 0 = Ok (fz 0) /\ get2 out 0 0 = Ok (RF 2).
Proof. exact c125_refuted. Qed.
Print Assumptions C125_uninformative_refuted.
(** missing: a background ensemble other than the one for the correlations; background members with nearly equal values (C126) *)
Theorem C125_uninformative_partial : forall E G L RL XL S t blas blos bpts las los pts loc rho bg nE bratios background background_corr pobs pratios pbg pbg_corr mp b bc x xc s o out y c p1 pos g,
  setting G L S t blas blos bpts las los pts loc rho bg -> rlib_ok RL -> xlib_ok XL ->
  utem_input (zlen blas) (zlen las) nE bratios background background_corr pobs pratios pbg pbg_corr ->
  utem_data (zlen blas) (zlen las) nE background background_corr pbg pbg_corr pobs pratios b bc x xc s o -> 0 <= mp ->
  utem E G L RL XL S bpts bratios background background_corr pts pobs pratios pbg pbg_corr mp true = Ok out ->
  znth bratios y = Ok (Fin c) -> bpoint G t blas blos bpts y p1 pos -> known_cell pts bg p1 g ->
  exists ms U, members_all_of nE [background; background_corr; pbg; pbg_corr] ms /\ chosen G t las los pts pobs pobs loc bg mp p1 pos U /\
    ((forall k, In k U -> steady ms (bc k)) ->
       unchanged background out y \/
       (exists z, standardized ms (xc y) z /\ forall e, In e ms -> get2 out y e = Ok (RF (qr (avg ms (x y)) + sdev ms (x y) * z e)%R)) /\
       ((forall e, In e ms -> xc y e = x y e) -> ~ steady ms (x y) -> unchanged background out y)).
Proof. exact c125_partial. Qed.
Print Assumptions C125_uninformative_partial.
Example C125_example : steady [0; 1] (f2 (qz 0) (qz 0)) /\ ~ steady [0; 1] (f2 (qz 0) (qz 2)) /\ members_all_of 2 [[[fz 0; fz 2]]; [[fz 0; fz 2]]; [[fz 0; fz 0]]; [[fz 0; fz 0]]] [0; 1].
Proof. split; [exact steady_const|]. split; [exact (proj2 ex123)|exact (one_common 0 2 0 2 0 0 0 0)]. Qed.

(** C126.  False: the members are replaced by their mean. *)
Theorem C126_no_spread_refuted : exists E G L RL XL S t blas blos bpts las los pts loc rho bg nE bratios background background_corr pobs pratios pbg pbg_corr b bc x xc s o out,
  setting G L S t blas blos bpts las los pts loc rho bg /\ rlib_ok RL /\ xlib_ok XL /\
  utem_input (zlen blas) (zlen las) nE bratios background background_corr pobs pratios pbg pbg_corr /\
  utem_data (zlen blas) (zlen las) nE background background_corr pbg pbg_corr pobs pratios b bc x xc s o /\
  (forall y e, 0 <= y < zlen blas -> 0 <= e < nE -> get2 background_corr y e = Ok (fz 0)) /\
  utem E G L RL XL S bpts bratios background background_corr pts pobs pratios pbg pbg_corr 0 true = Ok out /\
  get2 background 0 0 = Ok (fz 0) /\ get2 out 0 0 = Ok (RF 1).
Proof. exact c126_refuted. Qed.
Print Assumptions C126_no_spread_refuted.
(** what happens instead; missing: the claim for ensembles with different values *)
Theorem C126_no_spread_partial : forall E G L RL XL S t blas blos bpts las los pts loc rho bg nE bratios background background_corr pobs pratios pbg pbg_corr mp b bc x xc s o out y c p1 pos g,
  setting G L S t blas blos bpts las los pts loc rho bg -> rlib_ok RL -> xlib_ok XL ->
  utem_input (zlen blas) (zlen las) nE bratios background background_corr pobs pratios pbg pbg_corr ->
  utem_data (zlen blas) (zlen las) nE background background_corr pbg pbg_corr pobs pratios b bc x xc s o -> 0 <= mp ->
  utem E G L RL XL S bpts bratios background background_corr pts pobs pratios pbg pbg_corr mp true = Ok out ->
  znth bratios y = Ok (Fin c) -> bpoint G t blas blos bpts y p1 pos -> known_cell pts bg p1 g ->
  exists ms U, members_all_of nE [background; background_corr; pbg; pbg_corr] ms /\ chosen G t las los pts pobs pobs loc bg mp p1 pos U /\
    (steady ms (xc y) ->
       (U = [] \/ zlen ms <= 1 -> unchanged background out y) /\
       (U <> [] -> 2 <= zlen ms ->
         ((exists zs, (forall k, In k U -> standardized ms (bc k) (zs k)) /\ rsolver_failed XL ms (rprecision U ms zs s g)) /\ unchanged background out y) \/
         forall e, In e ms -> get2 out y e = Ok (RF (qr (avg ms (x y)))))).
Proof. exact c126_partial. Qed.
Print Assumptions C126_no_spread_partial.
Example C126_example : steady [0; 1] (f2 (qz 0) (qz 0)) /\ members_all_of 2 [[[fz 0; fz 2]]; [[fz 0; fz 0]]; [[fz 0; fz 2]]; [[fz 0; fz 2]]] [0; 1].
Proof. split; [exact steady_const|exact (one_common 0 2 0 0 0 2 0 2)]. Qed.

(** C127.  False for several stations: as in C113, the limit uses the background of another station and member. *)
Theorem C127_no_extrapolation_refuted : exists E G L RL XL S t blas blos bpts las los pts loc rho bg nE bratios background background_corr pobs pratios pbg pbg_corr b bc x xc s o out z,
  setting G L S t blas blos bpts las los pts loc rho bg /\ rlib_ok RL /\ xlib_ok XL /\
  utem_input (zlen blas) (zlen las) nE bratios background background_corr pobs pratios pbg pbg_corr /\
  utem_data (zlen blas) (zlen las) nE background background_corr pbg pbg_corr pobs pratios b bc x xc s o /\
  (forall y p1 pos, bpoint G t blas blos bpts y p1 pos -> known_cell pts bg p1 (fun _ => 1%Qc)) /\
  utem E G L RL XL S bpts bratios background background_corr pts pobs pratios pbg pbg_corr 0 false = Ok out /\
  (forall k, 0 <= k < zlen las -> znth pobs k = Ok (Fin (o k)) /\ get2 pbg k 1 = Ok (Fin (b k 1%Z)) /\ (qz (-4) <= o k - b k 1%Z)%Qc) /\
  get2 background 0 1 = Ok (Fin (x 0 1)) /\ get2 out 0 1 = Ok (RF z) /\ (z - qr (x 0%Z 1%Z) < -4)%R.
Proof. exact c127_refuted. Qed.
Print Assumptions C127_no_extrapolation_refuted.
(** missing: points with several observations *)
Theorem C127_no_extrapolation_partial : forall E G L RL XL S t blas blos bpts las los pts loc rho bg nE bratios background background_corr pobs pratios pbg pbg_corr mp b bc x xc s o out y c p1 pos g,
  setting G L S t blas blos bpts las los pts loc rho bg -> rlib_ok RL -> xlib_ok XL ->
  utem_input (zlen blas) (zlen las) nE bratios background background_corr pobs pratios pbg pbg_corr ->
  utem_data (zlen blas) (zlen las) nE background background_corr pbg pbg_corr pobs pratios b bc x xc s o -> 0 <= mp ->
  utem E G L RL XL S bpts bratios background background_corr pts pobs pratios pbg pbg_corr mp false = Ok out ->
  znth bratios y = Ok (Fin c) -> bpoint G t blas blos bpts y p1 pos -> known_cell pts bg p1 g ->
  exists ms U, members_all_of nE [background; background_corr; pbg; pbg_corr] ms /\ chosen G t las los pts pobs pobs loc bg mp p1 pos U /\
    (U = [] \/ zlen ms <= 1 -> unchanged background out y) /\
    forall k, U = [k] -> 2 <= zlen ms ->
      ((exists zs, (forall k, In k U -> standardized ms (bc k) (zs k)) /\ rsolver_failed XL ms (rprecision U ms zs s g)) /\ unchanged background out y) \/
      exists a, utem_analysis ms U (x y) (xc y) bc s g (fun k => o k - avg ms (b k))%Qc c a /\
        forall e, In e ms -> exists z, get2 out y e = Ok (RF z) /\ rlimited (qr (o k - b k e)%Qc) (a e - qr (x y e)) (z - qr (x y e)).
Proof. exact c127_partial. Qed.
Print Assumptions C127_no_extrapolation_partial.
(** the unlimited analysis of the first member is 5, its departure 1 *)
Example C127_example : exists out a, utem E0 G0 L0 RL0 XL0 (sf0 (qz 10)) (xpts [0]) [fz 1] [[fz 0; fz 10]] [[fz 0; fz 0]] (xpts [0]) [fz 1] [fz 1] [[fz 0; fz 2]] [[fz 0; fz 2]] 0 false = Ok out /\
  utem_analysis [0; 1] [0] (f2 (qz 0) (qz 10)) (f2 (qz 0) (qz 0)) (fun _ => f2 (qz 0) (qz 2)) (fun _ => 1%Qc) (fun _ => 1%Qc) (fun _ => qz 1 - avg [0%Z; 1%Z] (f2 (qz 0) (qz 2)))%Qc 1%Qc a /\
  a 0 = 5%R /\ get2 out 0 0 = Ok (RF 1).
Proof. exact ex127. Qed.

(** C128 *)
Theorem C128_left_alone : forall E G L RL XL S t blas blos bpts las los pts loc rho bg nE bratios background background_corr pobs pratios pbg pbg_corr mp ex out,
  setting G L S t blas blos bpts las los pts loc rho bg -> rlib_ok RL -> xlib_ok XL ->
  utem_input (zlen blas) (zlen las) nE bratios background background_corr pobs pratios pbg pbg_corr -> 0 <= mp ->
  utem E G L RL XL S bpts bratios background background_corr pts pobs pratios pbg pbg_corr mp ex = Ok out ->
  rect (zlen blas) nE out /\
  (forall y e v, ~ common nE [background; background_corr; pbg; pbg_corr] e -> get2 background y e = Ok v -> get2 out y e = Ok (v2r v)) /\
  (forall y p1 pos, bpoint G t blas blos bpts y p1 pos -> exists U, chosen G t las los pts pobs pobs loc bg mp p1 pos U /\ (U = [] -> unchanged background out y)).
Proof. exact c128_all. Qed.
Print Assumptions C128_left_alone.
Example C128_example : ~ common 2 [[[fz 0; NaN]]; [[fz 0; fz 2]]; [[fz 0; fz 2]]; [[fz 0; fz 2]]] 1 /\ common 2 [[[fz 0; NaN]]; [[fz 0; fz 2]]; [[fz 0; fz 2]]; [[fz 0; fz 2]]] 0.
Proof.
  split.
  - intros [_ C]. destruct (C [[fz 0; NaN]] ltac:(cbn; auto) NaN) as [q Hq]; [cbn; auto|discriminate].
  - split; [lia|]. intros f Hf v Hv. cbn in Hf. intuition subst; cbn in Hv; intuition subst; eexists; reflexivity.
Qed.

(** C129.  False with more observations than background points: arrays with one row per background point are indexed by station. *)
Theorem C129_analysis_defined_refuted : exists E G L RL XL S t blas blos bpts las los pts loc rho bg nE bratios background background_corr pobs pratios pbg pbg_corr b bc x xc s o,
  setting G L S t blas blos bpts las los pts loc rho bg /\ rlib_ok RL /\ xlib_ok XL /\
  utem_input (zlen blas) (zlen las) nE bratios background background_corr pobs pratios pbg pbg_corr /\
  utem_data (zlen blas) (zlen las) nE background background_corr pbg pbg_corr pobs pratios b bc x xc s o /\ blas <> [] /\
  (forall y, 0 <= y < zlen blas -> exists c, znth bratios y = Ok (Fin c)) /\
  (forall y p1 pos, bpoint G t blas blos bpts y p1 pos -> exists g, known_cell pts bg p1 g) /\
  utem E G L RL XL S bpts bratios background background_corr pts pobs pratios pbg pbg_corr 0 true = UB.
Proof. exact c129_refuted. Qed.
Print Assumptions C129_analysis_defined_refuted.
Theorem C129_more_stations_than_points : forall E G L RL XL S t blas blos bpts las los pts loc rho bg nE bratios background background_corr pobs pratios pbg pbg_corr mp ex,
  setting G L S t blas blos bpts las los pts loc rho bg ->
  utem_input (zlen blas) (zlen las) nE bratios background background_corr pobs pratios pbg pbg_corr -> 0 <= mp -> blas <> [] ->
  (exists e, common nE [background; background_corr; pbg; pbg_corr] e) -> zlen blas < zlen las ->
  utem E G L RL XL S bpts bratios background background_corr pts pobs pratios pbg pbg_corr mp ex = UB.
Proof. exact c129_more_stations. Qed.
Print Assumptions C129_more_stations_than_points.
(** missing: more stations than background points; the case of C124_example has one of each *)
Theorem C129_analysis_defined_partial : forall E G L RL XL S t blas blos bpts las los pts loc rho bg nE bratios background background_corr pobs pratios pbg pbg_corr mp ex,
  setting G L S t blas blos bpts las los pts loc rho bg -> rlib_ok RL -> xlib_ok XL ->
  utem_input (zlen blas) (zlen las) nE bratios background background_corr pobs pratios pbg pbg_corr -> 0 <= mp -> (blas <> [] \/ las = []) -> zlen las <= zlen blas ->
  ((exists out, utem E G L RL XL S bpts bratios background background_corr pts pobs pratios pbg pbg_corr mp ex = Ok out) \/
   (utem E G L RL XL S bpts bratios background background_corr pts pobs pratios pbg pbg_corr mp ex = Throw RuntimeError /\ exists M, r_inv RL M = Throw RuntimeError)) /\
  (forall b bc x xc s o, utem_data (zlen blas) (zlen las) nE background background_corr pbg pbg_corr pobs pratios b bc x xc s o ->
     (forall y, 0 <= y < zlen blas -> exists c, znth bratios y = Ok (Fin c)) ->
     (forall y p1 pos, bpoint G t blas blos bpts y p1 pos -> exists g, known_cell pts bg p1 g) ->
     exists out, utem E G L RL XL S bpts bratios background background_corr pts pobs pratios pbg pbg_corr mp ex = Ok out).
Proof. exact c129_partial. Qed.
Print Assumptions C129_analysis_defined_partial.

(** C130 *)
Theorem C130_argument_checks : forall E G L RL XL S bpts bratios background background_corr pts pobs pratios pbg pbg_corr mp ex,
  (mp < 0 \/ points_type bpts <> points_type pts \/ zlen background <> points_size bpts \/ zlen background_corr <> points_size bpts \/ zlen bratios <> points_size bpts \/
   zlen pobs <> points_size pts \/ zlen pratios <> points_size pts \/ zlen pbg <> points_size pts \/ zlen pbg_corr <> points_size pts) ->
  utem E G L RL XL S bpts bratios background background_corr pts pobs pratios pbg pbg_corr mp ex = Throw InvalidArgument.
Proof. exact c130_all. Qed.
Print Assumptions C130_argument_checks.
Example C130_example : utem E0 G0 L0 RL0 XL0 (sf0 (qz 10)) (xpts [0]) [fz 1] [[fz 0; fz 2]] [] (xpts [0]) [fz 3] [fz 1] [[fz 0; fz 2]] [[fz 0; fz 2]] 0 true = Throw InvalidArgument /\
  zlen ([] : vec2) <> points_size (xpts [0]).
Proof. split; [reflexivity|vm_compute; discriminate]. Qed.

(** C131 *)
Theorem C131_grid_version : forall E G L RL XL S t Y X lats lons g las los pts loc rho bg bratios background background_corr pobs pratios pbg pbg_corr mp ex nE,
  gsetting G L S t Y X lats lons g las los pts loc rho bg -> las <> [] -> 0 <= mp ->
  rect Y X bratios -> rect3 Y X nE background -> rect3 Y X nE background_corr -> zlen pobs = zlen las -> zlen pratios = zlen las ->
  rect (zlen las) nE pbg -> rect (zlen las) nE pbg_corr ->
  exists P, to_points g = Ok P /\ setting G L S t (concat lats) (concat lons) P las los pts loc rho bg /\
  (forall o1, utem E G L RL XL S P (concat bratios) (concat background) (concat background_corr) pts pobs pratios pbg pbg_corr mp ex = Ok o1 ->
     exists out, utem_grid E G L RL XL S g bratios background background_corr pts pobs pratios pbg pbg_corr mp ex = Ok out /\ rect3 Y X nE out /\
       forall y x e, 0 <= y < Y -> 0 <= x < X -> get3 out y x e = get2 o1 (y * X + x) e) /\
  (forall er, utem E G L RL XL S P (concat bratios) (concat background) (concat background_corr) pts pobs pratios pbg pbg_corr mp ex = Throw er ->
     utem_grid E G L RL XL S g bratios background background_corr pts pobs pratios pbg pbg_corr mp ex = Throw er).
Proof. exact c131_all. Qed.
Print Assumptions C131_grid_version.
(** without values in any member the background is returned *)
Example C131_example :
  gsetting G0 L0 (sf0 (qz 10)) Cartesian 2 2 [[qz 0; qz 0]; [qz 1; qz 1]] [[qz 0; qz 1]; [qz 0; qz 1]] grid22 (zeros [0; 1]) (map qz [0; 1]) (xpts [0; 1]) (fun _ => Fin (qz 10)) kern kern /\
  utem_grid E0 G0 L0 RL0 XL0 (sf0 (qz 10)) grid22 [[fz 1; fz 1]; [fz 1; fz 2]] [[[fz 7]; [NaN]]; [[fz 9]; [fz 10]]] [[[fz 7]; [fz 8]]; [[fz 9]; [fz 10]]] (xpts [0; 1]) [fz 1; fz 5] [fz 1; fz 1] [[fz 2]; [fz 2]] [[fz 2]; [fz 2]] 0 true =
    Ok (map (map (map v2r)) [[[fz 7]; [NaN]]; [[fz 9]; [fz 10]]]).
Proof. split; [apply gsetting0; [grid_now|pts_now]|]. reflexivity. Qed.
