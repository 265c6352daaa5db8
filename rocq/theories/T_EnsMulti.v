(** The ensemble analysis with a static structure function (C104-C108) and the structure function constructors (C109). *)
From Verif Require Import Base QcTac ListLib M_Geo S_Geo RBase M_Struct S_Near M_OI M_EnsMulti S_OI P_OIRef P_EnsGrid P_StructMk S_EnsMulti.
Local Open Scope Z_scope.

(** C104.  Members with missing values are to be left alone and the others analysed: false when such a member comes before a complete one. *)
Theorem C104_member_analysis_refuted : exists G L S t blas blos bpts las los pts loc rho bg background pobs pbg,
  setting G L S t blas blos bpts las los pts loc rho bg /\ rect 1 2 background /\ rect 1 2 pobs /\ rect 1 2 pbg /\
  complete 1 background /\ complete 1 pbg /\ complete 0 pbg /\ get2 background 0 0 = Ok NaN /\
  ebesc G L S bpts [fz 1] background pts pobs [fz 1] pbg 0 true = Throw LogicError.
Proof. exact c104_refuted. Qed.
Print Assumptions C104_member_analysis_refuted.
(** missing: members with missing values before complete ones *)
Theorem C104_member_analysis_partial : forall G L S t blas blos bpts las los pts loc rho bg nE m bratios background pobs pratios pbg mp ex out r ratio,
  setting G L S t blas blos bpts las los pts loc rho bg ->
  ens_input (zlen blas) (zlen las) nE m bratios background pobs pratios pbg -> 0 <= mp ->
  ebesc G L S bpts bratios background pts pobs pratios pbg mp ex = Ok out -> known_ratios pts (zlen las) rho pratios r ratio ->
  (forall k o e, get2 pobs k 0 = Ok (Fin o) -> 0 <= e < m -> exists o', get2 pobs k e = Ok (Fin o')) ->
  rect (zlen blas) nE out /\
  (forall y e, m <= e < nE -> get2 out y e = get2 background y e) /\
  (forall y s p1 pos g, znth bratios y = Ok (Fin s) -> bpoint G t blas blos bpts y p1 pos -> known_cell pts bg p1 g ->
     exists U, chosen G t las los pts (col 0 pobs) (col 0 pobs) loc bg mp p1 pos U /\
       forall e b d, 0 <= e < m -> get2 background y e = Ok (Fin b) -> departures (col e pobs) (col e pbg) d ->
       exists o, get2 out y e = Ok o /\ member_analysis U r ratio g d s ex b o).
Proof. exact c104_partial. Qed.
Print Assumptions C104_member_analysis_partial.
Example C104_example :
  setting G0 L0 (sf0 (qz 10)) Cartesian (zeros [2; 50]) (map qz [2; 50]) (xpts [2; 50]) (zeros [0; 1]) (map qz [0; 1]) (xpts [0; 1]) (fun _ => Fin (qz 10)) kern kern /\
  ens_input 2 2 3 2 [fz 1; fz 1] [[fz 7; fz 1; NaN]; [fz 8; fz 2; fz 3]] [[fz 1; fz 5; fz 0]; [fz 5; fz 1; fz 0]] [fz 1; fz 1] [[fz 2; fz 2; fz 2]; [fz 2; fz 2; fz 2]] /\
  known_ratios (xpts [0; 1]) 2 kern [fz 1; fz 1] r01 (fun _ => 1%Qc) /\
  departures (col 0 [[fz 1; fz 5; fz 0]; [fz 5; fz 1; fz 0]]) (col 0 [[fz 2; fz 2; fz 2]; [fz 2; fz 2; fz 2]]) d01 /\
  (exists p1 pos, bpoint G0 Cartesian (zeros [2; 50]) (map qz [2; 50]) (xpts [2; 50]) 0 p1 pos /\ known_cell (xpts [0; 1]) kern p1 g2) /\
  ebesc G0 L0 (sf0 (qz 10)) (xpts [2; 50]) [fz 1; fz 1] [[fz 7; fz 1; NaN]; [fz 8; fz 2; fz 3]] (xpts [0; 1]) [[fz 1; fz 5; fz 0]; [fz 5; fz 1; fz 0]] [fz 1; fz 1]
    [[fz 2; fz 2; fz 2]; [fz 2; fz 2; fz 2]] 0 false = Ok [[fq (192 # 25); fq (22 # 25); NaN]; [fz 8; fz 2; fz 3]].
Proof.
  split; [apply setting0; pts_now|]. split.
  { constructor; try lia; try rect_now; try reflexivity.
    - intros e He. assert (e = 0 \/ e = 1) as [-> | ->] by lia; (split; intros v [<- |[<- |[]]]; eexists; reflexivity).
    - intros e He [H _]. assert (e = 2) as -> by lia. destruct (H NaN) as [q Hq]; [cbn; auto|discriminate]. }
  split; [split; [|two_now; reflexivity]; apply (ex_obs [fz 1; fz 1] [fz 1; fz 1] (fun _ => 1%Qc)); [|pts_now]; two_now; exists 1%Qc, 1%Qc; repeat split; try discriminate; vcalc|].
  split; [exact ex_dep|]. split; [|vcalc]. do 2 eexists. split; [split; [cbn; reflexivity|exists (qz 0), (qz 2); repeat split]|]. apply ex_cell; [pts_now|reflexivity].
Qed.

(** C105 *)
Theorem C105_analysis_defined : forall G L S t blas blos bpts las los pts loc rho bg nE m bratios background pobs pratios pbg mp ex,
  setting G L S t blas blos bpts las los pts loc rho bg ->
  ens_input (zlen blas) (zlen las) nE m bratios background pobs pratios pbg -> 0 <= mp -> (blas <> [] \/ las = []) ->
  ((exists out, ebesc G L S bpts bratios background pts pobs pratios pbg mp ex = Ok out) \/
   ebesc G L S bpts bratios background pts pobs pratios pbg mp ex = Throw RuntimeError) /\
  (forall r ratio, known_ratios pts (zlen las) rho pratios r ratio ->
     (forall U c, NoDup U -> (forall k, In k U -> 0 <= k < zlen las) -> (0 <= tot U (fun k => tot U (fun j => c k * c j * r k j)))%Qc) ->
     (forall k, 0 <= k < zlen las -> (0 < ratio k)%Qc) ->
     exists out, ebesc G L S bpts bratios background pts pobs pratios pbg mp ex = Ok out).
Proof. exact c105_total. Qed.
Print Assumptions C105_analysis_defined.
Example C105_example :
  known_ratios (xpts [0; 1]) 2 kern [fz 1; fz 1] r01 (fun _ => 1%Qc) /\
  (forall U c, NoDup U -> (forall k, In k U -> 0 <= k < 2) -> (0 <= tot U (fun k => tot U (fun j => c k * c j * r01 k j)))%Qc) /\
  ens_input 1 2 1 1 [fz 1] [[fz 7]] [[fz 1]; [NaN]] [fz 0; fz 0] [[fz 2]; [fz 2]] /\
  ebesc G0 L0 (sf0 (qz 10)) (xpts [2]) [fz 1] [[fz 7]] (xpts [0; 0]) [[fz 1]; [fz 1]] [fz 0; fz 0] [[fz 2]; [fz 2]] 0 false = Throw RuntimeError.
Proof.
  split; [split; [|two_now; reflexivity]; apply (ex_obs [fz 1; fz 1] [fz 1; fz 1] (fun _ => 1%Qc)); [|pts_now]; two_now; exists 1%Qc, 1%Qc; repeat split; try discriminate; vcalc|].
  split; [exact ex_valid|]. split; [|vcalc]. constructor; try lia; try rect_now; try reflexivity.
  intros e He. assert (e = 0) as -> by lia. split; intros v; cbn; intuition (subst; eexists; reflexivity).
Qed.

(** C106 *)
Theorem C106_same_as_optimal_interpolation : forall G L S t blas blos bpts las los pts loc rho bg nE m bratios background pobs pratios pbg mp out e,
  setting G L S t blas blos bpts las los pts loc rho bg ->
  ens_input (zlen blas) (zlen las) nE m bratios background pobs pratios pbg -> 0 <= mp ->
  ebesc G L S bpts bratios background pts pobs pratios pbg mp true = Ok out ->
  (forall s, In s bratios -> s = fz 1) -> 0 <= e < m ->
  (forall k v0 v, get2 pobs k 0 = Ok v0 -> get2 pobs k e = Ok v -> is_valid v = is_valid v0) -> (forall v, In v pratios -> is_valid v = true) ->
  oi_points G L S bpts (col e background) pts (col e pobs) pratios (col e pbg) mp true = Ok (col e out).
Proof. exact c106_same. Qed.
Print Assumptions C106_same_as_optimal_interpolation.
Example C106_example :
  ebesc G0 L0 (sf0 (qz 10)) (xpts [2; 50]) [fz 1; fz 1] [[fz 7; fz 1; NaN]; [fz 8; fz 2; fz 3]] (xpts [0; 1]) [[fz 1; fz 5; fz 0]; [fz 5; fz 1; fz 0]] [fz 1; fz 1]
    [[fz 2; fz 2; fz 2]; [fz 2; fz 2; fz 2]] 0 true = Ok [[fq (192 # 25); fq (22 # 25); NaN]; [fz 8; fz 2; fz 3]] /\
  oi_points G0 L0 (sf0 (qz 10)) (xpts [2; 50]) [fz 1; fz 2] (xpts [0; 1]) [fz 5; fz 1] [fz 1; fz 1] [fz 2; fz 2] 0 true = Ok [fq (22 # 25); fz 2].
Proof. split; vcalc. Qed.

(** C107 *)
Theorem C107_argument_checks : forall G L S bpts bratios background pts pobs pratios pbg mp ex,
  (mp < 0 \/ points_type bpts <> points_type pts \/ zlen background <> points_size bpts \/ zlen bratios <> points_size bpts \/
   zlen pobs <> points_size pts \/ zlen pratios <> points_size pts \/ zlen pbg <> points_size pts) ->
  ebesc G L S bpts bratios background pts pobs pratios pbg mp ex = Throw InvalidArgument.
Proof. exact c107_all. Qed.
Print Assumptions C107_argument_checks.
Example C107_example : ebesc G0 L0 (sf0 (qz 10)) (xpts [2; 50]) [fz 1] [[fz 7]; [fz 8]] (xpts [0]) [[fz 1]] [fz 1] [[fz 2]] 0 true = Throw InvalidArgument /\
  zlen [fz 1] <> points_size (xpts [2; 50]).
Proof. split; [vcalc|vm_compute; discriminate]. Qed.

(** C108 *)
Theorem C108_grid_version : forall G L S t Y X lats lons g las los pts loc rho bg bratios background pobs pratios pbg mp ex nE,
  gsetting G L S t Y X lats lons g las los pts loc rho bg -> las <> [] -> 0 <= mp ->
  rect Y X bratios -> rect3 Y X nE background -> rect (zlen las) nE pobs -> rect (zlen las) nE pbg -> zlen pratios = zlen las ->
  exists P, to_points g = Ok P /\ setting G L S t (concat lats) (concat lons) P las los pts loc rho bg /\
  (forall o1, ebesc G L S P (concat bratios) (concat background) pts pobs pratios pbg mp ex = Ok o1 -> rect (Y * X) nE o1 ->
     exists out, ebesc_grid G L S g bratios background pts pobs pratios pbg mp ex = Ok out /\ rect3 Y X nE out /\
       forall y x e, 0 <= y < Y -> 0 <= x < X -> get3 out y x e = get2 o1 (y * X + x) e) /\
  (forall er, ebesc G L S P (concat bratios) (concat background) pts pobs pratios pbg mp ex = Throw er ->
     ebesc_grid G L S g bratios background pts pobs pratios pbg mp ex = Throw er).
Proof. exact c108_all. Qed.
Print Assumptions C108_grid_version.
Example C108_example :
  gsetting G0 L0 (sf0 (qz 10)) Cartesian 2 2 [[qz 0; qz 0]; [qz 1; qz 1]] [[qz 0; qz 1]; [qz 0; qz 1]] grid22 (zeros [0; 1]) (map qz [0; 1]) (xpts [0; 1]) (fun _ => Fin (qz 10)) kern kern /\
  ebesc_grid G0 L0 (sf0 (qz 10)) grid22 [[fz 1; fz 1]; [fz 1; fz 2]] [[[fz 7; fz 1]; [fz 8; fz 2]]; [[fz 9; fz 3]; [fz 10; fz 4]]] (xpts [0; 1])
    [[fz 1; fz 5]; [fz 5; fz 1]] [fz 1; fz 1] [[fz 2; fz 2]; [fz 2; fz 2]] 0 true =
    Ok [[[fq (104 # 15); fq (34 # 15)]; [fq (139 # 15); fq (29 # 15)]]; [[fq (134 # 15); fq (64 # 15)]; [fq (188 # 15); fq (58 # 15)]]].
Proof. split; [apply gsetting0; [grid_now|pts_now]|]. vcalc. Qed.

(** C109.  The scales of a structure function are checked when it is made; false for the constructors that take a grid. *)
Theorem C109_scales_checked_refuted : forall k, exists g S, is_grid G0 Cartesian 1 1 [[qz 0]] [[qz 0]] g /\ mk_spatial k g [[fz (-1)]] [[NaN]] [[fz 0]] default_min_rho = Ok S.
Proof. exact c109_refuted. Qed.
Print Assumptions C109_scales_checked_refuted.
(** missing: nothing is promised of the values of gridded scales, or of sizes when all three are 1x1 *)
Theorem C109_scales_checked_partial : forall k h v w hmax,
  ((exists S, mk_base k h v w hmax = Ok S) <->
   (exists qh qv qw, h = Fin qh /\ v = Fin qv /\ w = Fin qw /\ (0 <= qh)%Qc /\ (0 <= qv)%Qc /\ (0 <= qw)%Qc) /\ (forall m, hmax = Fin m -> (0 <= m)%Qc)) /\
  ((forall S, mk_base k h v w hmax <> Ok S) -> mk_base k h v w hmax = Throw InvalidArgument).
Proof. exact c109_base. Qed.
Print Assumptions C109_scales_checked_partial.
Theorem C109_cressman_scales_checked : forall h v w,
  ((exists S, mk_cressman h v w = Ok S) <->
   (exists qh qv qw, h = Fin qh /\ v = Fin qv /\ w = Fin qw /\ (0 <= qh)%Qc /\ (0 <= qv)%Qc /\ (0 <= qw)%Qc)) /\
  ((forall S, mk_cressman h v w <> Ok S) -> mk_cressman h v w = Throw InvalidArgument).
Proof. exact c109_cressman. Qed.
Print Assumptions C109_cressman_scales_checked.
Theorem C109_gridded_scales_sized : forall G t Y X lats lons g k h v w mr, is_grid G t Y X lats lons g ->
  (rect Y X h -> rect Y X v -> rect Y X w -> exists S, mk_spatial k g h v w mr = Ok S) /\
  (forall S, mk_spatial k g h v w mr = Ok S -> is_1x1 h && is_1x1 v && is_1x1 w = true \/
     (forall f, In f [h; v; w] -> zlen f = Y /\ exists r, znth f 0 = Ok r /\ zlen r = X)) /\
  ((forall S, mk_spatial k g h v w mr <> Ok S) -> mk_spatial k g h v w mr = Throw InvalidArgument).
Proof. exact c109_spatial. Qed.
Print Assumptions C109_gridded_scales_sized.
Example C109_example : (exists S, mk_base Barnes (fz 10000) (fz 0) (fz 100) MV = Ok S) /\ mk_cressman (fz 10) (fz (-1)) (fz 0) = Throw InvalidArgument /\
  mk_spatial Soar grid22 [[fz 1; fz 1]] [[fz 1; fz 1]] [[fz 1; fz 1]] default_min_rho = Throw InvalidArgument.
Proof. split; [eexists; reflexivity|]. split; reflexivity. Qed.
