(** Model of the ensemble mode of the client's optimal interpolation, src/client/Calibrator/Oi.cpp:679-983, at one point and with the conventions of M_COi and
    M_Ensi.  transform=none, diagnose=0, and without biasVariable, deltaVariable and numVariable (lines 961-979 then do nothing).  Arguments: [inv], arma::inv;
    [EL], arma::rcond and arma::eig_sym; [radar], what is done for parameter files with three parameters (lines 692-758, not modelled). *)
From Verif Require Import Base RBase M_Geo M_OI M_Ensi M_COpt M_CUtil M_CCal M_CTree M_CKrig M_COi.
Local Open Scope Z_scope.

(** the options sigma, delta, saveDiff and extrapolate, Oi.cpp:10-105 *)
Record ens_options := { en_sigma : val; en_delta : val; en_savediff : bool; en_extrapolate : bool }.
(** Rinv and C for parameter files with two parameters, Oi.cpp:682-691 and 763-766 *)
Definition oe_c (lS nV : Z) (sigma : val) (rhos ci : vec) (lY : vec2) : res vec2 :=
  Rinv <- tab2 lS lS (fun i j => if i =? j then r <- znth rhos i ;; c <- znth ci i ;; Ok (vdiv r (vmul (vmul sigma sigma) c)) else Ok (fz 0)) ;;
  lYt <- transp lS nV lY ;;
  mmul nV lS lS lYt Rinv.
(** Pinv, Oi.cpp:768-778 *)
Definition oe_pinv (lS nV : Z) (delta : val) (C lY : vec2) : res vec2 :=
  CY <- mmul nV lS nV C lY ;;
  let diag := vmul (vdiv (fz 1) delta) (fz (nV - 1)) in
  tab2 nV nV (fun i j => a <- get2 CY i j ;; Ok (vadd a (vmul diag (if i =? j then fz 1 else fz 0)))).
(** the anti-extrapolation filter, Oi.cpp:935-953: [inc] is the increment relative to the ensemble mean and [x] the member's own departure from it *)
Definition oe_limit (inc x maxInc minInc : rv) : rv :=
  let member := rsub inc x in
  if rltb (rz 0) maxInc && rltb maxInc member then radd maxInc x
  else if rltb maxInc (rz 0) && rltb (rz 0) member then radd (rz 0) x
  else if rltb minInc (rz 0) && rltb member minInc then radd minInc x
  else if rltb (rz 0) minInc && rltb member (rz 0) then radd (rz 0) x
  else inc.
(** lObs - (lY[e] + lYhat), Oi.cpp:926-927: lY[e] is the element number e of the matrix in column-major order *)
Definition oe_incs (lS : Z) (lObs lYhat : vec) (lY : vec2) (e : Z) : res vec :=
  y <- get2 lY (e mod lS) (e / lS) ;;
  mapM (fun i => o <- znth lObs i ;; h <- znth lYhat i ;; Ok (vsub o (vadd y h))) (zrange 0 lS).
(** W, w, X and the analysis, Oi.cpp:822-960; [out] are the values of the output at the point and [row] those of the field.  The members used have valid values
    everywhere, so the test at 860 succeeds and [count] is their number. *)
Definition oe_update (eo : ens_options) (lS : Z) (members : list Z) (lObs lYhat : vec) (lY C P : vec2) (lam : list rv) (V : list (list rv)) (row : vec) (out : list rv) : res (list rv) :=
  let nV := zlen members in
  W0 <- sym_root nV lam V ;;
  PC <- mmul nV nV lS P C ;;
  w <- mapM (fun e => vsumM lS (fun i => p <- get2 PC e i ;; o <- znth lObs i ;; h <- znth lYhat i ;; Ok (vmul p (vsub o h)))) (zrange 0 nV) ;;
  xs <- mapM (fun ei => znth row ei) members ;;
  let mean := vdiv (fold_left vadd xs (fz 0)) (fz nV) in
  let X := map (fun v => vsub v mean) xs in
  foldM (fun out e =>
     ei <- znth members e ;;
     x <- znth X e ;;
     inc <- rsumM nV (fun k => xk <- znth X k ;; wk <- get2 W0 k e ;; ww <- znth w k ;; Ok (rmul (v2r xk) (radd wk (v2r ww)))) ;;
     if en_savediff eo then zset out ei inc else
     inc' <- (if en_extrapolate eo then Ok inc else d <- oe_incs lS lObs lYhat lY e ;; Ok (oe_limit inc (v2r x) (v2r (amax d)) (v2r (amin d)))) ;;
     zset out ei (radd (v2r mean) inc')) out (zrange 0 nV).
(** Oi.cpp:539-562 and 679-960 once the stations [sel] are chosen, with their correlations; [back] are gY and gYhat of all stations.  An exception of arma::inv
    leaves a parallel loop. *)
Definition oe_row (inv : vec2 -> res vec2) (EL : elib) (radar : res (list rv)) (eo : ens_options) (nPar : Z) (ss : list station) (back : list (vec * val)) (sel : list (val * Z)) (members : list Z)
    (row : vec) (out : list rv) : res (list rv) :=
  let lS := zlen sel in
  let nV := zlen members in
  ls <- mapM (fun p => znth ss (snd p)) sel ;; lb <- mapM (fun p => znth back (snd p)) sel ;;
  lY <- mapM (fun b => mapM (fun ei => znth (fst b) ei) members) lb ;;
  let lObs := map st_obs ls in
  let lYhat := map snd lb in
  if nPar =? 3 then radar else if negb (nPar =? 2) then Abort else
  C <- oe_c lS nV (en_sigma eo) (map fst sel) (map st_ci ls) lY ;;
  Pinv <- oe_pinv lS nV (en_delta eo) C lY ;;
  if vleb (e_rcond EL Pinv) (fz 0) then Ok (map v2r row) else
  P <- omp (inv Pinv) ;;
  A <- tab2 nV nV (fun i j => p <- get2 P i j ;; Ok (vmul (fz (nV - 1)) p)) ;;
  match e_eig EL A with
  | None => Ok (map v2r row)
  | Some (lam, V) => oe_update eo lS members lObs lYhat lY C P lam V row out
  end.
(** a point of a time in ensemble mode, with what is computed for the time before the loop over points, Oi.cpp:353, 379-435 and 447 *)
Definition oe_point (inv : vec2 -> res vec2) (EL : elib) (radar : res (list rv)) (o : oi_options) (eo : ens_options) (nPar : Z) (elevs : list vec) (d : dims) (ss : list station) (f : field)
    (sel : list (val * Z)) (y x : Z) : res (list rv) :=
  back <- mapM (oi_background o elevs (d_e d) f) ss ;;
  members <- oi_members d f ;;
  row <- mapM (f_get f y x) (zrange 0 (d_e d)) ;;
  oe_row inv EL radar eo nPar ss back sel members row (map (fun _ => v2r CMV) (zrange 0 (d_e d))).
