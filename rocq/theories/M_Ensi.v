(** Model of src/api/oi_ensi.cpp: optimal_interpolation_ensi. *)
From Verif Require Import Base RBase M_Geo M_Stat M_OI M_EnsMulti.

(** External code: arma::rcond (reciprocal condition number) and arma::eig_sym (eigenvalues and eigenvectors of a symmetric
    matrix, the latter in columns; None is the return value false). *)
Record elib := { e_rcond : vec2 -> val; e_eig : vec2 -> option (list rv * list (list rv)) }.

(** sums and products of Armadillo matrices; the sizes given are those of the code, and every element is read within them *)
Definition vsumM (n : Z) (f : Z -> res val) : res val :=
  foldM (fun acc i => x <- f i ;; Ok (vadd acc x)) (fz 0) (zrange 0 n).
Definition rsumM (n : Z) (f : Z -> res rv) : res rv :=
  foldM (fun acc i => x <- f i ;; Ok (radd acc x)) (rz 0) (zrange 0 n).
Definition mmul (n k m : Z) (A B : vec2) : res vec2 :=
  tab2 n m (fun i j => vsumM k (fun l => a <- get2 A i l ;; b <- get2 B l j ;; Ok (vmul a b))).
Definition transp (n m : Z) (A : vec2) : res vec2 := tab2 m n (fun i j => get2 A j i).

(** gY and gYhat, oi_ensi.cpp:164-177: perturbations of the members about their mean at every station.  Elements of a row beyond
    the members of the background are not used later and are left out. *)
Definition perturb (E : ext) (nE : Z) (row : vec) : res (vec * val) :=
  mean <- calc_statistic E row Mean ;;
  r <- mapM (fun e => v <- znth row e ;; Ok (if is_valid v && is_valid mean then vsub v mean else v)) (zrange 0 nE) ;;
  Ok (r, mean).
(** Pinv, oi_ensi.cpp:296-375: C and C * lY + (nValidEns - 1) * identity; [lY] has one row per station *)
Definition ens_c (lS nV : Z) (g sig : vec) (lY : vec2) : res vec2 :=
  Rinv <- tab2 lS lS (fun i j => if i =? j then r <- znth g i ;; s <- znth sig i ;; Ok (vdiv r (vmul s s)) else Ok (fz 0)) ;;
  lYt <- transp lS nV lY ;;
  mmul nV lS lS lYt Rinv.
Definition ens_pinv (lS nV : Z) (C lY : vec2) : res vec2 :=
  CY <- mmul nV lS nV C lY ;;
  tab2 nV nV (fun i j => a <- get2 CY i j ;; Ok (vadd a (vmul (fz (nV - 1)) (if i =? j then fz 1 else fz 0)))).
(** eigvec * diagmat(sqrt(eigval)) * eigvec.t(), oi_ensi.cpp:408-410.  The product with the diagonal matrix is written as the
    column scaling it is. *)
Definition sym_root (nV : Z) (lam : list rv) (V : list (list rv)) : res (list (list rv)) :=
  tab2 nV nV (fun i j => rsumM nV (fun l => a <- get2 V i l ;; s <- znth lam l ;; b <- get2 V j l ;; Ok (rmul (rmul a (rsqrt s)) b))).
(** anti-extrapolation filter, oi_ensi.cpp:521-543: [inc] is the increment relative to the ensemble mean, [x] the member's own
    perturbation *)
Definition ens_limit (inc x maxInc minInc : rv) : rv :=
  let member := rsub inc x in
  if rltb (rz 0) maxInc && rltb maxInc member then radd maxInc x
  else if rltb maxInc (rz 0) && rltb (rz 0) member then radd (rz 0) x
  else if rltb minInc (rz 0) && rltb member minInc then radd minInc x
  else if rltb (rz 0) minInc && rltb member (rz 0) then radd (rz 0) x
  else inc.
(** lObs - (lY[e] + lYhat), oi_ensi.cpp:512-513: lY[e] is the element number e of the matrix in column-major order *)
Definition ens_incs (lS : Z) (lObs lYhat : vec) (lY : vec2) (e : Z) : res vec :=
  y <- get2 lY (e mod lS) (e / lS) ;;
  mapM (fun i => o <- znth lObs i ;; h <- znth lYhat i ;; Ok (vsub o (vadd y h))) (zrange 0 lS).
(** update of one row, oi_ensi.cpp:376-546: [P] is the inverse of Pinv, [lam] and [V] the eigenvalues and eigenvectors of
    (nValidEns - 1) * P.  The members used have valid values everywhere, so the test for valid values at 440 always succeeds and
    [count] is their number. *)
Definition ens_update (lS : Z) (valid : list Z) (lObs lYhat : vec) (lY C P : vec2) (lam : list rv) (V : list (list rv))
  (extrapolate : bool) (row : vec) : res (list rv) :=
  let nV := zlen valid in
  W0 <- sym_root nV lam V ;;
  PC <- mmul nV nV lS P C ;;
  w <- mapM (fun e => vsumM lS (fun i => p <- get2 PC e i ;; o <- znth lObs i ;; h <- znth lYhat i ;; Ok (vmul p (vsub o h)))) (zrange 0 nV) ;;
  xs <- mapM (fun ei => znth row ei) valid ;;
  let mean := vdiv (fold_left vadd xs (fz 0)) (fz nV) in
  let X := map (fun v => vsub v mean) xs in
  foldM (fun out e =>
     ei <- znth valid e ;;
     x <- znth X e ;;
     inc <- rsumM nV (fun k => xk <- znth X k ;; wk <- get2 W0 k e ;; ww <- znth w k ;; Ok (rmul (v2r xk) (radd wk (v2r ww)))) ;;
     inc' <- (if extrapolate then Ok inc else
              d <- ens_incs lS lObs lYhat lY e ;; Ok (ens_limit inc (v2r x) (v2r (amax d)) (v2r (amin d)))) ;;
     zset out ei (radd (v2r mean) inc')) (map v2r row) (zrange 0 nV).
(** one background point, oi_ensi.cpp:203-547.  Without valid members the matrices are empty and the point is skipped either at
    the test of the condition number or at 412. *)
Definition ensi_cell (G : geo) (L : lib) (EL : elib) (S : sfn) (bpts : points) (background : vec2) (pts : points) (pvec : list point)
  (pobs psigmas : vec) (gY : list (vec * val)) (max_points : Z) (extrapolate : bool) (valid : list Z) (y : Z) : res (list rv) :=
  row <- znth background y ;;
  lat <- znth (s_lats bpts) y ;;
  lon <- znth (s_lons bpts) y ;;
  p1 <- points_get bpts y ;;
  sel <- select G L S pts pvec (fun k => znth pobs k) max_points lat lon p1 ;;
  let lS := zlen sel in
  let nV := zlen valid in
  if lS =? 0 then Ok (map v2r row) else
  let U := map fst sel in
  let g := map snd sel in
  lObs <- mapM (fun k => znth pobs k) U ;;
  st <- mapM (fun k => znth gY k) U ;;
  lY <- mapM (fun s => mapM (fun ei => znth (fst s) ei) valid) st ;;
  let lYhat := map snd st in
  sig <- mapM (fun k => znth psigmas k) U ;;
  if nV =? 0 then Ok (map v2r row) else
  C <- ens_c lS nV g sig lY ;;
  Pinv <- ens_pinv lS nV C lY ;;
  if vleb (e_rcond EL Pinv) (fz 0) then Ok (map v2r row) else
  P <- l_inv L Pinv ;;
  A <- tab2 nV nV (fun i j => p <- get2 P i j ;; Ok (vmul (fz (nV - 1)) p)) ;;
  match e_eig EL A with
  | None => Ok (map v2r row)
  | Some (lam, V) => ens_update lS valid lObs lYhat lY C P lam V extrapolate row
  end.
(** optimal_interpolation_ensi(Points), oi_ensi.cpp:113-562 *)
Definition ensi (E : ext) (G : geo) (L : lib) (EL : elib) (S : sfn) (bpts : points) (background : vec2) (pts : points)
  (pobs psigmas : vec) (pbg : vec2) (max_points : Z) (extrapolate : bool) : res (list (list rv)) :=
  if max_points <? 0 then Throw InvalidArgument
  else if negb (match points_type bpts, points_type pts with
                | Geodetic, Geodetic => true | Cartesian, Cartesian => true | _, _ => false end) then Throw InvalidArgument
  else if negb (zlen background =? points_size bpts) then Throw InvalidArgument
  else if negb (zlen pobs =? points_size pts) then Throw InvalidArgument
  else if negb (zlen psigmas =? points_size pts) then Throw InvalidArgument
  else if negb (zlen pbg =? points_size pts) then Throw InvalidArgument
  else
    let nS := points_size pts in
    if nS =? 0 then Ok (map (map v2r) background) else
    r0 <- znth background 0 ;;
    let nE := zlen r0 in
    gY <- mapM (fun i => row <- znth pbg i ;; perturb E nE row) (zrange 0 nS) ;;
    pvec <- mapM (points_get pts) (zrange 0 nS) ;;
    valid <- members nE [background] ;;
    mapM (ensi_cell G L EL S bpts background pts pvec pobs psigmas gY max_points extrapolate valid) (zrange 0 (zlen background)).
(** copying back to the grid, oi_ensi.cpp:100-109 *)
Definition unflat3r (nY nX nE : Z) (l : list (list rv)) : res (list (list (list rv))) :=
  tab2 nY nX (fun y x => mapM (fun e => get2 l (y * nX + x) e) (zrange 0 nE)).
(** optimal_interpolation_ensi(Grid), oi_ensi.cpp:33-111.  pbackground[0] is read before its size is compared with the number of
    stations (in the Points version). *)
Definition ensi_grid (E : ext) (G : geo) (L : lib) (EL : elib) (S : sfn) (bgrid : grid) (background : vec3) (pts : points)
  (pobs psigmas : vec) (pbg : vec2) (max_points : Z) (extrapolate : bool) : res (list (list (list rv))) :=
  if max_points <? 0 then Throw InvalidArgument
  else
    let nS := points_size pts in
    if nS =? 0 then Ok (map (map (map v2r)) background) else
    '(nY, nX) <- grid_size bgrid ;;
    if (nY =? 0) || (nX =? 0) then Throw InvalidArgument
    else if negb (match grid_type bgrid, points_type pts with
                  | Geodetic, Geodetic => true | Cartesian, Cartesian => true | _, _ => false end) then Throw InvalidArgument
    else
      r0 <- znth background 0 ;;
      if negb ((zlen background =? nY) && (zlen r0 =? nX)) then Throw InvalidArgument else
      e0 <- znth r0 0 ;;
      let nE := zlen e0 in
      if negb (zlen pobs =? nS) then Throw InvalidArgument
      else if negb (zlen psigmas =? nS) then Throw InvalidArgument
      else
        p0 <- znth pbg 0 ;;
        if negb (nE =? zlen p0) then Throw InvalidArgument else
        bpts <- to_points bgrid ;;
        b1 <- flat3 nY nX nE background ;;
        o1 <- ensi E G L EL S bpts b1 pts pobs psigmas pbg max_points extrapolate ;;
        unflat3r nY nX nE o1.
