(** Model of src/api/oi_ensi_multi.cpp: optimal_interpolation_ensi_multi_utem (correlations computed from the ensemble, ensemble
    transform). *)
From Verif Require Import Base RBase M_Geo M_Stat M_OI M_EnsMulti M_Ensi M_EnsDyn.

(** External code: arma::rcond and arma::eig_sym (None is the return value false) of matrices with irrational entries. *)
Record xlib := { x_rcond : list (list rv) -> rv; x_eig : list (list rv) -> option (list rv * list (list rv)) }.

(** product of Armadillo matrices *)
Definition rmmul (n k m : Z) (A B : list (list rv)) : res (list (list rv)) :=
  tab2 n m (fun i j => rsumM k (fun l => a <- get2 A i l ;; b <- get2 B l j ;; Ok (rmul a b))).
Definition rtransp (n m : Z) (A : list (list rv)) : res (list (list rv)) := tab2 m n (fun i j => get2 A j i).

(** a row of gY, the element of gYhat and the row of gY_corr, oi_ensi_multi.cpp:960-991 *)
Definition utem_station (E : ext) (valid : list Z) (brow crow : vec) : res (vec * val * list rv) :=
  vals <- mapM (fun ei => znth brow ei) valid ;;
  cvals <- mapM (fun ei => znth crow ei) valid ;;
  mean <- calc_statistic E vals Mean ;;
  z <- normed E cvals ;;
  Ok (if is_valid mean then map (fun v => vsub v mean) vals else map (fun _ => fz 0) vals, mean, z).
(** gY, gYhat and gY_corr, oi_ensi_multi.cpp:955-992.  gY and gY_corr have one row per background point (nY), but the rows are
    numbered by station.  (gYhat has one element per station.) *)
Definition utem_stations (E : ext) (nY nS : Z) (valid : list Z) (pbg pbg_corr : vec2) : res (list (vec * val * list rv)) :=
  foldM (fun acc i =>
     brow <- znth pbg i ;;
     crow <- znth pbg_corr i ;;
     s <- utem_station E valid brow crow ;;
     zset acc i s) (init1 nY (init1 (zlen valid) MV, MV, init1 (zlen valid) RMV)) (zrange 0 nS).
(** C and Pinv, oi_ensi_multi.cpp:1091-1107 *)
Definition utem_c (lS nV : Z) (g ratios : vec) (lYc : list (list rv)) : res (list (list rv)) :=
  Rinv <- tab2 lS lS (fun i j => if i =? j then r <- znth g i ;; s <- znth ratios i ;; Ok (v2r (vdiv r s)) else Ok (rz 0)) ;;
  lYt <- rtransp lS nV lYc ;;
  rmmul nV lS lS lYt Rinv.
Definition utem_pinv (lS nV : Z) (C lYc : list (list rv)) : res (list (list rv)) :=
  CY <- rmmul nV lS nV C lYc ;;
  tab2 nV nV (fun i j => a <- get2 CY i j ;; Ok (radd a (rmul (rz 1) (if i =? j then rz 1 else rz 0)))).
(** update of one row, oi_ensi_multi.cpp:1142-1291: [P] is the inverse of Pinv, [lam] and [V] the eigenvalues and eigenvectors of
    (nValidEns - 1) * P.  The members used have valid values everywhere, so the tests at 1172 and 1179 always succeed, and
    [count] and [count_corr] are their number; total_corr / count_corr is the mean computed by [normed], whose tests for missing
    statistics (absent here) always fail. *)
Definition utem_update (E : ext) (lS : Z) (valid : list Z) (lObs lYhat : vec) (lY : vec2) (C P : list (list rv)) (lam : list rv) (V : list (list rv))
  (ratio : val) (extrapolate : bool) (row crow : vec) : res (list rv) :=
  let nV := zlen valid in
  W0 <- sym_root nV lam V ;;
  PC <- rmmul nV nV lS P C ;;
  w <- mapM (fun e => rsumM lS (fun i => p <- get2 PC e i ;; o <- znth lObs i ;; h <- znth lYhat i ;; Ok (rmul p (v2r (vsub o h))))) (zrange 0 nV) ;;
  xs <- mapM (fun ei => znth row ei) valid ;;
  cs <- mapM (fun ei => znth crow ei) valid ;;
  let mean := vdiv (fold_left vadd xs (fz 0)) (fz nV) in
  var <- calc_statistic E xs Variance ;;
  let std := rsqrt (v2r var) in
  let X := map (fun v => vsub v mean) xs in
  Xc <- normed E cs ;;
  foldM (fun out e =>
     ei <- znth valid e ;;
     x <- znth X e ;;
     inc <- rsumM nV (fun k => xk <- znth Xc k ;; wk <- get2 W0 k e ;; ww <- znth w k ;; Ok (rmul xk (radd (rmul std wk) (rmul (v2r ratio) ww)))) ;;
     inc' <- (if extrapolate then Ok inc else
              d <- ens_incs lS lObs lYhat lY e ;; Ok (ens_limit inc (v2r x) (v2r (amax d)) (v2r (amin d)))) ;;
     zset out ei (radd (v2r mean) inc')) (map v2r row) (zrange 0 nV).
(** one background point, oi_ensi_multi.cpp:998-1291 *)
Definition utem_cell (E : ext) (G : geo) (L : lib) (RL : rlib) (XL : xlib) (S : sfn) (bpts : points) (bratios : vec) (background background_corr : vec2)
  (pts : points) (pvec : list point) (pobs pratios : vec) (gY : list (vec * val * list rv)) (max_points : Z) (extrapolate : bool) (valid : list Z) (y : Z)
  : res (list rv) :=
  row <- znth background y ;;
  ratio <- znth bratios y ;;
  lat <- znth (s_lats bpts) y ;;
  lon <- znth (s_lons bpts) y ;;
  p1 <- points_get bpts y ;;
  sel <- select G L S pts pvec (fun k => znth pobs k) max_points lat lon p1 ;;
  let lS := zlen sel in
  let nV := zlen valid in
  if lS =? 0 then Ok (map v2r row) else
  let U := map fst sel in
  let g := map snd sel in
  lObs <- mapM (fun k => znth pobs k) U ;;
  st <- mapM (fun k => znth gY k) U ;;
  let lY := map (fun s => fst (fst s)) st in
  let lYhat := map (fun s => snd (fst s)) st in
  let lYc := map snd st in
  ratios <- mapM (fun k => znth pratios k) U ;;
  C <- utem_c lS nV g ratios lYc ;;
  Pinv <- utem_pinv lS nV C lYc ;;
  if rleb (x_rcond XL Pinv) (rz 0) then Ok (map v2r row) else
  P <- r_inv RL Pinv ;;
  A <- tab2 nV nV (fun i j => p <- get2 P i j ;; Ok (rmul (rz (nV - 1)) p)) ;;
  match x_eig XL A with
  | None => Ok (map v2r row)
  | Some (lam, V) =>
      crow <- znth background_corr y ;;
      utem_update E lS valid lObs lYhat lY C P lam V ratio extrapolate row crow
  end.
(** optimal_interpolation_ensi_multi_utem(Points), oi_ensi_multi.cpp:862-1311 *)
Definition utem (E : ext) (G : geo) (L : lib) (RL : rlib) (XL : xlib) (S : sfn) (bpts : points) (bratios : vec) (background background_corr : vec2) (pts : points)
  (pobs pratios : vec) (pbg pbg_corr : vec2) (max_points : Z) (extrapolate : bool) : res (list (list rv)) :=
  if max_points <? 0 then Throw InvalidArgument
  else if negb (match points_type bpts, points_type pts with
                | Geodetic, Geodetic => true | Cartesian, Cartesian => true | _, _ => false end) then Throw InvalidArgument
  else if negb (zlen background =? points_size bpts) then Throw InvalidArgument
  else if negb (zlen background_corr =? points_size bpts) then Throw InvalidArgument
  else if negb (zlen bratios =? points_size bpts) then Throw InvalidArgument
  else if negb (zlen pobs =? points_size pts) then Throw InvalidArgument
  else if negb (zlen pratios =? points_size pts) then Throw InvalidArgument
  else if negb (zlen pbg =? points_size pts) then Throw InvalidArgument
  else if negb (zlen pbg_corr =? points_size pts) then Throw InvalidArgument
  else
    let nS := points_size pts in
    if nS =? 0 then Ok (map (map v2r) background) else
    r0 <- znth background 0 ;;
    pvec <- mapM (points_get pts) (zrange 0 nS) ;;
    valid <- members (zlen r0) [background; background_corr; pbg; pbg_corr] ;;
    if zlen valid =? 0 then Ok (map (map v2r) background) else
    gY <- utem_stations E (zlen background) nS valid pbg pbg_corr ;;
    mapM (utem_cell E G L RL XL S bpts bratios background background_corr pts pvec pobs pratios gY max_points extrapolate valid) (zrange 0 (zlen background)).
(** optimal_interpolation_ensi_multi_utem(Grid), oi_ensi_multi.cpp:226-326 *)
Definition utem_grid (E : ext) (G : geo) (L : lib) (RL : rlib) (XL : xlib) (S : sfn) (bgrid : grid) (bratios : vec2) (background background_corr : vec3) (pts : points)
  (pobs pratios : vec) (pbg pbg_corr : vec2) (max_points : Z) (extrapolate : bool) : res (list (list (list rv))) :=
  if max_points <? 0 then Throw InvalidArgument
  else
    let nS := points_size pts in
    if nS =? 0 then Ok (map (map (map v2r)) background) else
    '(nY, nX) <- grid_size bgrid ;;
    if (nY =? 0) || (nX =? 0) then Throw InvalidArgument
    else if negb (match grid_type bgrid, points_type pts with
                  | Geodetic, Geodetic => true | Cartesian, Cartesian => true | _, _ => false end) then Throw InvalidArgument
    else
      r0 <- znth background 0 ;;
      e0 <- znth r0 0 ;;
      let nE := zlen e0 in
      if negb ((zlen background =? nY) && (zlen r0 =? nX)) then Throw InvalidArgument else
      _ <- sized3 nY nX nE background_corr ;;
      _ <- sized nY nX bratios ;;
      _ <- sized nS nE pbg ;;
      _ <- sized nS nE pbg_corr ;;
      if negb (zlen pobs =? nS) then Throw InvalidArgument
      else if negb (zlen pratios =? nS) then Throw InvalidArgument
      else
        bpts <- to_points bgrid ;;
        br1 <- flat nY nX bratios ;;
        b1 <- flat3 nY nX nE background ;;
        c1 <- flat3 nY nX nE background_corr ;;
        o1 <- utem E G L RL XL S bpts br1 b1 c1 pts pobs pratios pbg pbg_corr max_points extrapolate ;;
        unflat3r nY nX nE o1.
