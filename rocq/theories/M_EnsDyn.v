(** Model of src/api/oi_ensi_multi.cpp: optimal_interpolation_ensi_multi_ebe (correlations computed from the ensemble, member by
    member). *)
From Verif Require Import Base RBase M_Geo M_Stat M_OI M_EnsMulti M_Ensi.

(** External code: arma::inv of a matrix with irrational entries. *)
Record rlib := { r_inv : list (list rv) -> res (list (list rv)) }.

(** default_min_std, oi_ensi_multi.cpp:361 (0.0013 taken exactly) *)
Definition min_std : rv := RF (13 / 10000)%R.
(** perturbations about the mean in units of the standard deviation, oi_ensi_multi.cpp:429-444 and 525-536; all zero when the
    statistics are missing or the standard deviation is small.  Std is the square root of Variance (util.cpp:69-72). *)
Definition normed (E : ext) (vals : vec) : res (list rv) :=
  mean <- calc_statistic E vals Mean ;;
  var <- calc_statistic E vals Variance ;;
  let std := rsqrt (v2r var) in
  let n := zlen vals in
  Ok (if negb (is_valid mean) || negb (r_valid std) || rleb std min_std then map (fun _ => rz 0) vals
      else map (fun v => rdiv (rmul (rdiv (rz 1) (rsqrt (rz (n - 1)))) (v2r (vsub v mean))) std) vals).
(** gZ_R, oi_ensi_multi.cpp:421-445.  The array has one row per background point (nY), but the rows are numbered by station. *)
Definition station_norms (E : ext) (nY nS : Z) (valid : list Z) (pbg_corr : vec2) : res (list (list rv)) :=
  foldM (fun acc i =>
     row <- znth pbg_corr i ;;
     vals <- mapM (fun ei => znth row ei) valid ;;
     z <- normed E vals ;;
     zset acc i z) (init1 nY (init1 (zlen valid) RMV)) (zrange 0 nS).
(** product of two rows *)
Definition rdot (n : Z) (a b : list rv) : res rv := rsumM n (fun e => x <- znth a e ;; y <- znth b e ;; Ok (rmul x y)).
(** lR_rr + lR_dd, oi_ensi_multi.cpp:537-577: localized products of the perturbations of two stations, and the relative error of
    each station on the diagonal *)
Definition dyn_system (S : sfn) (pvec : list point) (pratios : vec) (nV : Z) (Zs : list (list rv)) (U : list Z) : res (list (list rv)) :=
  mapM (fun i =>
     index <- znth U i ;;
     r <- znth pratios index ;;
     p1 <- znth pvec index ;;
     p2 <- mapM (fun k => znth pvec k) U ;;
     corr <- sf_corr S p1 p2 ;;
     zi <- znth Zs i ;;
     mapM (fun j =>
        c <- znth corr j ;;
        zj <- znth Zs j ;;
        d <- rdot nV zi zj ;;
        Ok (radd (rmul (v2r c) d) (if i =? j then v2r r else rz 0))) (zrange 0 (zlen U)))
   (zrange 0 (zlen U)).
(** anti-extrapolation filter, oi_ensi_multi.cpp:587-606 *)
Definition rlimit0 (inc maxInc minInc : rv) : rv :=
  if rltb (rz 0) maxInc && rltb maxInc inc then maxInc
  else if rltb maxInc (rz 0) && rltb (rz 0) inc then rz 0
  else if rltb minInc (rz 0) && rltb inc minInc then minInc
  else if rltb (rz 0) minInc && rltb inc (rz 0) then rz 0
  else inc.
(** the updated row, oi_ensi_multi.cpp:576-613: [M] is the matrix inverted, [g] = lr_lr *)
Definition dyn_update (RL : rlib) (M : list (list rv)) (g : list rv) (innov : vec2) (valid : list Z) (ratio : val) (extrapolate : bool) (row : vec)
  : res (list rv) :=
  let lS := zlen g in
  let nV := zlen valid in
  N <- r_inv RL M ;;
  lK <- mapM (fun j => rsumM lS (fun i => x <- znth g i ;; y <- get2 N i j ;; Ok (rmul x y))) (zrange 0 lS) ;;
  dx <- mapM (fun e =>
          d <- mapM (fun r => znth r e) innov ;;
          x <- rsumM lS (fun i => k <- znth lK i ;; v <- znth d i ;; Ok (rmul k (v2r v))) ;;
          let inc := rmul (v2r ratio) x in
          Ok (if extrapolate then inc else rlimit0 inc (v2r (amax d)) (v2r (amin d)))) (zrange 0 nV) ;;
  foldM (fun out e =>
     ei <- znth valid e ;;
     b <- znth row ei ;;
     x <- znth dx e ;;
     zset out ei (radd (v2r b) x)) (map v2r row) (zrange 0 nV).
(** one background point, oi_ensi_multi.cpp:451-625 *)
Definition ebe_cell (E : ext) (G : geo) (L : lib) (RL : rlib) (S : sfn) (bpts : points) (bratios : vec) (background background_corr : vec2) (pts : points)
  (pvec : list point) (pobs : vec2) (pratios : vec) (pbg : vec2) (gZ : list (list rv)) (max_points : Z) (extrapolate : bool) (valid : list Z) (y : Z)
  : res (list rv) :=
  row <- znth background y ;;
  ratio <- znth bratios y ;;
  lat <- znth (s_lats bpts) y ;;
  lon <- znth (s_lons bpts) y ;;
  p1 <- points_get bpts y ;;
  sel <- select G L S pts pvec (fun k => get2 pobs k 0) max_points lat lon p1 ;;
  if zlen sel =? 0 then Ok (map v2r row) else
  let U := map fst sel in
  let nV := zlen valid in
  crow <- znth background_corr y ;;
  vals <- mapM (fun ei => znth crow ei) valid ;;
  X <- normed E vals ;;
  Zs <- mapM (fun k => znth gZ k) U ;;
  innov <- mapM (fun k => orow <- znth pobs k ;; brow <- znth pbg k ;; innov_row nV valid orow brow) U ;;
  M <- dyn_system S pvec pratios nV Zs U ;;
  g <- mapM (fun i => s <- znth sel i ;; z <- znth Zs i ;; d <- rdot nV X z ;; Ok (rmul (v2r (snd s)) d)) (zrange 0 (zlen sel)) ;;
  dyn_update RL M g innov valid ratio extrapolate row.
(** optimal_interpolation_ensi_multi_ebe(Points), oi_ensi_multi.cpp:329-627 *)
Definition ebe (E : ext) (G : geo) (L : lib) (RL : rlib) (S : sfn) (bpts : points) (bratios : vec) (background background_corr : vec2) (pts : points)
  (pobs : vec2) (pratios : vec) (pbg pbg_corr : vec2) (max_points : Z) (extrapolate : bool) : res (list (list rv)) :=
  if max_points <? 0 then Throw InvalidArgument
  else if negb (match points_type bpts, points_type pts with
                | Geodetic, Geodetic => true | Cartesian, Cartesian => true | _, _ => false end) then Throw InvalidArgument
  else if negb (zlen background =? points_size bpts) then Throw InvalidArgument
  else if negb (zlen background_corr =? points_size bpts) then Throw InvalidArgument
  else if negb (zlen bratios =? points_size bpts) then Throw InvalidArgument
  else if negb (zlen pobs =? points_size pts) then Throw InvalidArgument
  else if negb (zlen pratios =? points_size pts) then Throw InvalidArgument
  else if negb (zlen pbg =? points_size pts) then Throw InvalidArgument
  else if negb (zlen pbg_corr =? points_size pts) then Throw InvalidArgument
  else
    let nS := points_size pts in
    if nS =? 0 then Ok (map (map v2r) background) else
    r0 <- znth background 0 ;;
    pvec <- mapM (points_get pts) (zrange 0 nS) ;;
    valid <- members (zlen r0) [background; background_corr; pbg; pbg_corr] ;;
    if zlen valid =? 0 then Ok (map (map v2r) background) else
    gZ <- station_norms E (zlen background) nS valid pbg_corr ;;
    mapM (ebe_cell E G L RL S bpts bratios background background_corr pts pvec pobs pratios pbg gZ max_points extrapolate valid) (zrange 0 (zlen background)).
(** size check of a 3D field, oi_ensi_multi.cpp:75-79: the error message reads the first elements in any case *)
Definition sized3 (n m k : Z) (f : vec3) : res unit :=
  r0 <- znth f 0 ;;
  e0 <- znth r0 0 ;;
  if (zlen f =? n) && (zlen r0 =? m) && (zlen e0 =? k) then Ok tt else Throw InvalidArgument.
(** optimal_interpolation_ensi_multi_ebe(Grid), oi_ensi_multi.cpp:34-134 *)
Definition ebe_grid (E : ext) (G : geo) (L : lib) (RL : rlib) (S : sfn) (bgrid : grid) (bratios : vec2) (background background_corr : vec3) (pts : points)
  (pobs : vec2) (pratios : vec) (pbg pbg_corr : vec2) (max_points : Z) (extrapolate : bool) : res (list (list (list rv))) :=
  if max_points <? 0 then Throw InvalidArgument
  else
    let nS := points_size pts in
    if nS =? 0 then Ok (map (map (map v2r)) background) else
    '(nY, nX) <- grid_size bgrid ;;
    if (nY =? 0) || (nX =? 0) then Throw InvalidArgument
    else if negb (match grid_type bgrid, points_type pts with
                  | Geodetic, Geodetic => true | Cartesian, Cartesian => true | _, _ => false end) then Throw InvalidArgument
    else
      r0 <- znth background 0 ;;
      e0 <- znth r0 0 ;;
      let nE := zlen e0 in
      if negb ((zlen background =? nY) && (zlen r0 =? nX)) then Throw InvalidArgument else
      _ <- sized3 nY nX nE background_corr ;;
      _ <- sized nY nX bratios ;;
      _ <- sized nS nE pbg ;;
      _ <- sized nS nE pbg_corr ;;
      _ <- sized nS nE pobs ;;
      if negb (zlen pratios =? nS) then Throw InvalidArgument else
      bpts <- to_points bgrid ;;
      br1 <- flat nY nX bratios ;;
      b1 <- flat3 nY nX nE background ;;
      c1 <- flat3 nY nX nE background_corr ;;
      o1 <- ebe E G L RL S bpts br1 b1 c1 pts pobs pratios pbg pbg_corr max_points extrapolate ;;
      unflat3r nY nX nE o1.
