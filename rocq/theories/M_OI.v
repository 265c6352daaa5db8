(** Model of src/api/oi.cpp: optimal interpolation. *)
From Verif Require Import Base M_Geo.

(** A structure function as the analysis sees it (StructureFunction::localization_distance,
    corr(Point, vector<Point>) and corr_background(Point, vector<Point>), include/gridpp.h).
    The values are what the float code returned. *)
Record sfn := {
  sf_loc : point -> res val;
  sf_corr : point -> list point -> res vec;
  sf_bg : point -> list point -> res vec }.
(** External code: arma::inv (throws when the matrix is singular), and std::sort on pairs by first
    member (which may order ties in any way). *)
Record lib := { l_inv : vec2 -> res vec2; l_sort : list (val * Z) -> list (val * Z) }.

(** lRhos0, oi.cpp:240-247: correlation and position in [loc0] of the usable observations *)
Definition candidates (pobs pbg : vec) (loc0 : list Z) (rhos : vec) : res (list (val * Z)) :=
  foldM (fun acc i =>
     index <- znth loc0 i ;;
     o <- znth pobs index ;;
     if negb (is_valid o) then Ok acc else
     b <- znth pbg index ;;
     if negb (is_valid b) then Ok acc else
     r <- znth rhos i ;;
     Ok (if vltb (fz 0) r then acc ++ [(r, i)] else acc)) [] (zrange 0 (zlen loc0)).
(** lLocIndices and lRhos, oi.cpp:250-271 *)
Definition pick_obs (L : lib) (max_points : Z) (loc0 : list Z) (c : list (val * Z)) : res (list (Z * val)) :=
  if (0 <? max_points) && (max_points <? zlen c) then
    let s := l_sort L c in
    mapM (fun i => e <- znth s (zlen s - 1 - i) ;; k <- znth loc0 (snd e) ;; Ok (k, fst e)) (zrange 0 max_points)
  else
    mapM (fun i => e <- znth c i ;; k <- znth loc0 (snd e) ;; Ok (k, fst e)) (zrange 0 (zlen c)).
(** lP + lR, oi.cpp:287-308 *)
Definition system (S : sfn) (pvec : list point) (pratios : vec) (U : list Z) : res vec2 :=
  mapM (fun i =>
     index <- znth U i ;;
     r <- znth pratios index ;;
     p1 <- znth pvec index ;;
     p2 <- mapM (fun k => znth pvec k) U ;;
     corr <- sf_corr S p1 p2 ;;
     mapM (fun j => c <- znth corr j ;; Ok (vadd c (if i =? j then r else fz 0))) (zrange 0 (zlen U)))
   (zrange 0 (zlen U)).
(** products of a row vector with a vector and with a matrix (arma operator star) *)
Definition vdot (n : Z) (a b : vec) : res val :=
  foldM (fun acc i => x <- znth a i ;; y <- znth b i ;; Ok (vadd acc (vmul x y))) (fz 0) (zrange 0 n).
Definition row_mul (n : Z) (g : vec) (N : vec2) : res vec :=
  mapM (fun j => foldM (fun acc i => x <- znth g i ;; y <- get2 N i j ;; Ok (vadd acc (vmul x y))) (fz 0) (zrange 0 n))
    (zrange 0 n).
(** arma::max and arma::min of a non-empty vector *)
Definition amax (d : vec) : val :=
  match d with [] => NaN | x :: t => fold_left (fun m v => if vltb m v then v else m) t x end.
Definition amin (d : vec) : val :=
  match d with [] => NaN | x :: t => fold_left (fun m v => if vltb v m then v else m) t x end.
(** oi.cpp:313-330 *)
Definition limit (inc maxInc minInc : val) : val :=
  if vltb (fz 0) maxInc && vltb maxInc inc then maxInc
  else if vltb maxInc (fz 0) && vltb (fz 0) inc then maxInc
  else if vltb minInc (fz 0) && vltb inc minInc then minInc
  else if vltb (fz 0) minInc && vltb inc (fz 0) then minInc
  else inc.
(** one background point, oi.cpp:216-335; the result is (output[y], analysis_variance[y]) *)
Definition oi_cell (G : geo) (L : lib) (S : sfn) (bpts : points) (background bvariance : vec) (pts : points)
  (pvec : list point) (pobs pratios pbg : vec) (max_points : Z) (extrapolate : bool) (y : Z) : res (val * val) :=
  b <- znth background y ;;
  v <- znth bvariance y ;;
  if negb (is_valid b) then Ok (b, v) else
  lat <- znth (s_lats bpts) y ;;
  lon <- znth (s_lons bpts) y ;;
  p1 <- points_get bpts y ;;
  radius <- sf_loc S p1 ;;
  loc0 <- get_neighbours G (s_tree pts) lat lon radius true ;;
  if zlen loc0 =? 0 then Ok (b, v) else
  p2 <- mapM (fun k => znth pvec k) loc0 ;;
  rhos <- sf_bg S p1 p2 ;;
  c <- candidates pobs pbg loc0 rhos ;;
  sel <- pick_obs L max_points loc0 c ;;
  let U := map fst sel in
  let g := map snd sel in
  let lS := zlen U in
  if lS =? 0 then Ok (b, v) else
  M <- system S pvec pratios U ;;
  lObs <- mapM (fun k => znth pobs k) U ;;
  lY <- mapM (fun k => znth pbg k) U ;;
  N <- l_inv L M ;;
  lGSR <- row_mul lS g N ;;
  d <- mapM (fun i => x <- znth lObs i ;; z <- znth lY i ;; Ok (vsub x z)) (zrange 0 lS) ;;
  dx <- vdot lS lGSR d ;;
  let inc := if extrapolate then dx else limit dx (amax d) (amin d) in
  a <- vdot lS lGSR g ;;
  Ok (vadd b inc, vmul v (vsub (fz 1) a)).
(** optimal_interpolation_full(Points), oi.cpp:134-340.  [av0] is the caller's analysis_variance before
    the call; the result is (return value, analysis_variance after).  The first checks are repeated at
    oi.cpp:183-185 and cannot fail there. *)
Definition oi_full (G : geo) (L : lib) (S : sfn) (bpts : points) (background bvariance : vec) (pts : points)
  (pobs obs_variance pbg bvarp : vec) (max_points : Z) (av0 : vec) (extrapolate : bool) : res (vec * vec) :=
  if max_points <? 0 then Throw InvalidArgument
  else if negb (match points_type bpts, points_type pts with
                | Geodetic, Geodetic => true | Cartesian, Cartesian => true | _, _ => false end) then Throw InvalidArgument
  else if negb (zlen background =? points_size bpts) then Throw InvalidArgument
  else if negb (zlen background =? zlen bvariance) then Throw InvalidArgument
  else if negb (zlen pobs =? points_size pts) then Throw InvalidArgument
  else if negb (zlen obs_variance =? points_size pts) then Throw InvalidArgument
  else if negb (zlen bvarp =? points_size pts) then Throw InvalidArgument
  else
    let nY := zlen background in
    let nS := points_size pts in
    if nS =? 0 then Ok (background, av0) else
    pratios <- mapM (fun s => o <- znth obs_variance s ;; b <- znth bvarp s ;; Ok (vdiv o b)) (zrange 0 nS) ;;
    pvec <- mapM (points_get pts) (zrange 0 nS) ;;
    cells <- omp (mapM (oi_cell G L S bpts background bvariance pts pvec pobs pratios pbg max_points extrapolate) (zrange 0 nY)) ;;
    Ok (map fst cells, map snd cells).
(** optimal_interpolation(Points), oi.cpp:87-132 *)
Definition oi_points (G : geo) (L : lib) (S : sfn) (bpts : points) (background : vec) (pts : points)
  (pobs pratios pbg : vec) (max_points : Z) (extrapolate : bool) : res vec :=
  if max_points <? 0 then Throw InvalidArgument
  else if negb (match points_type bpts, points_type pts with
                | Geodetic, Geodetic => true | Cartesian, Cartesian => true | _, _ => false end) then Throw InvalidArgument
  else if negb (zlen background =? points_size bpts) then Throw InvalidArgument
  else if negb (zlen pobs =? points_size pts) then Throw InvalidArgument
  else if negb (zlen pratios =? points_size pts) then Throw InvalidArgument
  else
    '(out, _) <- oi_full G L S bpts background (init1 (zlen background) (fz 1)) pts pobs pratios pbg
                   (init1 (zlen pratios) (fz 1)) max_points [] extrapolate ;;
    Ok out.
(** the loops copying a field to a vector and back, e.g. oi.cpp:66-73 and 76-83 (the running [count]
    is y * nX + x) *)
Definition flat (nY nX : Z) (f : vec2) : res vec := r <- tab2 nY nX (fun y x => get2 f y x) ;; Ok (concat r).
Definition unflat (nY nX : Z) (l : vec) : res vec2 := tab2 nY nX (fun y x => znth l (y * nX + x)).
(** size check of a field against a grid, e.g. oi.cpp:43 *)
Definition fits (g : grid) (f : vec2) : res bool :=
  '(Y, X) <- grid_size g ;;
  if negb (zlen f =? Y) then Ok false else r <- znth f 0 ;; Ok (zlen r =? X).
(** optimal_interpolation(Grid), oi.cpp:26-85 *)
Definition oi_grid (G : geo) (L : lib) (S : sfn) (bgrid : grid) (background : vec2) (pts : points)
  (pobs pratios pbg : vec) (max_points : Z) (extrapolate : bool) : res vec2 :=
  if max_points <? 0 then Throw InvalidArgument
  else if negb (match grid_type bgrid, points_type pts with
                | Geodetic, Geodetic => true | Cartesian, Cartesian => true | _, _ => false end) then Throw InvalidArgument
  else
    ok <- fits bgrid background ;;
    if negb ok then Throw InvalidArgument
    else if negb (zlen pobs =? points_size pts) then Throw InvalidArgument
    else if negb (zlen pratios =? points_size pts) then Throw InvalidArgument
    else if negb (zlen pbg =? points_size pts) then Throw InvalidArgument
    else
      r0 <- znth background 0 ;;
      let nY := zlen background in
      let nX := zlen r0 in
      bpts <- to_points bgrid ;;
      b1 <- flat nY nX background ;;
      o1 <- oi_points G L S bpts b1 pts pobs pratios pbg max_points extrapolate ;;
      unflat nY nX o1.
(** optimal_interpolation_full(Grid), oi.cpp:341-412; the result is (return value, analysis_variance after) *)
Definition oi_full_grid (G : geo) (L : lib) (S : sfn) (bgrid : grid) (background bvariance : vec2) (pts : points)
  (obs obs_variance pbg bvarp : vec) (max_points : Z) (extrapolate : bool) : res (vec2 * vec2) :=
  if max_points <? 0 then Throw InvalidArgument
  else if negb (match grid_type bgrid, points_type pts with
                | Geodetic, Geodetic => true | Cartesian, Cartesian => true | _, _ => false end) then Throw InvalidArgument
  else
    ok <- fits bgrid background ;;
    if negb ok then Throw InvalidArgument
    else if negb (zlen obs =? points_size pts) then Throw InvalidArgument
    else if negb (zlen obs_variance =? points_size pts) then Throw InvalidArgument
    else if negb (zlen pbg =? points_size pts) then Throw InvalidArgument
    else
      r0 <- znth background 0 ;;
      let nY := zlen background in
      let nX := zlen r0 in
      bpts <- to_points bgrid ;;
      b1 <- flat nY nX background ;;
      v1 <- flat nY nX bvariance ;;
      '(o1, a1) <- oi_full G L S bpts b1 v1 pts obs obs_variance pbg bvarp max_points [] extrapolate ;;
      out <- unflat nY nX o1 ;;
      av <- unflat nY nX a1 ;;
      Ok (out, av).
