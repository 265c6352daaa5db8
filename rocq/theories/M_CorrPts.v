(** Model of src/api/corr_points.cpp and src/api/smart.cpp. *)
From Verif Require Import Base M_Geo M_OI.

(** lRhos0, corr_points.cpp:90-95 *)
Definition corr_candidates (loc0 : list Z) (rhos : vec) : res (list (val * Z)) :=
  foldM (fun acc i =>
     r <- znth rhos i ;;
     Ok (if vltb (fz 0) r then acc ++ [(r, i)] else acc)) [] (zrange 0 (zlen loc0)).
(** one row of the output, corr_points.cpp:64-127.  Lines 97-118 are the code of oi.cpp:250-271 ([pick_obs]). *)
Definition corr_row (G : geo) (L : lib) (S : sfn) (pts knots : points) (pvec : list point) (max_points : Z) (y : Z) : res vec :=
  let nS := points_size knots in
  lat <- znth (s_lats pts) y ;;
  lon <- znth (s_lons pts) y ;;
  p1 <- points_get pts y ;;
  radius <- sf_loc S p1 ;;
  loc0 <- get_neighbours G (s_tree knots) lat lon radius true ;;
  if zlen loc0 =? 0 then Ok (init1 nS (fz 0)) else
  p2 <- mapM (fun k => znth pvec k) loc0 ;;
  rhos <- sf_bg S p1 p2 ;;
  c <- corr_candidates loc0 rhos ;;
  sel <- pick_obs L max_points loc0 c ;;
  foldM (fun row e => zset row (fst e) (snd e)) (init1 nS (fz 0)) sel.
(** staticcorr_points, corr_points.cpp:26-131 *)
Definition staticcorr_points (G : geo) (L : lib) (S : sfn) (pts knots : points) (max_points : Z) : res vec2 :=
  if max_points <? 0 then Throw InvalidArgument
  else if negb (match points_type pts, points_type knots with
                | Geodetic, Geodetic => true | Cartesian, Cartesian => true | _, _ => false end) then Throw InvalidArgument
  else
    pvec <- mapM (points_get knots) (zrange 0 (points_size knots)) ;;
    omp (mapM (corr_row G L S pts knots pvec max_points) (zrange 0 (points_size pts))).

(** one cell of smart, smart.cpp:34-62; [loc] and [corr] are the structure function's localization_distance and
    corr(Point, Point).  The assert of line 48 is not modelled. *)
Definition smart_cell (G : geo) (L : lib) (loc : point -> res val) (corr : point -> point -> res val)
    (ig og : grid) (ivalues : vec2) (num i j : Z) : res val :=
  p1 <- grid_get og i j ;;
  dist <- loc p1 ;;
  la <- get2 (g_lats og) i j ;;
  lo <- get2 (g_lons og) i j ;;
  indices <- grid_neighbours G ig la lo dist true ;;
  rhos0 <- mapM (fun s => '(ii, jj) <- znth indices s ;; p2 <- grid_get ig ii jj ;; rho <- corr p1 p2 ;; Ok (rho, s))
             (zrange 0 (zlen indices)) ;;
  let rhos := l_sort L rhos0 in
  '(sum, count) <- foldM (fun '(sum, count) s =>
      e <- znth rhos (zlen rhos - 1 - s) ;;
      '(ii, jj) <- znth indices (snd e) ;;
      v <- get2 ivalues ii jj ;;
      Ok (vadd sum v, count + 1)) (fz 0, 0) (zrange 0 (Z.min num (zlen indices))) ;;
  Ok (if 0 <? count then vdiv sum (fz count) else MV).
(** smart, smart.cpp:12-66 *)
Definition smart (G : geo) (L : lib) (loc : point -> res val) (corr : point -> point -> res val)
    (ig og : grid) (ivalues : vec2) (num : Z) : res vec2 :=
  '(nLat, nLon) <- grid_size og ;;
  for2 nLat nLon (init2 nLat nLon (fz 0)) (smart_cell G L loc corr ig og ivalues num).
