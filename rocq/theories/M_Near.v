(** Model of nearest.cpp and count.cpp. *)
From Verif Require Import Base M_Geo.

(** the nearest grid cell used as [ivalues[I][J]]; indexing the empty answer is undefined
    (nearest.cpp:23-27 and the same lines in the other overloads; asserts are not modelled) *)
Definition lookup_grid (G : geo) (g : grid) (lat lon : val) : res (Z * Z) :=
  nn <- grid_nearest G g lat lon true ;; match nn with Some c => Ok c | None => UB end.
Definition at_grid {A} (v : list (list A)) (c : Z * Z) : res A := get2 v (fst c) (snd c).
(** number of rows and columns of the output grid, [iOutputLats[0].size()] (undefined when there are no rows) *)
Definition out_shape (og : grid) : res (Z * Z) := r0 <- znth (g_lats og) 0 ;; Ok (zlen (g_lats og), zlen r0).
Definition out_loc (og : grid) (i j : Z) : res (val * val) :=
  lat <- get2 (g_lats og) i j ;; lon <- get2 (g_lons og) i j ;; Ok (lat, lon).
Definition pt_loc (P : points) (i : Z) : res (val * val) :=
  lat <- znth (s_lats P) i ;; lon <- znth (s_lons P) i ;; Ok (lat, lon).
Definition is_empty_grid (g : grid) : res bool := '(y, x) <- grid_size g ;; Ok ((y =? 0) || (x =? 0)).
Definition init3 (nT nY nX : Z) : vec3 := map (fun _ => init2 nY nX MV) (zrange 0 nT).

(** nearest(Grid, Grid, vec2), nearest.cpp:7-31 *)
Definition nearest_gg2 (G : geo) (ig og : grid) (v : vec2) : res vec2 :=
  c <- compat_grid2 ig v ;; if negb c then Throw InvalidArgument else
  '(nLat, nLon) <- out_shape og ;;
  e <- is_empty_grid ig ;;
  if (e : bool) then Ok (init2 nLat nLon MV) else
  omp (for2 nLat nLon (init2 nLat nLon MV) (fun i j =>
    '(lat, lon) <- out_loc og i j ;; k <- lookup_grid G ig lat lon ;; at_grid v k)).
(** nearest(Grid, Grid, vec3), nearest.cpp:32-71: the neighbours are found first, then every
    output[t][i][j] is written once *)
Definition nearest_gg3 (G : geo) (ig og : grid) (v : vec3) : res vec3 :=
  c <- compat_grid3 ig v ;; if negb c then Throw InvalidArgument else
  '(nLat, nLon) <- out_shape og ;;
  e <- is_empty_grid ig ;;
  if (e : bool) then Ok (init3 (zlen v) nLat nLon) else
  IJ <- omp (for2 nLat nLon (init2 nLat nLon (-1, -1)) (fun i j =>
    '(lat, lon) <- out_loc og i j ;; lookup_grid G ig lat lon)) ;;
  mapM (fun t => vt <- znth v t ;; tab2 nLat nLon (fun i j => k <- get2 IJ i j ;; at_grid vt k)) (zrange 0 (zlen v)).
(** nearest(Points, Grid, vec), nearest.cpp:73-94 *)
Definition nearest_pg1 (G : geo) (ip : points) (og : grid) (v : vec) : res vec2 :=
  if negb (compat_points1 ip v) then Throw InvalidArgument else
  '(nLat, nLon) <- out_shape og ;;
  if points_size ip =? 0 then Ok (init2 nLat nLon MV) else
  omp (for2 nLat nLon (init2 nLat nLon MV) (fun i j =>
    '(lat, lon) <- out_loc og i j ;; k <- points_nearest G ip lat lon true ;; znth v k)).
(** nearest(Points, Grid, vec2), nearest.cpp:95-122; every output[t][i][j] is written once *)
Definition nearest_pg2 (G : geo) (ip : points) (og : grid) (v : vec2) : res vec3 :=
  c <- compat_points2 ip v ;; if negb c then Throw InvalidArgument else
  '(nLat, nLon) <- out_shape og ;;
  if points_size ip =? 0 then Ok (init3 (zlen v) nLat nLon) else
  K <- omp (for2 nLat nLon (init2 nLat nLon (-1)) (fun i j =>
    '(lat, lon) <- out_loc og i j ;; points_nearest G ip lat lon true)) ;;
  mapM (fun t => vt <- znth v t ;; tab2 nLat nLon (fun i j => k <- get2 K i j ;; znth vt k)) (zrange 0 (zlen v)).
(** nearest(Grid, Points, vec2), nearest.cpp:124-144 *)
Definition nearest_gp2 (G : geo) (ig : grid) (op : points) (v : vec2) : res vec :=
  c <- compat_grid2 ig v ;; if negb c then Throw InvalidArgument else
  let n := points_size op in
  e <- is_empty_grid ig ;;
  if (e : bool) then Ok (init1 n MV) else
  omp (for1 n (init1 n MV) (fun i => '(lat, lon) <- pt_loc op i ;; k <- lookup_grid G ig lat lon ;; at_grid v k)).
(** nearest(Grid, Points, vec3), nearest.cpp:145-176 *)
Definition nearest_gp3 (G : geo) (ig : grid) (op : points) (v : vec3) : res vec2 :=
  c <- compat_grid3 ig v ;; if negb c then Throw InvalidArgument else
  let n := points_size op in
  e <- is_empty_grid ig ;;
  if (e : bool) then Ok (init2 (zlen v) n MV) else
  IJ <- omp (for1 n (init1 n (-1, -1)) (fun i => '(lat, lon) <- pt_loc op i ;; lookup_grid G ig lat lon)) ;;
  mapM (fun t => vt <- znth v t ;; mapM (fun i => k <- znth IJ i ;; at_grid vt k) (zrange 0 n)) (zrange 0 (zlen v)).
(** nearest(Points, Points, vec), nearest.cpp:177-197 *)
Definition nearest_pp1 (G : geo) (ip op : points) (v : vec) : res vec :=
  if negb (points_size ip =? zlen v) then Throw InvalidArgument else
  let n := points_size op in
  if points_size ip =? 0 then Ok (init1 n MV) else
  omp (for1 n (init1 n MV) (fun i => '(lat, lon) <- pt_loc op i ;; k <- points_nearest G ip lat lon true ;; znth v k)).
(** nearest(Points, Points, vec2), nearest.cpp:198-223 *)
Definition nearest_pp2 (G : geo) (ip op : points) (v : vec2) : res vec2 :=
  c <- compat_points2 ip v ;; if negb c then Throw InvalidArgument else
  let n := points_size op in
  if points_size ip =? 0 then Ok (init2 (zlen v) n MV) else
  K <- omp (for1 n (init1 n (-1)) (fun i => '(lat, lon) <- pt_loc op i ;; points_nearest G ip lat lon true)) ;;
  mapM (fun t => vt <- znth v t ;; mapM (fun i => k <- znth K i ;; znth vt k) (zrange 0 n)) (zrange 0 (zlen v)).

(** count(Grid, Points, radius) and count(Points, Points, radius), count.cpp:6-17 and 55-66 *)
Definition count_p (G : geo) (tree : kdtree) (op : points) (radius : val) : res vec :=
  let n := points_size op in
  omp (for1 n (init1 n (fz 0)) (fun i => '(lat, lon) <- pt_loc op i ;;
        k <- get_num_neighbours G tree lat lon radius true ;; Ok (fz k))).
(** count(Grid, Grid, radius) and count(Points, Grid, radius), count.cpp:19-53 *)
Definition count_g (G : geo) (tree : kdtree) (og : grid) (radius : val) : res vec2 :=
  '(nY, nX) <- grid_size og ;;
  omp (for2 nY nX (init2 nY nX (fz 0)) (fun i j => '(lat, lon) <- out_loc og i j ;;
        k <- get_num_neighbours G tree lat lon radius true ;; Ok (fz k))).
