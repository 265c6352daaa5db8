(** Model of gridding.cpp, fill.cpp and doping.cpp. *)
From Verif Require Import Base M_Stat M_Geo M_Near.

(** gridding.cpp:24-31 (and 51-58): the statistic of the values of the points in range, if there are enough *)
Definition gridding_cell (E : ext) (G : geo) (ip : points) (values : vec) (radius : val) (min_num : Z) (st : statistic)
  (lat lon : val) : res val :=
  I <- get_neighbours G (s_tree ip) lat lon radius true ;;
  if (min_num <=? 0) || (min_num <=? zlen I)
  then curr <- mapM (fun i => znth values i) I ;; calc_statistic E curr st
  else Ok MV.
(** gridding(Grid, Points, ...), gridding.cpp:6-35 *)
Definition gridding_g (E : ext) (G : geo) (og : grid) (ip : points) (values : vec) (radius : val) (min_num : Z) (st : statistic) : res vec2 :=
  if negb (compat_points1 ip values) then Throw InvalidArgument else
  if negb (is_valid radius) || vltb radius (fz 0) then Throw InvalidArgument else
  if min_num <? 0 then Throw InvalidArgument else
  '(Y, X) <- grid_size og ;;
  omp (for2 Y X (init2 Y X MV) (fun y x =>
    '(lat, lon) <- out_loc og y x ;; gridding_cell E G ip values radius min_num st lat lon)).
(** gridding(Points, Points, ...), gridding.cpp:36-61.  The loop is inside [#pragma omp parallel] without [for], so
    every thread runs all of it and writes the same values; modelled by one run. *)
Definition gridding_p (E : ext) (G : geo) (op ip : points) (values : vec) (radius : val) (min_num : Z) (st : statistic) : res vec :=
  if negb (compat_points1 ip values) then Throw InvalidArgument else
  if negb (is_valid radius) || vltb radius (fz 0) then Throw InvalidArgument else
  if min_num <? 0 then Throw InvalidArgument else
  let N := points_size op in
  omp (for1 N (init1 N MV) (fun n =>
    '(lat, lon) <- pt_loc op n ;; gridding_cell E G ip values radius min_num st lat lon)).
(** gridding.cpp:93-96 (and 125-128) *)
Definition cell_stat (E : ext) (min_num : Z) (st : statistic) (t : vec) : res val :=
  if 0 <? zlen t then (if (min_num <=? 0) || (min_num <=? zlen t) then calc_statistic E t st else Ok MV) else Ok MV.
(** gridding_nearest(Grid, Points, ...), gridding.cpp:63-100 *)
Definition gridding_nearest_g (E : ext) (G : geo) (og : grid) (ip : points) (values : vec) (min_num : Z) (st : statistic) : res vec2 :=
  if negb (compat_points1 ip values) then Throw InvalidArgument else
  if min_num <? 0 then Throw InvalidArgument else
  '(Y, X) <- grid_size og ;;
  temp <- foldM (fun temp s =>
      '(lat, lon) <- pt_loc ip s ;;
      '(iY, iX) <- lookup_grid G og lat lon ;;
      v <- znth values s ;; t <- get2 temp iY iX ;; set2 temp iY iX (t ++ [v]))
    (init2 Y X []) (zrange 0 (zlen values)) ;;
  omp (for2 Y X (init2 Y X MV) (fun y x => t <- get2 temp y x ;; cell_stat E min_num st t)).
(** gridding_nearest(Points, Points, ...), gridding.cpp:101-131 *)
Definition gridding_nearest_p (E : ext) (G : geo) (op ip : points) (values : vec) (min_num : Z) (st : statistic) : res vec :=
  if negb (compat_points1 ip values) then Throw InvalidArgument else
  if min_num <? 0 then Throw InvalidArgument else
  let N := points_size op in
  temp <- foldM (fun temp s =>
      '(lat, lon) <- pt_loc ip s ;;
      index <- points_nearest G op lat lon true ;;
      v <- znth values s ;; t <- znth temp index ;; zset temp index (t ++ [v]))
    (init1 N []) (zrange 0 (zlen values)) ;;
  omp (for1 N (init1 N MV) (fun n => t <- znth temp n ;; cell_stat E min_num st t)).

(** fill, fill.cpp:6-41 *)
Definition fill (G : geo) (ig : grid) (input : vec2) (P : points) (radii : vec) (value : val) (outside : bool) : res vec2 :=
  c <- compat_grid2 ig input ;; if negb c then Throw InvalidArgument else
  if negb (points_size P =? zlen radii) then Throw InvalidArgument else
  if existsb (fun r => vltb r (fz 0)) radii then Throw InvalidArgument else
  let output := if outside then map (map (fun _ => value)) input else input in
  foldM (fun o i =>
      '(lat, lon) <- pt_loc P i ;;
      r <- znth radii i ;;
      I <- grid_neighbours G ig lat lon r true ;;
      foldM (fun o (c : Z * Z) =>
        if outside then v <- get2 input (fst c) (snd c) ;; set2 o (fst c) (snd c) v
        else set2 o (fst c) (snd c) value) o I)
    output (zrange 0 (points_size P)).

(** elevation test of doping.cpp:37-41 (83-87): true means the cell is skipped *)
Definition elev_skip (ig : grid) (pe max_elev_diff : val) (yy xx : Z) : res bool :=
  if is_valid max_elev_diff then
    ge <- get2 (g_elevs ig) yy xx ;; Ok (vltb max_elev_diff (vabs (vsub pe ge)))
  else Ok false.
(** doping_square, doping.cpp:5-48 *)
Definition doping_square (G : geo) (ig : grid) (background : vec2) (P : points) (observations : vec) (halfwidth : list Z) (max_elev_diff : val) : res vec2 :=
  c <- compat_grid2 ig background ;; if negb c then Throw InvalidArgument else
  if negb (points_size P =? zlen observations) then Throw InvalidArgument else
  if negb (points_size P =? zlen halfwidth) then Throw InvalidArgument else
  if is_valid max_elev_diff && vltb max_elev_diff (fz 0) then Throw InvalidArgument else
  '(Y, X) <- grid_size ig ;;
  if existsb (fun h => h <? 0) halfwidth then Throw InvalidArgument else
  foldM (fun o i =>
      '(lat, lon) <- pt_loc P i ;;
      '(iy, ix) <- lookup_grid G ig lat lon ;;
      curr <- znth observations i ;; h <- znth halfwidth i ;; pe <- znth (s_elevs P) i ;;
      foldM (fun o yy =>
        foldM (fun o xx =>
            skip <- elev_skip ig pe max_elev_diff yy xx ;;
            if (skip : bool) then Ok o else set2 o yy xx curr)
          o (zrange (Z.max 0 (ix - h)) (Z.min (X - 1) (ix + h) + 1)))
        o (zrange (Z.max 0 (iy - h)) (Z.min (Y - 1) (iy + h) + 1)))
    background (zrange 0 (points_size P)).
(** doping_circle, doping.cpp:50-93 *)
Definition doping_circle (G : geo) (ig : grid) (background : vec2) (P : points) (observations radii : vec) (max_elev_diff : val) : res vec2 :=
  c <- compat_grid2 ig background ;; if negb c then Throw InvalidArgument else
  if negb (points_size P =? zlen observations) then Throw InvalidArgument else
  if negb (points_size P =? zlen radii) then Throw InvalidArgument else
  if is_valid max_elev_diff && vltb max_elev_diff (fz 0) then Throw InvalidArgument else
  if existsb (fun r => vltb r (fz 0)) radii then Throw InvalidArgument else
  foldM (fun o i =>
      '(lat, lon) <- pt_loc P i ;;
      r <- znth radii i ;;
      I <- grid_neighbours G ig lat lon r true ;;
      curr <- znth observations i ;; pe <- znth (s_elevs P) i ;;
      foldM (fun o (c : Z * Z) =>
          skip <- elev_skip ig pe max_elev_diff (fst c) (snd c) ;;
          if (skip : bool) then Ok o else set2 o (fst c) (snd c) curr) o I)
    background (zrange 0 (points_size P)).

(** fill_missing, fill.cpp:43-134.  The row loop (49-78) and the column loop (85-113) are the same scan along a line;
    [get i] is values[y][i] resp. values[i][x].  The two counters count_y and count_x are not modelled (unused). *)
(** fill.cpp:58-62 (93-97): first index >= next holding a valid value, or n *)
Fixpoint find_next (get : Z -> res val) (fuel : nat) (next : Z) : res Z :=
  match fuel with
  | O => Ok next
  | S f => v <- get next ;; if is_valid v then Ok next else find_next get f (next + 1)
  end.
Definition line_step (get : Z -> res val) (n : Z) (s : Z * Z * vec) (x : Z) : res (Z * Z * vec) :=
  let '(last, next, results) := s in
  curr <- get x ;;
  if negb (is_valid curr) then
    next <- (if next <? x then find_next get (Z.to_nat (n - x)) x else Ok next) ;;
    if n <=? next then Ok (last, next, results ++ [MV]) else
    value_last <- get last ;;
    value_next <- get next ;;
    Ok (last, next, results ++ [vadd value_last (vdiv (vmul (vsub value_next value_last) (fz (x - last))) (fz (next - last)))])
  else Ok (x, next, results ++ [curr]).
Definition fill_line (get : Z -> res val) (n : Z) : res vec :=
  '(_, _, r) <- foldM (line_step get n) (0, -1, []) (zrange 0 n) ;; Ok r.
(** fill.cpp:118-129 *)
Definition combine_lines (a b : val) : val :=
  let '(total, count) := (if is_valid a then (vadd (fz 0) a, 1) else (fz 0, 0)) in
  let '(total, count) := (if is_valid b then (vadd total b, count + 1) else (total, count)) in
  if 0 <? count then vdiv total (fz count) else MV.
Definition fill_missing (values : vec2) : res vec2 :=
  let Y := zlen values in
  v0 <- znth values 0 ;;
  let X := zlen v0 in
  ry <- mapM (fun y => fill_line (fun x => get2 values y x) X) (zrange 0 Y) ;;
  (* results_x is stored by column here *)
  rx <- mapM (fun x => fill_line (fun y => get2 values y x) Y) (zrange 0 X) ;;
  tab2 Y X (fun y x => a <- get2 ry y x ;; b <- get2 rx x y ;; Ok (combine_lines a b)).
