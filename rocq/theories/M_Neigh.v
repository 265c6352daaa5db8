(** Model of the neighbourhood filters (src/api/neighbourhood.cpp). *)
From Verif Require Import Base M_Stat M_Interp.

Notation vec2z := (list (list Z)).
(** neighbourhood.cpp:54-97: accumulated sums (double, exact here) and counts from the lower corner.
    [values] and [counts] start as zeros. *)
Definition sat_step (input : vec2) (i : Z) (s : vec2 * vec2z) (j : Z) : res (vec2 * vec2z) :=
  let '(values, counts) := s in
  value <- get2 input i j ;;
  let store v c := values' <- set2 values i j v ;; counts' <- set2 counts i j c ;; Ok (values', counts') in
  if (j =? 0) && (i =? 0) then
    if is_valid value then store value 1 else Ok s
  else if j =? 0 then
    v <- get2 values (i - 1) j ;; c <- get2 counts (i - 1) j ;;
    if is_valid value then store (vadd v value) (c + 1) else store v c
  else if i =? 0 then
    v <- get2 values i (j - 1) ;; c <- get2 counts i (j - 1) ;;
    if is_valid value then store (vadd v value) (c + 1) else store v c
  else
    v1 <- get2 values i (j - 1) ;; v2 <- get2 values (i - 1) j ;; v3 <- get2 values (i - 1) (j - 1) ;;
    c1 <- get2 counts i (j - 1) ;; c2 <- get2 counts (i - 1) j ;; c3 <- get2 counts (i - 1) (j - 1) ;;
    let v := vsub (vadd v1 v2) v3 in
    let c := c1 + c2 - c3 in
    if is_valid value then store (vadd v value) (c + 1) else store v c.
Definition sat (input : vec2) (nY nX : Z) : res (vec2 * vec2z) :=
  foldM (fun s i => foldM (sat_step input i) s (zrange 0 nX)) (init2 nY nX (fz 0), init2 nY nX 0) (zrange 0 nY).
(** neighbourhood.cpp:102-143: one output cell *)
Definition sat_cell (values : vec2) (counts : vec2z) (nY nX halfwidth : Z) (statistic : statistic) (i j : Z) : res val :=
  let i1 := Z.min (nY - 1) (i + halfwidth) in
  let j1 := Z.min (nX - 1) (j + halfwidth) in
  let i0 := i - halfwidth - 1 in
  let j0 := j - halfwidth - 1 in
  value11 <- get2 values i1 j1 ;;
  count11 <- get2 counts i1 j1 ;;
  ' (value00, value10, value01, count00, count10, count01) <-
    (if (0 <=? i0) && (0 <=? j0) then
       v00 <- get2 values i0 j0 ;; v10 <- get2 values i1 j0 ;; v01 <- get2 values i0 j1 ;;
       c00 <- get2 counts i0 j0 ;; c10 <- get2 counts i1 j0 ;; c01 <- get2 counts i0 j1 ;;
       Ok (v00, v10, v01, c00, c10, c01)
     else if 0 <=? j0 then
       v10 <- get2 values i1 j0 ;; c10 <- get2 counts i1 j0 ;; Ok (fz 0, v10, fz 0, 0, c10, 0)
     else if 0 <=? i0 then
       v01 <- get2 values i0 j1 ;; c01 <- get2 counts i0 j1 ;; Ok (fz 0, fz 0, v01, 0, 0, c01)
     else Ok (fz 0, fz 0, fz 0, 0, 0, 0)) ;;
  let value := vsub (vsub (vadd value11 value00) value10) value01 in
  let count := count11 + count00 - count10 - count01 in
  if stat_eqb statistic Count then Ok (fz count)
  else if 0 <? count then
    Ok (if stat_eqb statistic Mean then vdiv value (fz count) else value)
  else Ok MV.
(** the values in the clipped window, row by row (neighbourhood.cpp:165-174, 575-584); the code writes them to a
    vector of exactly that many elements *)
Definition hood (input : vec2) (nY nX halfwidth y x : Z) : res vec :=
  rows <- mapM (fun ii => mapM (fun jj => get2 input ii jj)
                 (zrange (Z.max 0 (x - halfwidth)) (Z.min (nX - 1) (x + halfwidth) + 1)))
               (zrange (Z.max 0 (y - halfwidth)) (Z.min (nY - 1) (y + halfwidth) + 1)) ;;
  Ok (concat rows).
(** neighbourhood.cpp:146-210.  Per row: near the top/bottom edge the valid window values, else column slivers. *)
Definition minmax_pre (E : ext) (input : vec2) (nY nX halfwidth : Z) (statistic : statistic) (i : Z) : res (option vec) :=
  if (i <? halfwidth) || (nY - halfwidth <=? i) then Ok None
  else
    slivers <- for1 nX (init1 nX (fz 0)) (fun j =>
      sliver <- mapM (fun ii => get2 input ii j) (zrange (i - halfwidth) (i + halfwidth + 1)) ;;
      calc_statistic E sliver statistic) ;;
    Ok (Some slivers).
Definition minmax_cell (E : ext) (input : vec2) (nY nX halfwidth : Z) (statistic : statistic) (i : Z) (p : option vec) (j : Z) : res val :=
  match p with
  | None => h <- hood input nY nX halfwidth i j ;; calc_statistic E (filter is_valid h) statistic
  | Some slivers =>
    curr <- mapM (fun jj => znth slivers jj) (zrange (Z.max 0 (j - halfwidth)) (Z.min (nX - 1) (j + halfwidth) + 1)) ;;
    calc_statistic E curr statistic
  end.
(** anonymous neighbourhood_brute_force on vec2, neighbourhood.cpp:556-602.  (The shared counter count_stat, updated
    by all threads without synchronisation and never read, is left out.) *)
Definition brute_force2 (E : ext) (input : vec2) (halfwidth : Z) (statistic : statistic) (quantile : val) : res vec2 :=
  if halfwidth <? 0 then Throw InvalidArgument else
  if zlen input =? 0 then Ok [] else
  i0 <- znth input 0 ;;
  if zlen i0 =? 0 then Ok [] else
  let nY := zlen input in let nX := zlen i0 in
  omp (for2 nY nX (init2 nY nX MV) (fun y x =>
    h <- hood input nY nX halfwidth y x ;;
    if stat_eqb statistic Quantile then calc_quantile h quantile else calc_statistic E h statistic)).
(** neighbourhood.cpp:528-530 *)
Definition neighbourhood_brute_force E input halfwidth statistic := brute_force2 E input halfwidth statistic (fz 0).
(** neighbourhood.cpp:534-536 *)
Definition neighbourhood_quantile E input quantile halfwidth := brute_force2 E input halfwidth Quantile quantile.
(** the Mean/Sum/Count branch, neighbourhood.cpp:45-145 *)
Definition neigh_sat (input : vec2) (nY nX halfwidth : Z) (statistic : statistic) : res vec2 :=
  ' (values, counts) <- sat input nY nX ;;
  omp (for2 nY nX (init2 nY nX MV) (sat_cell values counts nY nX halfwidth statistic)).
(** neighbourhood.cpp:28-242 *)
Definition neighbourhood (E : ext) (input : vec2) (halfwidth : Z) (statistic : statistic) : res vec2 :=
  if halfwidth <? 0 then Throw InvalidArgument else
  if stat_eqb statistic Quantile then Throw InvalidArgument else
  if zlen input =? 0 then Ok [] else
  i0 <- znth input 0 ;;
  if zlen i0 =? 0 then Ok [] else
  let nY := zlen input in let nX := zlen i0 in
  match statistic with
  | Mean | Sum | Count => neigh_sat input nY nX halfwidth statistic
  | Min | Max =>
    values <- omp (for_rows nY nX (init2 nY nX (fz 0)) (minmax_pre E input nY nX halfwidth statistic)
                                  (minmax_cell E input nY nX halfwidth statistic)) ;;
    omp (for2 nY nX (init2 nY nX MV) (fun i j => get2 values i j))
  | Std | Variance =>
    (* recursive calls with Mean; input2 has the size of input *)
    mean <- neigh_sat input nY nX halfwidth Mean ;;
    input2 <- for2 nY nX (map (fun row => map (fun _ => fz 0) row) input) (fun y x => v <- get2 input y x ;; Ok (vmul v v)) ;;
    mean2 <- neigh_sat input2 nY nX halfwidth Mean ;;
    for2 nY nX (init2 nY nX MV) (fun y x =>
      m2 <- get2 mean2 y x ;; m <- get2 mean y x ;;
      let d := vsub m2 (vmul m m) in
      Ok (if stat_eqb statistic Std then vsqrt E d else d))
  | _ => neighbourhood_brute_force E input halfwidth statistic
  end.
(** neighbourhood(vec3), neighbourhood.cpp:12-27 *)
Definition neighbourhood3 (E : ext) (input : vec3) (halfwidth : Z) (statistic : statistic) : res vec2 :=
  i0 <- znth input 0 ;; i00 <- znth i0 0 ;;
  let nY := zlen input in let nX := zlen i0 in
  flat <- for2 nY nX (init2 nY nX (fz 0)) (fun y x => m <- get2 input y x ;; calc_statistic E m statistic) ;;
  neighbourhood E flat halfwidth statistic.
(** window values of an ensemble, neighbourhood.cpp:636-646 *)
Definition hood3 (input : vec3) (nY nX nEns halfwidth y x : Z) : res vec :=
  rows <- mapM (fun ii => cells <- mapM (fun jj => mapM (fun e => get3 input ii jj e) (zrange 0 nEns))
                 (zrange (Z.max 0 (x - halfwidth)) (Z.min (nX - 1) (x + halfwidth) + 1)) ;; Ok (concat cells))
               (zrange (Z.max 0 (y - halfwidth)) (Z.min (nY - 1) (y + halfwidth) + 1)) ;;
  Ok (concat rows).
(** anonymous neighbourhood_brute_force on vec3, neighbourhood.cpp:603-654 *)
Definition brute_force3 (E : ext) (input : vec3) (halfwidth : Z) (statistic : statistic) (quantile : val) : res vec2 :=
  if halfwidth <? 0 then Throw InvalidArgument else
  if zlen input =? 0 then Ok [] else
  i0 <- znth input 0 ;;
  if zlen i0 =? 0 then Ok [] else
  i00 <- znth i0 0 ;;
  if zlen i00 =? 0 then Ok [] else
  let nY := zlen input in let nX := zlen i0 in let nEns := zlen i00 in
  omp (for2 nY nX (init2 nY nX MV) (fun y x =>
    h <- hood3 input nY nX nEns halfwidth y x ;;
    if stat_eqb statistic Quantile then calc_quantile h quantile else calc_statistic E h statistic)).
(** neighbourhood.cpp:531-533, 537-539 *)
Definition neighbourhood_brute_force3 E input halfwidth statistic := brute_force3 E input halfwidth statistic (fz 0).
Definition neighbourhood_quantile3 E input quantile halfwidth := brute_force3 E input halfwidth Quantile quantile.
(** get_neighbourhood_thresholds, neighbourhood.cpp:243-268 (vec2) and 269-297 (vec3) *)
Definition get_neighbourhood_thresholds (input : vec2) (num_thresholds : Z) : res vec :=
  if num_thresholds <=? 0 then Throw InvalidArgument else
  if zlen input =? 0 then Ok [] else
  i0 <- znth input 0 ;;
  if zlen i0 =? 0 then Ok [] else
  rows <- mapM (fun y => mapM (fun x => get2 input y x) (zrange 0 (zlen i0))) (zrange 0 (zlen input)) ;;
  all_values <- std_sort (filter is_valid (concat rows)) ;;
  calc_even_quantiles all_values num_thresholds.
Definition get_neighbourhood_thresholds3 (input : vec3) (num_thresholds : Z) : res vec :=
  if num_thresholds <=? 0 then Throw InvalidArgument else
  if zlen input =? 0 then Ok [] else
  i0 <- znth input 0 ;;
  if zlen i0 =? 0 then Ok [] else
  i00 <- znth i0 0 ;;
  if zlen i00 =? 0 then Ok [] else
  rows <- mapM (fun y => cells <- mapM (fun x => mapM (fun e => get3 input y x e) (zrange 0 (zlen i00))) (zrange 0 (zlen i0)) ;;
                         Ok (concat cells)) (zrange 0 (zlen input)) ;;
  all_values <- std_sort (filter is_valid (concat rows)) ;;
  calc_even_quantiles all_values num_thresholds.
