(** Model of src/api/local_distribution_correction.cpp. *)
From Verif Require Import Base M_Geo M_Interp.

(** External code: exp of the C library and std::sort of (value, weight) pairs by value (ties in any order). *)
Record ldclib := { e_exp : val -> val; e_sort : list (val * val) -> list (val * val) }.

(** the arrays ref_rho and fcst_rho, sum_rho and count, local_distribution_correction.cpp:83-112.
    [I] are the neighbours, [loc] and [bgc] the structure function's localization_distance and corr_background(Point, Point). *)
Definition ldc_add (pobs pbg : vec2) (rho : val) (k : Z) (st : list (val * val) * list (val * val) * val * Z) (t : Z)
    : res (list (val * val) * list (val * val) * val * Z) :=
  o <- get2 pobs t k ;;
  if negb (is_valid o) then Ok st else
  b <- get2 pbg t k ;;
  if negb (is_valid b) then Ok st else
  if vltb o (fz 0) || vltb b (fz 0) then Ok st else
  let '(ref_rho, fcst_rho, sum_rho, count) := st in
  Ok (ref_rho ++ [(o, rho)], fcst_rho ++ [(b, rho)], vadd sum_rho rho, count + 1).
Definition ldc_collect (bgc : point -> point -> res val) (pts : points) (pobs pbg : vec2) (p1 : point) (I : list Z)
    : res (list (val * val) * list (val * val) * val * Z) :=
  foldM (fun st k =>
     p2 <- points_get pts k ;;
     rho <- bgc p1 p2 ;;
     foldM (ldc_add pobs pbg rho k) st (zrange 0 (zlen pobs))) ([], [], fz 0, 0) I.
(** std::vector(begin + d0, begin + d1), lines 123-124; a range outside the vector is undefined *)
Definition cut {A} (l : list A) (d0 d1 : Z) : res (list A) :=
  if (0 <=? d0) && (d0 <=? d1) && (d1 <=? zlen l) then Ok (firstn (Z.to_nat (d1 - d0)) (skipn (Z.to_nat d0) l)) else UB.
(** running sums of the weights, lines 135-141 *)
Fixpoint cumul (acc : val) (w : vec) : vec :=
  match w with [] => [] | x :: t => let a := vadd acc x in a :: cumul a t end.
(** ref_quantiles or fcst_quantiles after normalisation, lines 135-154 *)
Definition levels (min_quantile max_quantile : val) (w : vec) : res vec :=
  let c := fz 0 :: cumul (fz 0) w in
  sum <- znth c (zlen c - 1) ;;
  Ok (fz 0 :: map (fun x => vadd min_quantile (vmul (vdiv x sum) (vsub max_quantile min_quantile))) (cumul (fz 0) w)).
(** the corrected value when there are enough observations, lines 114-199; decimal constants are exact *)
Definition ldc_correct (L : ldclib) (min_quantile max_quantile : val) (b : val) (ref_rho fcst_rho : list (val * val))
    (sum_rho : val) (count : Z) : res val :=
  d0 <- to_int (vmul (fz count) min_quantile) ;;
  d1 <- to_int (vmul (fz count) max_quantile) ;;
  ref_rho <- cut (e_sort L ref_rho) d0 d1 ;;
  fcst_rho <- cut (e_sort L fcst_rho) d0 d1 ;;
  let ref := fz 0 :: map fst ref_rho in
  let fcst := fz 0 :: map fst fcst_rho in
  let new_count := zlen fcst in
  ref_quantiles <- levels min_quantile max_quantile (map snd ref_rho) ;;
  fcst_quantiles <- levels min_quantile max_quantile (map snd fcst_rho) ;;
  ref_last <- znth ref (new_count - 1) ;;
  fcst_last <- znth fcst (new_count - 1) ;;
  if vltb b (fq (1 # 100)) then Ok (fz 0)
  else if vleb ref_last (fz 0) then
    if vltb b (vmul (fz 3) fcst_last) then Ok (fz 0)
    else if vltb b (fq (1 # 10)) then Ok (fz 0)
    else Ok b
  else if vleb fcst_last b then Ok (vadd b (vsub ref_last fcst_last))
  else
    q <- interpolate b fcst fcst_quantiles ;;
    new_ref <- interpolate q ref_quantiles ref ;;
    let w0 := vsub (fz 1) (e_exp L (vneg (vmul (fq (1 # 100)) sum_rho))) in
    let w1 := vsub (fz 1) w0 in
    Ok (vadd (vmul w0 new_ref) (vmul w1 b)).
(** one cell, lines 66-200 *)
Definition ldc_cell (G : geo) (L : ldclib) (loc : point -> res val) (bgc : point -> point -> res val) (g : grid) (background : vec2)
    (pts : points) (pobs pbg : vec2) (min_quantile max_quantile : val) (min_points y x : Z) : res val :=
  b <- get2 background y x ;;
  if negb (is_valid b) then Ok b else
  lat <- get2 (g_lats g) y x ;;
  lon <- get2 (g_lons g) y x ;;
  p1 <- grid_get g y x ;;
  radius <- loc p1 ;;
  I <- get_neighbours G (s_tree pts) lat lon radius true ;;
  '(ref_rho, fcst_rho, sum_rho, count) <- ldc_collect bgc pts pobs pbg p1 I ;;
  if min_points <=? count then ldc_correct L min_quantile max_quantile b ref_rho fcst_rho sum_rho count else Ok b.
(** local_distribution_correction with several times, lines 33-203; the error message of line 52 reads pobs[0] and pbackground[0] *)
Definition ldc (G : geo) (L : ldclib) (loc : point -> res val) (bgc : point -> point -> res val) (g : grid) (background : vec2)
    (pts : points) (pobs pbg : vec2) (min_quantile max_quantile : val) (min_points : Z) : res vec2 :=
  r0 <- znth background 0 ;;
  let nY := zlen background in
  let nX := zlen r0 in
  if negb (zlen pobs =? zlen pbg) then (_ <- znth pobs 0 ;; _ <- znth pbg 0 ;; Throw InvalidArgument) else
  omp (for2 nY nX (init2 nY nX MV) (ldc_cell G L loc bgc g background pts pobs pbg min_quantile max_quantile min_points)).
(** local_distribution_correction with one time, lines 18-32 *)
Definition ldc1 (G : geo) (L : ldclib) (loc : point -> res val) (bgc : point -> point -> res val) (g : grid) (background : vec2)
    (pts : points) (pobs pbg : vec) (min_quantile max_quantile : val) (min_points : Z) : res vec2 :=
  ldc G L loc bgc g background pts [pobs] [pbg] min_quantile max_quantile min_points.
